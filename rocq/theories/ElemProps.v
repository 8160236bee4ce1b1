(** C53: the element table. *)
From Coq Require Import ZArith List String.
From Verif Require Import ElemModel ElemProof.
Import ListNotations.
Local Open Scope string_scope.

(** C53.  Looking up the number by name and the mass by number gives the mass by name, for
    every string; each name and each short name of the table finds its own element; other
    strings are unknown to both; no int leads outside of the table. *)
Theorem C53_mass_agrees : forall s, mass_from_number (number_from_name s) = mass_from_name s.
Proof. exact mass_agrees. Qed.
Print Assumptions C53_mass_agrees.
Theorem C53_own_element : forall k e, nth_error elements k = Some e ->
  (number_from_name (e_name e) = Z.of_nat k + 1)%Z /\ (number_from_name (e_short e) = Z.of_nat k + 1)%Z /\
  mass_from_name (e_name e) = e_mass e /\ mass_from_name (e_short e) = e_mass e.
Proof. exact own_element. Qed.
Print Assumptions C53_own_element.
Theorem C53_unknown : forall s, (number_from_name s = 0%Z <-> forall e, In e elements -> e_name e <> s /\ e_short e <> s) /\
  (number_from_name s = 0%Z <-> mass_from_name s = 0%Z).
Proof. exact unknown. Qed.
Print Assumptions C53_unknown.
Theorem C53_every_number : forall num, (-2147483648 <= num < 2147483648)%Z ->
  ((1 <= num <= 110)%Z -> exists e, nth_error elements (Z.to_nat (num - 1)) = Some e /\ mass_from_number num = e_mass e) /\
  (~ (1 <= num <= 110)%Z -> mass_from_number num = 0%Z).
Proof. exact number_total. Qed.
Print Assumptions C53_every_number.
Example C53_ex : nth_error elements 12 = Some (Elem "Aluminum" "Al" 26981540) /\ number_from_name "Al" = 13%Z /\
  number_from_name "Aluminium" = 0%Z /\ number_from_name "Sg" = 0%Z.
Proof. repeat split. Qed.

(** The masses belong to the rows they stand in, roughly: between A = Z and A = 3Z. *)
Theorem C53_masses_plausible : forall k e, nth_error elements k = Some e ->
  (Z.of_nat (k + 1) * 1000000 <= e_mass e <= 3 * (Z.of_nat (k + 1) * 1000000))%Z.
Proof. exact masses_plausible. Qed.
Print Assumptions C53_masses_plausible.
