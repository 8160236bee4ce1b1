(** Which functions of a tabulated potential are which; what is fixed by convention. *)
From Coq Require Import Arith Bool.
From Verif Require Import TabModel.

Definition pairs_of (n : nat) : nat := n * (n + 1) / 2.
Definition between (a i b : nat) : bool := (a <=? i) && (i <? b).
(** column [i] is an embedding function, for [n] atom types *)
Definition embedding (b : build) (n i : nat) : bool :=
  let pc := pairs_of n in
  match b with
  | Eam | Adp | Meam => between (pc + n) i (pc + 2 * n)
  | Tbeam => between (pc + n) i (pc + 2 * n) || between (pc + 3 * n) i (pc + 4 * n)
  | Pairs | Ang => false
  end.
(** the angular function g of MEAM *)
Definition angular (b : build) (n i : nat) : bool :=
  match b with Meam => between (2 * pairs_of n + 2 * n) i (2 * pairs_of n + 3 * n) | _ => false end.
(** the first function f of MEAM, which carries the scale of f f g *)
Definition first_f (b : build) (n i : nat) : bool :=
  match b with Meam => i =? pairs_of n + 2 * n | _ => false end.
Definition quadrupole (b : build) (n i : nat) : bool :=
  match b with Adp => between (2 * pairs_of n + 2 * n) i (3 * pairs_of n + 2 * n) | _ => false end.
(** Position [j] of a column from [a] to [z] is fixed by convention: functions that go to zero at
    the cutoff keep their last value, the first f its first. *)
Definition fixed3 (b : build) (n i a z j : nat) : bool :=
  ((j =? z) && negb (embedding b n i) && negb (angular b n i)) || ((j =? a) && first_f b n i).
(** in format 4 the last value of the quadrupole functions is not fixed *)
Definition fixed4 (b : build) (n i z j : nat) : bool :=
  (j =? z) && negb (embedding b n i) && negb (quadrupole b n i).
(** natural spline (gradient 1e30) at the left and right end, otherwise gradient zero *)
Definition natural_left (b : build) (n i : nat) : bool := negb (angular b n i).
Definition natural_right (b : build) (n i : nat) : bool := embedding b n i || quadrupole b n i.
