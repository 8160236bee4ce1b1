(** Answers of the KIM library that potfit accepts. *)
From Coq Require Import Reals List Arith.
From Verif Require Import KiniModel.
Import ListNotations.

Definition usable (p : option param) : Prop := exists q, p = Some q /\ (0 < p_extent q)%nat /\ p_type q <> Unknown.
Definition acceptable {name} (l : library name) : Prop :=
  l_create l = Some true /\ l_extension l <> None /\ l_refresh l = Some true /\ l_write l <> None /\
  (forall s, In s (l_species l) -> exists n b, s = Some (n, Some b)) /\
  l_params l <> [] /\ (forall p, In p (l_params l) -> usable p).
(** place of the first value of parameter [i] *)
Fixpoint offset (l : list (option param)) (i : nat) : nat :=
  match l, i with
  | Some p :: l, S i => (p_extent p + offset l i)%nat
  | _, _ => 0%nat
  end.
