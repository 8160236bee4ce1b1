(** Specification of the evaluation of KIM models. *)
From Coq Require Import Reals ZArith List Bool.
From Verif Require Import KevModel.
Import ListNotations.
Local Open Scope R_scope.

Fixpoint sum_to (n : nat) (f : nat -> R) : R := match n with O => 0 | S n => sum_to n f + f n end.
Fixpoint sum_over {A} (f : A -> R) (l : list A) : R := match l with [] => 0 | a :: l => f a + sum_over f l end.
(** Square of the distance of a parameter to its interval *)
Definition outside (p : R * R * R) : R :=
  let '(x, mn, mx) := p in Rsqr (Rmax (Rmax (mn - x) (x - mx)) 0).
(** Components of a symmetric tensor: order of potfit's stresses (force_pair.c:246-251) and
    of the virial in the KIM API *)
Definition potfit_order (t : nat -> nat -> R) (k : nat) : R :=
  match k with 0 => t 0 0 | 1 => t 1 1 | 2 => t 2 2 | 3 => t 0 1 | 4 => t 1 2 | _ => t 2 0 end%nat.
Definition kim_order (t : nat -> nat -> R) (k : nat) : R :=
  match k with 0 => t 0 0 | 1 => t 1 1 | 2 => t 2 2 | 3 => t 1 2 | 4 => t 0 2 | _ => t 0 1 end%nat.
(** All distances of the model are at most those the neighbour lists were made for *)
Definition covered (k0 k : cuts) : Prop :=
  k_infl k <= k_infl k0 /\ Forall2 (fun a b => a <= b) (k_lists k) (k_lists k0).
