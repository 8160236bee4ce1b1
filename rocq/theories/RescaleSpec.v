(** Energy of a structure with a tabulated EAM potential: the textbook sums of PairSpec and
    EamSpec with the functions that the columns of the table stand for. *)
From Coq Require Import Reals ZArith List Bool.
From Verif Require Import Vec NbrModel PairModel PairSpec EamSpec SplineModel RescaleModel.
Import ListNotations.
Local Open Scope R_scope.

Section Energy.
Variable fmt3 : bool.
Variable p : pot.
Definition phi_of (s t : nat) (r : R) : R := or0 (ev fmt3 (ph p (Nat.min s t) (Nat.max s t)) r).
Definition range_of (s t : nat) (r : R) : bool := below_end (ph p (Nat.min s t) (Nat.max s t)) r.
Definition dens_of (_ t : nat) (r : R) : R := or0 (ev fmt3 (tr p t) r).
Definition reach_of (_ t : nat) (r : R) : bool := below_end (tr p t) r.
Definition F_of (_ t : nat) (x : R) : R := or0 (ev fmt3 (em p t) x).
Definition total_energy (c : conf) (pos : nat -> vec) (bx : box) (L : nat -> list (nat * image)) : R :=
  pair_energy c pos bx phi_of range_of L + embed_energy c pos bx 1 dens_of reach_of F_of L.
End Energy.
