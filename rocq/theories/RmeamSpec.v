(** Density and energy of a structure with a tabulated MEAM potential: the textbook sums of
    MeamSpec with the functions that the columns of the table stand for. *)
From Coq Require Import Reals ZArith List Bool.
From Verif Require Import Vec NbrModel PairModel PairSpec MeamSpec SplineModel RescaleModel RmeamModel.
Import ListNotations.
Local Open Scope R_scope.

Section Energy.
Variables fmt3 slots : bool.
Variable p : mpot.
Definition phi_at (s t : nat) (r : R) : R := at_slot fmt3 (mph p (Nat.min s t) (Nat.max s t)) r.
Definition phi_in (s t : nat) (r : R) : bool := below_end (mph p (Nat.min s t) (Nat.max s t)) r.
Definition F_at (t : nat) (x : R) : R := or0 (ev fmt3 (mem p t) x).
Definition table_density (c : conf) (pos : nat -> vec) (bx : box) (L : nat -> list (nat * image)) (a : nat) : R :=
  meam_density c pos bx (mdens fmt3 p) (mreach p) (mfv fmt3 p) (min2 p) (mgv fmt3 slots p) L a.
Definition table_energy (c : conf) (pos : nat -> vec) (bx : box) (L : nat -> list (nat * image)) : R :=
  pair_energy c pos bx phi_at phi_in L + rsumf (fun a => F_at (typ c a) (table_density c pos bx L a)) (seq (cnfstart c) (inconf c)).
End Energy.
