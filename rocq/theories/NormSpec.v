(** Points of the plane made of a sequence of numbers. *)
From Coq Require Import Reals.
Local Open Scope R_scope.

(** Pair [m] of the numbers after place [p], as a point of the plane. *)
Definition px (u : nat -> R) (p m : nat) : R := 2 * u (p + 2 * m)%nat - 1.
Definition py (u : nat -> R) (p m : nat) : R := 2 * u (p + 2 * m + 1)%nat - 1.
Definition rad2 (u : nat -> R) (p m : nat) : R := (px u p m) ^ 2 + (py u p m) ^ 2.
Definition inside (u : nat -> R) (p m : nat) : Prop := 0 < rad2 u p m < 1.
