(** The three-body term of the angular potentials: f(r1) f(r2) g(cos), f cut off. *)
From Coq Require Import Reals List Bool.
From Verif Require Import Vec NbrModel PairModel PairSpec ThreeSpec.
Local Open Scope R_scope.

Section Functions.
Variables f df : nat -> nat -> R -> R.
Variable inside : nat -> nat -> R -> bool.
Variables g dg : nat -> R -> R.
Definition off (h : nat -> nat -> R -> R) (s t : nat) (r : R) : R := if inside s t r then h s t r else 0.
Definition ang (i j k : nat) (r1 r2 x : R) : R := off f i j r1 * off f i k r2 * g i x.
Definition ang1 (i j k : nat) (r1 r2 x : R) : R := off df i j r1 * off f i k r2 * g i x.
Definition angc (i j k : nat) (r1 r2 x : R) : R := off f i j r1 * off f i k r2 * dg i x.
End Functions.
