(** Stillinger-Weber functions as in the literature. *)
From Coq Require Import Reals List Bool.
From Verif Require Import Vec NbrModel PairModel PairSpec ThreeSpec.
Import ListNotations.
Local Open Scope R_scope.

(** Parameters of a pair of types: A B p q delta a; gamma and a of the three-body term. *)
Record sw_pair := mk_sw { sw_A : R; sw_B : R; sw_p : R; sw_q : R; sw_delta : R; sw_a1 : R; sw_gamma : R; sw_a2 : R }.
Section Functions.
Variable par : nat -> nat -> sw_pair.
Variable lam : nat -> nat -> nat -> R.
Definition two_in (s t : nat) (r : R) : bool := if Rlt_dec r (sw_a1 (par s t)) then true else false.
Definition two (s t : nat) (r : R) : R := let w := par s t in
  (sw_A w * Rpower r (- sw_p w) - sw_B w * Rpower r (- sw_q w)) * exp (sw_delta w / (r - sw_a1 w)).
Definition two' (s t : nat) (r : R) : R := let w := par s t in
  (- sw_p w * sw_A w * Rpower r (- sw_p w) + sw_q w * sw_B w * Rpower r (- sw_q w)) / r * exp (sw_delta w / (r - sw_a1 w))
  - sw_delta w / ((r - sw_a1 w) * (r - sw_a1 w)) * two s t r.
(** the cutoff function of the three-body term, set to zero where it is below exp(-100) *)
Definition reached (s t : nat) (r : R) : bool := let w := par s t in
  if Rlt_dec r (sw_a2 w) then (if Rlt_dec (r - sw_a2 w) (- (1 / 100) * sw_gamma w) then true else false) else false.
Definition cut (s t : nat) (r : R) : R := let w := par s t in if reached s t r then exp (sw_gamma w / (r - sw_a2 w)) else 0.
Definition cut' (s t : nat) (r : R) : R := let w := par s t in
  if reached s t r then - sw_gamma w / ((r - sw_a2 w) * (r - sw_a2 w)) * exp (sw_gamma w / (r - sw_a2 w)) else 0.
Definition bend (i j k : nat) (x : R) : R := lam i j k * ((x + 1/3) * (x + 1/3)).
Definition bend' (i j k : nat) (x : R) : R := lam i j k * (2 * (x + 1/3)).
Definition three (i j k : nat) (r1 r2 x : R) : R := cut i j r1 * cut i k r2 * bend i j k x.
Definition three1 (i j k : nat) (r1 r2 x : R) : R := cut' i j r1 * cut i k r2 * bend i j k x.
Definition threec (i j k : nat) (r1 r2 x : R) : R := cut i j r1 * cut i k r2 * bend' i j k x.
End Functions.
(** no atom is a neighbour of one of its images *)
Definition no_self (c : conf) (L : nat -> list (nat * image)) : Prop :=
  forall a v, (cnfstart c <= a < cnfstart c + inconf c)%nat -> In v (L a) -> fst v <> a.
