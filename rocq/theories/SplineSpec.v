(** What an interpolated curve has to satisfy, without reference to how it is computed. *)
From Coq Require Import Reals.
From Verif Require Import SplineModel.
Local Open Scope R_scope.

(** [val] and [grad] are, on [lo, hi], a function and its derivative; the curve is twice
    continuously differentiable inside; it has slope [s1], [s2] at the ends, or curvature
    zero where the slope asked for exceeds 0.99e30 ("natural"). *)
Definition smooth_curve (lo hi s1 s2 : R) (val grad : R -> option R) : Prop :=
  exists v g w : R -> R,
    (forall r, lo <= r <= hi -> val r = Some (v r) /\ grad r = Some (g r)) /\
    (forall r, lo < r < hi -> derivable_pt_lim v r (g r) /\ derivable_pt_lim g r (w r) /\ continuity_pt w r) /\
    (s1 <= NATURAL -> g lo = s1) /\ (NATURAL < s1 -> w lo = 0) /\
    (s2 <= NATURAL -> g hi = s2) /\ (NATURAL < s2 -> w hi = 0).

(** The second derivatives of the column are those that update_splines
    (force_common.c:225-252) stores; [junk]: content of the table before. *)
Definition points (c : column) : nat := (last c - first c + 1)%nat.
Definition behind (a : arr) (k : nat) : arr := fun i => a (k + i)%nat.
Definition updated_ed (c : column) (xi : arr) (s1 s2 : R) : Prop := exists junk,
  forall i, (i < points c)%nat ->
  d2tab c (first c + i)%nat = spline_ed (step c) (behind xi (first c)) (points c) s1 s2 junk i.
Definition updated_ne (c : column) (xi : arr) (s1 s2 : R) : Prop := exists junk,
  forall i, (i < points c)%nat ->
  d2tab c (first c + i)%nat =
  spline_ne (behind (xcoord c) (first c)) (behind xi (first c)) (points c) s1 s2 junk i.
