(** C22-C24, C67: cubic splines and table lookup. *)
From Coq Require Import Reals.
From Verif Require Import SplineModel SplineSpec SplineProof3 SplineProof4 SplineProof5.
Local Open Scope R_scope.

(** C22.  The interpolation passes through every sampling point, is twice continuously
    differentiable and has the requested end conditions. *)
Theorem C22_spline_ed : forall c xi s1 s2, equidistant c -> updated_ed c xi s1 s2 ->
  smooth_curve (begin c) (endr c) s1 s2 (splint_ed c xi) (splint_grad_ed c xi) /\
  forall i, (first c <= i <= last c)%nat -> splint_ed c xi (begin c + INR (i - first c) * step c) = Some (xi i).
Proof. exact smooth_ed. Qed.
Print Assumptions C22_spline_ed.
Theorem C22_spline_ne : forall c xi s1 s2, listed c -> updated_ne c xi s1 s2 ->
  smooth_curve (begin c) (endr c) s1 s2 (fun r => Some (splint_ne c xi r)) (fun r => Some (splint_grad_ne c xi r)) /\
  forall i, (first c <= i <= last c)%nat -> splint_ne c xi (xcoord c i) = xi i.
Proof. exact smooth_ne. Qed.
Print Assumptions C22_spline_ne.
Example C22_ex_ed : equidistant (ex_eq ex_eqd) /\ updated_ed (ex_eq ex_eqd) ex_xi 1 0.
Proof. split; [apply ex_equidistant|exact ex_eq_updated]. Qed.
Example C22_ex_ne : listed (ex_col ex_d) /\ updated_ne (ex_col ex_d) ex_xi 1 (2 * NATURAL).
Proof. split; [apply ex_listed|exact ex_updated]. Qed.

(** C23.  That the gradient is the derivative of the value is part of [smooth_curve] above.
    The combined evaluation agrees with the separate functions inside the table... *)
Theorem C23_comb_ed : forall c xi r, equidistant c -> begin c <= r < endr c -> exists v g,
  splint_ed c xi r = Some v /\ splint_grad_ed c xi r = Some g /\ splint_comb_ed c xi r = Some (v, g).
Proof. exact pieces_ed. Qed.
Print Assumptions C23_comb_ed.
Theorem C23_comb_ne : forall c xi r, splint_comb_ne c xi r = (splint_ne c xi r, splint_grad_ne c xi r).
Proof. exact comb_ne. Qed.
Print Assumptions C23_comb_ne.
Theorem C23_comb_dir : forall d2 xi k b st,
  splint_comb_dir d2 xi k b st = (splint_dir d2 xi k b st, splint_grad_dir d2 xi k b st).
Proof. exact comb_dir. Qed.
Print Assumptions C23_comb_dir.
(** ... but not at the right end of an equidistant table. *)
Theorem C23_comb_ed_end_refuted : exists c xi v g g',
  equidistant c /\ updated_ed c xi 0 0 /\ splint_ed c xi (endr c) = Some v /\
  splint_grad_ed c xi (endr c) = Some g /\ splint_comb_ed c xi (endr c) = Some (v, g') /\ g = 0 /\ g' = 1.
Proof. exact comb_ed_end_refuted. Qed.
Print Assumptions C23_comb_ed_end_refuted.
Example C23_ex : equidistant (ex_eq ex_eqd) /\ begin (ex_eq ex_eqd) <= 3/2 < endr (ex_eq ex_eqd).
Proof. split; [apply ex_equidistant|]. simpl; split; [apply Rmult_le_reg_r with 2|apply Rmult_lt_reg_r with 2]; try apply Rlt_0_2; Lra.lra. Qed.

(** C24.  The precomputed slot of a neighbour lies in the table, contains the distance, and
    gives the values that direct evaluation gives. *)
Theorem C24_slot_ed : forall c xi, equidistant c -> forall r, begin c <= r <= endr c -> exists k b,
  slot_ed c r = Some (k, b, step c) /\ (first c <= k < last c)%nat /\ 0 <= b <= 1 /\
  begin c + (INR (k - first c) + b) * step c = r /\
  splint_ed c xi r = Some (splint_dir (d2tab c) xi k b (step c)) /\
  splint_grad_ed c xi r = Some (splint_grad_dir (d2tab c) xi k b (step c)).
Proof. exact ed_slot_neighbour. Qed.
Print Assumptions C24_slot_ed.
Theorem C24_slot_ne : forall c xi, listed c -> forall r k b st, slot_ne c r = (k, b, st) ->
  (first c <= k < last c)%nat /\ xcoord c k + b * st = r /\ xcoord c (k + 1)%nat = xcoord c k + st /\
  (begin c <= r <= endr c -> 0 <= b <= 1) /\
  splint_dir (d2tab c) xi k b st = splint_ne c xi r /\ splint_grad_dir (d2tab c) xi k b st = splint_grad_ne c xi r.
Proof. exact ne_slot. Qed.
Print Assumptions C24_slot_ne.
(** Bisection ends at the interval around the argument. *)
Theorem C24_bisection : forall c r, listed c -> exists k, ne_find c r = (k, (k + 1)%nat) /\
  (first c <= k < last c)%nat /\
  (begin c <= r -> xcoord c k <= r) /\ (r < endr c -> r < xcoord c (k + 1)%nat) /\
  (r <= begin c -> k = first c) /\ (endr c <= r -> (k + 1)%nat = last c).
Proof. exact ne_find_spec. Qed.
Print Assumptions C24_bisection.
Theorem C24_short : forall c xi r, r < begin c ->
  splint_ed c xi r = None /\ splint_grad_ed c xi r = None /\ splint_comb_ed c xi r = None /\ slot_ed c r = None.
Proof. exact ed_short. Qed.
Print Assumptions C24_short.
Example C24_ex : listed (ex_col ex_d) /\ equidistant (ex_eq ex_eqd).
Proof. split; [apply ex_listed|apply ex_equidistant]. Qed.

(** C67.  splint_ne_lin: the curve inside, its tangents outside. *)
Theorem C67_inside : forall c xi r, begin c <= r <= endr c -> splint_ne_lin c xi r = splint_ne c xi r.
Proof. exact lin_inside. Qed.
Print Assumptions C67_inside.
Theorem C67_left : forall c xi, listed c -> forall r, r < begin c ->
  splint_ne_lin c xi r = splint_ne c xi (begin c) + splint_grad_ne c xi (begin c) * (r - begin c).
Proof. exact lin_left. Qed.
Print Assumptions C67_left.
Theorem C67_right : forall c xi, listed c -> forall r, endr c < r ->
  splint_ne_lin c xi r = splint_ne c xi (endr c) + splint_grad_ne c xi (endr c) * (r - endr c).
Proof. exact lin_right. Qed.
Print Assumptions C67_right.
Example C67_ex : listed (ex_col ex_d) /\ 0 < begin (ex_col ex_d).
Proof. split; [apply ex_listed|exact Rlt_0_1]. Qed.
