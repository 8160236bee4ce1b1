(** The search for the size of a perturbation, to its end: C80. *)
From Coq Require Import Reals List Arith Bool Lia Lra Ranalysis.
From Verif Require Import LoopUtil UqModel UqSpec PertModel PertProof PertProof2.
Local Open Scope R_scope.

(** C80.  For a continuous cost that is larger than the aim beyond some size of the
    perturbation the search ends. *)
Theorem C80_ends : forall cost x index aim (neg : bool) B, 0 < aim -> pert_cost cost x index 0 < aim -> (forall p, continuity_pt (pert_cost cost x index) p) ->
  (forall t, B < t -> aim <= pert_cost cost x index (if neg then - t else t)) ->
  exists fuel, forall m, (fuel <= m)%nat -> exists r, hess_bracketing cost x index aim neg m = Some r.
Proof. exact bracketing_ends. Qed.
Print Assumptions C80_ends.
Example C80_ends_ex : 0 < 3 / 2 /\ pert_cost parabola ones 0 0 < 3 / 2 /\ (forall p, continuity_pt (pert_cost parabola ones 0) p) /\ (forall t, 1 < t -> 3 / 2 <= pert_cost parabola ones 0 t).
Proof. exact ex_parabola. Qed.

(** Every result that is a number is where the line through two points that enclose the aim
    meets it, and lies between them, in the direction asked for.  No call of error. *)
Theorem C80_result : forall cost x index aim (neg : bool) fuel r, 0 < aim -> hess_bracketing cost x index aim neg fuel = Some r ->
  (r = Invalid \/ exists p, r = Pert p /\ exists l u, (if neg then l < 0 else 0 < l) /\ (if neg then u < 0 else 0 < u) /\
    pert_cost cost x index l <= aim <= pert_cost cost x index u /\ pert_cost cost x index l < pert_cost cost x index u /\
    (Rabs l <= p <= Rabs u \/ Rabs u <= p <= Rabs l) /\
    p = Rabs (l + (aim - pert_cost cost x index l) / (pert_cost cost x index u - pert_cost cost x index l) * (u - l))).
Proof. exact bracketing_spec. Qed.
Print Assumptions C80_result.
Example C80_result_ex : exists fuel r, hess_bracketing parabola ones 0 (3 / 2) false fuel = Some r.
Proof. exact ex_result. Qed.

(** Refuted: a cost that jumps over the aim (as punished or cut off ones do) *)
Theorem C80_jump_refuted : exists cost x index aim, 0 < aim /\ pert_cost cost x index 0 < aim /\ (forall t, 1 < t -> aim <= pert_cost cost x index t) /\
  forall fuel, hess_bracketing cost x index aim false fuel = None.
Proof. exact jump_refuted. Qed.
Print Assumptions C80_jump_refuted.
Theorem C80_jump : forall cost x index aim (neg : bool) fuel, 0 < aim -> (forall p, pert_cost cost x index p < 9 / 10 * aim \/ aim < pert_cost cost x index p) ->
  hess_bracketing cost x index aim neg fuel = None.
Proof. exact bracketing_jump. Qed.
Print Assumptions C80_jump.
(** and an aim that is met exactly by the first guess gives 0/0 *)
Theorem C80_exact_refuted : forall cost x index aim (neg : bool) fuel, 0 < aim -> pert_cost cost x index (if neg then - (1 / 1000000) else 1 / 1000000) = aim ->
  hess_bracketing cost x index aim neg (S fuel) = Some Invalid.
Proof. exact bracketing_exact. Qed.
Print Assumptions C80_exact_refuted.
Example C80_exact_ex : pert_cost parabola ones 0 (1 / 1000000) = 1 + 1 / 1000000 * (1 / 1000000).
Proof. unfold pert_cost, parabola, ones, upd. cbn. lra. Qed.
