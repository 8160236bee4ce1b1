(** C64, C76: angles of the three-body models. *)
From Coq Require Import Reals List Arith Lra.
From Verif Require Import Vec SplineModel SplineSpec AngleModel AngleProof.
Import ListNotations.
Local Open Scope R_scope.

(** C64.  n neighbours with unit directions: the range check never fires; every force routine
    visits exactly the triples of its model, none twice, each with the cosine stored for it. *)
Theorem C64_angles : forall n dotp checked,
  (forall j k, (j < n)%nat -> (k < n)%nat -> Rabs (dotp j k) <= 1) ->
  (exists s, init_angles n dotp checked Half = Some s /\
     visits_exactly n dotp (fun j k => (j < k)%nat) (use_meam n s) /\
     forall a, visits_exactly n dotp (fun j k => (j < k)%nat /\ a j = true) (use_stiweb n a s)) /\
  (exists s, init_angles n dotp checked Full = Some s /\
     forall a, visits_exactly n dotp (fun j k => j <> k /\ a j = true) (use_tersoff n a s)) /\
  (forall ins, exists s, init_angles n dotp checked (Within ins) = Some s /\
     visits_exactly n dotp (fun j k => (j < k)%nat /\ ins j = true /\ ins k = true) (use_ang n ins s)).
Proof. exact all_right. Qed.
Print Assumptions C64_angles.
Theorem C64_range : forall v w, norm v = 1 -> norm w = 1 -> Rabs (sprod v w) <= 1.
Proof. exact cosine_range. Qed.
Print Assumptions C64_range.
Example C64_ex : forall j k, (j < 3)%nat -> (k < 3)%nat -> Rabs ((fun j k => if Nat.eqb j k then 1 else 1/2) j k) <= 1.
Proof. intros j k _ _. simpl. destruct (Nat.eqb j k); rewrite Rabs_pos_eq; lra. Qed.

(** C76.  Analytic builds: inside of the table of g the stored slot gives value and slope of
    the curve at the stored cosine. *)
Theorem C76_analytic : forall c xi x, equidistant c -> begin c <= a_cos x < endr c ->
  let y := prepared true c (- begin c) x in
  (first c <= a_slot y < last c)%nat /\ 0 <= a_shift y < 1 /\ a_cos y = a_cos x /\
  splint_ed c xi (a_cos x) = Some (angle_g (d2tab c) xi y) /\ splint_grad_ed c xi (a_cos x) = angle_dg (d2tab c) xi y.
Proof. exact angle_slots_right. Qed.
Print Assumptions C76_analytic.
Example C76_ex : equidistant ex_g /\ begin ex_g <= 1/2 < endr ex_g.
Proof. exact ex_g_ok. Qed.
(** At the end of the table - cosine 1 in ANG - the slope is not that of the curve. *)
Theorem C76_end_refuted : exists c xi g g', equidistant c /\ updated_ed c xi 0 0 /\
  splint_grad_ed c xi (endr c) = Some g /\
  angle_dg (d2tab c) xi (prepared true c (- begin c) (new_angle (endr c))) = Some g' /\ g <> g'.
Proof. exact angle_end_refuted. Qed.
Print Assumptions C76_end_refuted.
(** Tabulated builds: for every angle the slope is a division by zero and the value is the
    first entry of the whole table. *)
Theorem C76_tabulated_refuted : forall c off d2 xi x,
  angle_dg d2 xi (prepared false c off (new_angle x)) = None /\
  angle_g d2 xi (prepared false c off (new_angle x)) = xi 0%nat.
Proof. exact tabulated_angle. Qed.
Print Assumptions C76_tabulated_refuted.
