(** Cost and norm of the deviation vector; components of the stress. *)
From Coq Require Import Reals ZArith List Bool Lia Lra.
From Verif Require Import Vec NbrModel NbrProof LoopUtil PairModel PairProof PairSpec PairProof2 PairProof3.
Import ListNotations.
Local Open Scope R_scope.

(** xx, yy, zz, xy, yz, zx *)
Definition tensor_component (d f : vec) : list R :=
  [vx d * vx f; vy d * vy f; vz d * vz f; vx d * vy f; vy d * vz f; vz d * vx f].
Lemma stress_components : forall d f, map (stress_of d f) (seq 0 6) = tensor_component d f.
Proof. reflexivity. Qed.

Section N.
Variable bld : build.
Variables phi dphi : nat -> nat -> R -> R.
Variable in_range : nat -> nat -> R -> bool.
Variables eweight sweight : R.
Variable cp_energy : nat -> R.
Variable punish : R.
Variables (cs : nat -> conf) (nconf : nat).
(** squared norm of the deviation vector (without dummy constraints and punishments) *)
Definition squared_norm (s : dev) : R :=
  rsumf (fun ci => rsumf (fun a => sqv (frc s a)) (seq (cnfstart (cs ci)) (inconf (cs ci))) + sq (en s ci) +
    (if STRESS bld then rsumf (fun k => sq (str s ci k)) (seq 0 6) else 0)) (seq 0 nconf).
Theorem norm_is_cost : 
  (forall ci, cnfstart (cs (S ci)) = (cnfstart (cs ci) + inconf (cs ci))%nat) ->
  (forall ci i e, (ci < nconf)%nat -> (cnfstart (cs ci) <= i < cnfstart (cs ci) + inconf (cs ci))%nat ->
     In e (nb (cs ci) i) -> (i <= n_nr e < cnfstart (cs ci) + inconf (cs ci))%nat) ->
  CONTRIB bld = false -> eweight = 1 -> sweight = 1 -> punish = 0 ->
  (forall ci, (ci < nconf)%nat -> conf_weight (cs ci) = 1 /\ uf (cs ci) = true /\ us (cs ci) = true) ->
  forall s, let s' := calc_forces bld phi dphi in_range eweight sweight cp_energy punish cs nconf s in
  err s' = squared_norm s'.
Proof.
  intros H1 H2 CB EW SW PU W s s'. subst s'. rewrite scored_when_final by auto. rewrite PU, Rplus_0_r. unfold squared_norm.
  apply rsumf_ext. intros ci Hci. apply in_seq in Hci. destruct (W ci ltac:(lia)) as (W1 & W2 & W3).
  rewrite W1, W2, W3, CB, EW, SW. cbn [negb orb andb]. f_equal; [f_equal|].
  - apply rsumf_ext. intros; ring.
  - ring.
  - rewrite !andb_true_r. destruct (STRESS bld); auto. apply rsumf_ext. intros; ring.
Qed.
End N.
Definition lone : conf := mk_conf 0 1 true false 1 1 (fun _ => []) (fun _ => O) (fun _ => true) (fun _ => 0) (fun _ => v0) 1 (fun _ => 0).
Theorem norm_refuted : exists bld phi dphi in_range eweight sweight cp_energy cs nconf s,
  let s' := calc_forces bld phi dphi in_range eweight sweight cp_energy 0 cs nconf s in
  0 < eweight /\ (forall ci, conf_weight (cs ci) = 1 /\ uf (cs ci) = true) /\
  err s' = 2 /\ squared_norm bld cs nconf s' = 1.
Proof.
  exists (mk_build false false false), (fun _ _ _ => 0), (fun _ _ _ => 0), (fun _ _ _ => false), 2, 1, (fun _ => 0), (fun _ => lone), 1%nat,
    (mk_dev (fun _ => v0) (fun _ => 0) (fun _ _ => 0) 0).
  cbv zeta. split; [lra|]. split; [intros; split; reflexivity|].
  unfold squared_norm, calc_forces, for_up, config_body, score_stress, score_energy, reset_conf, rsumf, for_up. simpl.
  unfold setf, sq, sqv, score_atom, sq, vscale, v0; simpl. unfold setf, sqv, sq; simpl. split; field.
Qed.
