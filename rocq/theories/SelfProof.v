(** Proofs about the self energy of charges (ElModel.self_factor). *)
From Coq Require Import Reals Lra.
From Verif Require Import FuncModel FuncProof3 ElModel.
Local Open Scope R_scope.

Definition right (r : R) : Prop := 0 < r.
Section S.
Variables (erfc : R -> R) (kappa rc : R).
Hypothesis E0 : erfc 0 = 1.
Hypothesis E1 : derivable_pt_lim erfc 0 (- 2 / sqrt PI).
Hypothesis KP : 0 < kappa.
Hypothesis RC : 0 < rc.

Lemma pi_pos : 0 < sqrt PI. Proof. apply sqrt_lt_R0, PI_RGT_0. Qed.
Lemma bare : limit1_in (fun r => DP_EPS * erfc (kappa * r) / r - DP_EPS / r) right (- 2 * (DP_EPS * kappa / sqrt PI)) 0.
Proof.
  intros e He. assert (EP : 0 < DP_EPS) by (unfold DP_EPS; lra). assert (KE : 0 < DP_EPS * kappa) by (apply Rmult_lt_0_compat; auto).
  destruct (E1 (e / (DP_EPS * kappa))) as (d & Hd); [apply Rdiv_lt_0_compat; auto|].
  exists (d / kappa). split; [apply Rdiv_lt_0_compat; [apply cond_pos|auto]|].
  intros r (Hr & Dr). unfold right in Hr. simpl in Dr |- *. unfold R_dist in *. rewrite Rminus_0_r in Dr. rewrite Rabs_pos_eq in Dr by lra.
  assert (KR : 0 < kappa * r) by (apply Rmult_lt_0_compat; auto).
  assert (KD : kappa * r < d). { apply (Rmult_lt_compat_l kappa) in Dr; auto. replace (kappa * (d / kappa)) with (pos d) in Dr by (field; lra). exact Dr. }
  specialize (Hd (kappa * r) ltac:(lra)). rewrite Rabs_pos_eq in Hd by lra. specialize (Hd KD). rewrite Rplus_0_l, E0 in Hd.
  assert (SP := pi_pos).
  replace (DP_EPS * erfc (kappa * r) / r - DP_EPS / r - - 2 * (DP_EPS * kappa / sqrt PI)) with
    (DP_EPS * kappa * ((erfc (kappa * r) - 1) / (kappa * r) - - 2 / sqrt PI)) by (field; repeat split; lra).
  rewrite Rabs_mult, (Rabs_pos_eq (DP_EPS * kappa)) by lra.
  apply (Rmult_lt_compat_l (DP_EPS * kappa)) in Hd; auto.
  replace (DP_EPS * kappa * (e / (DP_EPS * kappa))) with e in Hd by (field; lra). exact Hd.
Qed.
Lemma poly a b c : limit1_in (fun r => a + b * r + c * (r * r)) right a 0.
Proof.
  enough (Q : limit1_in (fun r => a + b * r + c * (r * r)) right (a + b * 0 + c * (0 * 0)) 0).
  { replace (a + b * 0 + c * (0 * 0)) with a in Q by ring. exact Q. }
  assert (I : limit1_in (fun r => r) right 0 0) by apply lim_x.
  apply (limit_plus (fun r => a + b * r) (fun r => c * (r * r))); [apply (limit_plus (fun _ => a) (fun r => b * r)); [exact (limit_free (fun _ => a) right 0 0)|]|].
  - apply (limit_mul (fun _ => b) (fun r => r)); [exact (limit_free (fun _ => b) right 0 0)|exact I].
  - apply (limit_mul (fun _ => c) (fun r => r * r)); [exact (limit_free (fun _ => c) right 0 0)|]. apply (limit_mul (fun r => r) (fun r => r)); exact I.
Qed.
Lemma lim_ext f g l : (forall r, 0 < r -> f r = g r) -> limit1_in f right l 0 -> limit1_in g right l 0.
Proof.
  intros H L e He. destruct (L e He) as (d & Dp & HD). exists d. split; auto. intros r (Hr & Dr). rewrite <- H by exact Hr. apply HD. auto.
Qed.
Theorem self_dsf : limit1_in (fun r => fst (fst (elstat_dsf erfc false rc r kappa)) - DP_EPS / r) right (- 2 * self_factor erfc true rc kappa) 0.
Proof.
  unfold self_factor, elstat_dsf. destruct (elstat_value erfc rc kappa) as [[fc gc] hc] eqn:EC.
  apply (lim_ext (fun r => (DP_EPS * erfc (kappa * r) / r - DP_EPS / r) + ((- fc + gc * rc * rc) + (- gc * rc) * r + 0 * (r * r)))).
  - intros r _. unfold elstat_value. cbn [fst snd]. ring.
  - replace (- 2 * (DP_EPS * kappa / sqrt PI + (fc - gc * rc * rc) * (1 / 2))) with (- 2 * (DP_EPS * kappa / sqrt PI) + (- fc + gc * rc * rc)) by (field; apply Rgt_not_eq, pi_pos).
    apply (limit_plus _ _ right _ _ 0 bare (poly _ _ _)).
Qed.
(** what is missing with the plain shift: the constant of the shifted function *)
Definition missing : R := let '(fc, gc, _) := elstat_value erfc rc kappa in fc - rc * rc * gc / 2.
Theorem self_shift : limit1_in (fun r => fst (fst (elstat_shift erfc false rc r kappa)) - DP_EPS / r) right (- 2 * self_factor erfc false rc kappa - missing) 0.
Proof.
  unfold self_factor, elstat_shift, missing. destruct (elstat_value erfc rc kappa) as [[fc gc] hc] eqn:EC.
  apply (lim_ext (fun r => (DP_EPS * erfc (kappa * r) / r - DP_EPS / r) + ((- fc + rc * rc * gc / 2) + 0 * r + (- gc / 2) * (r * r)))).
  - intros r _. unfold elstat_value. cbn [fst snd]. unfold Rdiv. ring.
  - replace (- 2 * (DP_EPS * kappa / sqrt PI) - (fc - rc * rc * gc / 2)) with (- 2 * (DP_EPS * kappa / sqrt PI) + (- fc + rc * rc * gc / 2)) by (field; apply Rgt_not_eq, pi_pos).
    apply (limit_plus _ _ right _ _ 0 bare (poly _ _ _)).
Qed.
Lemma missing_pos : 0 < erfc (kappa * rc) -> 0 < missing.
Proof.
  intros H. unfold missing, elstat_value. cbv zeta.
  assert (EP : 0 < DP_EPS) by (unfold DP_EPS; lra). assert (SP := pi_pos).
  assert (A : 0 < DP_EPS * erfc (kappa * rc) / rc) by (apply Rdiv_lt_0_compat; [apply Rmult_lt_0_compat|]; auto).
  assert (B : 0 < 2 * DP_EPS * kappa / sqrt PI * exp (- (rc * rc) * (kappa * kappa))).
  { apply Rmult_lt_0_compat; [|apply exp_pos]. apply Rdiv_lt_0_compat; auto. apply Rmult_lt_0_compat; [lra|auto]. }
  set (f := DP_EPS * erfc (kappa * rc) / rc) in *. set (x := 2 * DP_EPS * kappa / sqrt PI * exp (- (rc * rc) * (kappa * kappa))) in *.
  replace (f - rc * rc * (- (f + x) / (rc * rc)) / 2) with (f + (f + x) / 2) by (field; lra). lra.
Qed.
Theorem self_shift_refuted : 0 < erfc (kappa * rc) ->
  ~ limit1_in (fun r => fst (fst (elstat_shift erfc false rc r kappa)) - DP_EPS / r) right (- 2 * self_factor erfc false rc kappa) 0.
Proof.
  intros H L. assert (M := missing_pos H). assert (L2 := self_shift).
  assert (AD : adhDa right 0).
  { intros e He. exists (e / 2). unfold right, R_dist. split; [lra|]. rewrite Rminus_0_r, Rabs_pos_eq; lra. }
  assert (Q := single_limit _ _ _ _ _ AD L L2). lra.
Qed.
End S.

(** such a function exists, on any interval *)
Lemma erfc_exists0 (X : R) : 0 < X -> exists erfc, erfc 0 = 1 /\ forall x, - X < x < X -> derivable_pt_lim erfc x (- 2 / sqrt PI * exp (- (x * x))).
Proof.
  intros P. assert (P2 : - X < X) by lra.
  pose (h := fun x => - 2 / sqrt PI * exp (- (x * x))).
  assert (C : forall x, - X <= x <= X -> continuity_pt h x).
  { intros x _. apply derivable_continuous_pt.
    exists (- 2 / sqrt PI * (exp (- (x * x) * 1) * (- (2 * x) * 1))).
    apply (dpl_ext (fun r => - 2 / sqrt PI * exp (- (r * r) * 1))); [intros; unfold h; do 2 f_equal; ring|].
    apply derivable_pt_lim_scal. apply dpl_gauss. }
  pose (p := primitive (Rlt_le _ _ P2) (FTC_P1 (Rlt_le _ _ P2) C)).
  exists (fun x => p x + (1 - p 0)). split; [ring|]. intros x Hx.
  replace (- 2 / sqrt PI * exp (- (x * x))) with (h x + 0) by (unfold h; ring).
  apply derivable_pt_lim_plus; [|apply derivable_pt_lim_const].
  apply (RiemannInt_P28 (f := h)). lra.
Qed.
