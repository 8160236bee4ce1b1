(** The library of analytic functions: relations between the functions, shapes, gradient. *)
From Coq Require Import Reals List Arith ZArith Bool String Lia Lra.
From Verif Require Import AlibModel.
Import ListNotations.
Local Open Scope R_scope.

(** an array with the given first entries *)
Definition arr_of (l : list R) : nat -> R := fun i => nth i l 0.

Ltac unf := cbv beta zeta delta [lj_value eopp_value morse_value ms_value buck_value born_value softshell_value eopp_exp_value meopp_value power_value power_decay_value exp_decay_value
      parabola_value harmonic_value acosharmonic_value csw_value csw2_value universal_value const_value sqrt_value mexp_decay_value strmm_value double_morse_value double_exp_value poly_5_value
      kawamura_value kawamura_mix_value exp_plus_value mishin_value gen_lj_value gljm_value vas_value vpair_value sheng_phi1_value sheng_phi2_value sheng_rho_value sheng_F_value stiweb_2_value stiweb_3_value
      arr_of]; cbn [nth Nat.add].

Section Rel.
Variable pw : R -> R -> R.
Hypothesis PW : forall x y, 0 < x -> pw x y = Rpower x y.

Lemma r_gljm : forall r p, gljm_value pw r p = gen_lj_value pw r p + p 5%nat * mishin_value pw r (fun i => p (6 + i)%nat).
Proof. intros. unf. ring. Qed.
Lemma r_kawamura_mix : forall r p, kawamura_mix_value r p = kawamura_value r p + morse_value r (arr_of [p 2%nat * p 9%nat; p 10%nat; p 11%nat]).
Proof. intros. unf. ring. Qed.
Lemma r_kawamura : forall r p, r <> 0 -> kawamura_value r p =
  p 0%nat * p 1%nat / r + born_value r (arr_of [p 2%nat * (p 5%nat + p 6%nat); p 5%nat + p 6%nat; p 3%nat + p 4%nat; p 7%nat * p 8%nat; 0]).
Proof. intros r p N. unf. replace (0 / (r * r * (r * r) * (r * r) * (r * r))) with 0 by (unfold Rdiv; ring). replace (r * r * (r * r) * (r * r)) with (r * r * r * (r * r * r)) by ring. ring. Qed.
Lemma r_double_morse : forall r p, double_morse_value r p = morse_value r p + morse_value r (fun i => p (3 + i)%nat) + p 6%nat.
Proof. intros. unf. ring. Qed.
Lemma r_meopp : forall r p, p 6%nat = 0 -> meopp_value pw r p = eopp_value pw r p.
Proof. intros r p E. unf. rewrite E, Rminus_0_r. auto. Qed.
Lemma r_eopp : forall r p, eopp_value pw r p = power_decay_value pw r p + power_decay_value pw r (fun i => p (2 + i)%nat) * cos (p 4%nat * r + p 5%nat).
Proof. intros. unf. ring. Qed.
Lemma r_eopp_exp : forall r p, eopp_exp_value pw r p = exp_decay_value r p + power_decay_value pw r (fun i => p (2 + i)%nat) * cos (p 4%nat * r + p 5%nat).
Proof. intros. unf. ring. Qed.
Lemma r_csw2 : forall r a k phi n, csw2_value pw r (arr_of [a; k; phi; n]) = csw_value pw r (arr_of [a * cos phi; - (a * sin phi); k; n]).
Proof. intros. unf. rewrite cos_plus. unfold Rdiv. ring. Qed.
Lemma r_exp_plus : forall r p, exp_plus_value r p = exp_decay_value r p + p 2%nat.
Proof. intros. unf. ring. Qed.
Lemma r_mexp_decay : forall r a b c, mexp_decay_value r (arr_of [a; b; c]) = exp_decay_value r (arr_of [a * exp (b * c); b]).
Proof. intros. unf. rewrite Rmult_assoc, <- exp_plus. do 2 f_equal. ring. Qed.
Lemma r_power_decay : forall r a n, 0 < r -> power_decay_value pw r (arr_of [a; n]) = power_value pw r (arr_of [a; - n]).
Proof. intros r a n H. unf. rewrite !PW, Rpower_Ropp by auto. auto. Qed.
Lemma r_softshell : forall r a n, 0 < r -> 0 < a -> softshell_value pw r (arr_of [a; n]) = power_decay_value pw r (arr_of [pw a n; n]).
Proof.
  intros r a n H A. unf. assert (0 < a / r) by (apply Rdiv_lt_0_compat; auto). rewrite !PW by auto.
  unfold Rdiv at 1. rewrite <- Rpower_mult_distr by (auto; apply Rinv_0_lt_compat; auto). unfold Rdiv. f_equal.
  unfold Rpower. rewrite ln_Rinv by auto. rewrite <- exp_Ropp. f_equal. ring.
Qed.
Lemma pw6 : forall x, 0 < x -> pw x 6 = x * x * x * (x * x * x).
Proof. intros x H. rewrite PW by auto. replace 6 with (INR 6) by (simpl; lra). rewrite Rpower_pow by auto. ring. Qed.
Lemma pw12 : forall x, 0 < x -> pw x 12 = pw x 6 * pw x 6.
Proof. intros x H. rewrite !PW by auto. rewrite <- Rpower_plus. f_equal. lra. Qed.
Lemma root6 : forall x y, 0 < x -> 0 < y -> pw (x / (Rpower 2 (1 / 6) * y)) 6 = (x * x * x * (x * x * x)) / (y * y * y * (y * y * y)) / 2.
Proof.
  intros x y X Y. set (s := Rpower 2 (1 / 6)). assert (S : 0 < s) by apply exp_pos.
  assert (S6 : s * s * s * (s * s * s) = 2).
  { rewrite <- pw6 by auto. unfold s. rewrite PW by auto. rewrite Rpower_mult. replace (1 / 6 * 6) with 1 by field. apply Rpower_1. lra. }
  rewrite pw6 by (apply Rdiv_lt_0_compat; auto; apply Rmult_lt_0_compat; auto). rewrite <- S6. field. split; [|lra]. apply Rgt_not_eq; auto.
Qed.
Lemma r_lj : forall r eps sg, 0 < r -> 0 < sg -> lj_value r (arr_of [eps; sg]) = gen_lj_value pw r (arr_of [- eps; 12; 6; Rpower 2 (1 / 6) * sg; 0]).
Proof.
  intros r e s H S. unf. assert (0 < r / (Rpower 2 (1 / 6) * s)) by (apply Rdiv_lt_0_compat; auto; apply Rmult_lt_0_compat; auto; apply exp_pos).
  rewrite pw12 by auto. rewrite root6 by auto. field. split; lra.
Qed.
Lemma r_ms : forall r a b c, c <> 0 -> ms_value r (arr_of [a; b; c]) = morse_value r (arr_of [a; b / (2 * c); c]).
Proof. intros r a b c N. unf. f_equal. f_equal; [f_equal|do 2 f_equal]; field; auto. Qed.
Lemma r_stiweb_2 : forall r p, 0 < r -> stiweb_2_value pw r p =
  (power_decay_value pw r (arr_of [p 0%nat; p 2%nat]) - power_decay_value pw r (arr_of [p 1%nat; p 3%nat])) * vas_value r (fun i => p (4 + i)%nat).
Proof. intros r p H. unf. rewrite !PW by auto. rewrite !Rpower_Ropp. unfold Rdiv. auto. Qed.
Lemma r_stiweb_3 : forall r p, stiweb_3_value r p = vas_value r p.
Proof. auto. Qed.
Lemma r_sheng_F : forall r p, sheng_F_value pw r p = power_value pw r p + p 2%nat * r + p 3%nat.
Proof. intros. unf. ring. Qed.
Lemma r_sheng_rho : forall r p, sheng_rho_value pw r p = if Rlt_dec (145 / 100) r then lj_value r (fun i => p (3 + i)%nat) else power_value pw r p + p 2%nat.
Proof. intros. unf. auto. Qed.
Lemma r_harmonic : forall r a b, harmonic_value r (arr_of [a; b]) = parabola_value r (arr_of [a; - 2 * a * b; a * b * b]).
Proof. intros. unf. ring. Qed.
Lemma r_acosharmonic : forall t p, 0 <= t <= PI -> acosharmonic_value (cos t) p = harmonic_value t p.
Proof. intros t p H. unf. rewrite acos_cos by auto. auto. Qed.
Lemma r_buck : forall r a b c, r <> 0 -> buck_value r (arr_of [a; b; c]) = born_value r (arr_of [a; b; 0; c * b ^ 6; 0]).
Proof. intros r a b c N. unf. replace (- r / b) with ((0 - r) / b) by (unfold Rdiv; ring). field. auto. Qed.
Lemma r_const : forall r a, const_value r (arr_of [a]) = parabola_value r (arr_of [0; 0; a]).
Proof. intros. unf. ring. Qed.
Lemma r_sqrt : forall r a b, 0 < r -> 0 < b -> sqrt_value r (arr_of [a; b]) = power_value pw r (arr_of [a / sqrt b; 1 / 2]).
Proof.
  intros r a b H B. unf. rewrite PW by auto. replace (1 / 2) with (/ 2) by lra. rewrite Rpower_sqrt by auto. rewrite sqrt_div_alt by auto. unfold Rdiv. ring.
Qed.
Lemma r_strmm : forall r p, strmm_value r p =
  2 * mexp_decay_value r (arr_of [p 0%nat; p 1%nat / 2; p 4%nat]) - p 2%nat * (1 + p 3%nat * (r - p 4%nat)) * mexp_decay_value r (arr_of [1; p 3%nat; p 4%nat]).
Proof. intros. unf. replace (- (p 1%nat / 2) * (r - p 4%nat)) with (- p 1%nat / 2 * (r - p 4%nat)) by (unfold Rdiv; ring). ring. Qed.
Lemma r_vpair : forall r p, 0 < r -> vpair_value pw r p =
  144 / 10 * (power_decay_value pw r p - exp_decay_value r (arr_of [(p 4%nat * (p 3%nat) ^ 2 + p 5%nat * (p 2%nat) ^ 2 / r ^ 4) / 2; / p 6%nat])).
Proof. intros r p H. unf. replace (- / p 6%nat * r) with (- r / p 6%nat) by (unfold Rdiv; ring). set (u := p 0%nat / pw r (p 1%nat)). clearbody u. field. lra. Qed.
Lemma r_sheng_phi1 : forall r p, sheng_phi1_value r p = p 0%nat * exp (- p 1%nat * r ^ 2) + p 2%nat * exp (- p 3%nat * (r - p 4%nat) ^ 2).
Proof. intros. unf. f_equal; do 2 f_equal; ring. Qed.
Lemma r_sheng_phi2 : forall r p, sheng_phi2_value r p = p 0%nat * exp (- p 1%nat * r ^ 2) + p 2%nat / (p 2%nat ^ 2 + (r - p 3%nat) ^ 2).
Proof. intros. unf. f_equal; [do 2 f_equal; ring|]. unfold Rdiv. do 2 f_equal. ring. Qed.
Lemma r_double_exp : forall r p, double_exp_value r p = p 0%nat * exp (- p 1%nat * (r - p 2%nat) ^ 2) + mexp_decay_value r (arr_of [1; p 3%nat; p 4%nat]).
Proof. intros. unf. rewrite Rmult_1_l. do 2 f_equal. f_equal. ring. Qed.
End Rel.

(** ** minima *)
Lemma lj_min : forall r eps sg, r <> 0 -> 0 < eps ->
  - eps <= lj_value r (arr_of [eps; sg]) /\ (lj_value r (arr_of [eps; sg]) = - eps <-> r ^ 6 = 2 * sg ^ 6) /\
  (sg <> 0 -> (lj_value r (arr_of [eps; sg]) = 0 <-> r ^ 2 = sg ^ 2)).
Proof.
  intros r e s N E. unf. assert (R2 : 0 < r * r) by nra. set (y := s * s / (r * r)). set (x := y * y * y).
  assert (Y : y * (r * r) = s * s) by (unfold y; field; lra).
  assert (X : x * r ^ 6 = s ^ 6) by (unfold x; replace (y * y * y * r ^ 6) with ((y * (r * r)) * (y * (r * r)) * (y * (r * r))) by ring; rewrite Y; ring).
  assert (R6 : 0 < r ^ 6) by (replace (r ^ 6) with ((r * r) * (r * r) * (r * r)) by ring; apply Rmult_lt_0_compat; [apply Rmult_lt_0_compat; auto|auto]).
  assert (SQ : 4 * e * x * (x - 1) = - e + e * ((2 * x - 1) * (2 * x - 1))) by ring.
  assert (Q : 0 <= (2 * x - 1) * (2 * x - 1)) by (apply Rle_0_sqr).
  refine (conj _ (conj _ _)).
  - rewrite SQ. assert (0 <= e * ((2 * x - 1) * (2 * x - 1))) by (apply Rmult_le_pos; lra). lra.
  - rewrite SQ. split.
    + intros H. assert (Z : e * ((2 * x - 1) * (2 * x - 1)) = 0) by lra. apply Rmult_integral in Z. destruct Z as [Z|Z]; [lra|].
      apply Rmult_integral in Z. assert (x = 1 / 2) by (destruct Z; lra). rewrite <- X, H0. field.
    + intros H. rewrite <- X in H. assert (2 * x = 1). { apply (Rmult_eq_reg_r (r ^ 6)); lra. } rewrite H0. ring.
  - intros S. assert (S2 : 0 < s * s) by nra. assert (YP : 0 < y) by (unfold y; apply Rdiv_lt_0_compat; auto). split.
    + intros H. apply Rmult_integral in H. destruct H as [H|H].
      * assert (0 < 4 * e * x); [|lra]. apply Rmult_lt_0_compat; [lra|]. unfold x. apply Rmult_lt_0_compat; [apply Rmult_lt_0_compat; auto|auto].
      * assert (y = 1). { assert (x = 1) by lra. unfold x in H0. assert ((y - 1) * (y * y + y + 1) = 0) by (ring_simplify; lra). apply Rmult_integral in H1. destruct H1; [lra|nra]. }
        rewrite H0 in Y. simpl. lra.
    + intros H. assert (y = 1). { unfold y. replace (s * s) with (r * r) by (simpl in H; lra). field. lra. } unfold x. rewrite H0. ring.
Qed.
Lemma morse_min : forall r d a r0, 0 < d -> a <> 0 ->
  - d <= morse_value r (arr_of [d; a; r0]) /\ (morse_value r (arr_of [d; a; r0]) = - d <-> r = r0).
Proof.
  intros r d a r0 D A. unf. set (x := exp (- a * (r - r0))).
  assert (X2 : exp (- (2) * a * (r - r0)) = x * x) by (unfold x; rewrite <- exp_plus; f_equal; ring). rewrite X2.
  assert (SQ : d * (x * x - 2 * x) = - d + d * ((x - 1) * (x - 1))) by ring. rewrite SQ.
  assert (Q : 0 <= (x - 1) * (x - 1)) by apply Rle_0_sqr. split.
  - assert (0 <= d * ((x - 1) * (x - 1))) by (apply Rmult_le_pos; lra). lra.
  - split.
    + intros H. assert (Z : d * ((x - 1) * (x - 1)) = 0) by lra. apply Rmult_integral in Z. destruct Z as [Z|Z]; [lra|].
      apply Rmult_integral in Z. assert (E : x = exp 0) by (rewrite exp_0; destruct Z; lra). unfold x in E. apply exp_inv in E.
      apply Rmult_integral in E. destruct E; lra.
    + intros ->. unfold x. replace (- a * (r0 - r0)) with 0 by ring. rewrite exp_0. ring.
Qed.
Lemma vas_range : forall r g c, 0 < g -> r < c -> 0 < vas_value r (arr_of [g; c]) < 1.
Proof.
  intros r g c G H. unf. split; [apply exp_pos|]. rewrite <- exp_0. apply exp_increasing.
  assert (0 < g / (c - r)) by (apply Rdiv_lt_0_compat; lra). replace (g / (r - c)) with (- (g / (c - r))) by (field; lra). lra.
Qed.
Lemma vas_limit : forall g c, 0 < g -> forall eps, 0 < eps -> exists d, 0 < d /\ forall r, c - d < r < c -> vas_value r (arr_of [g; c]) < eps.
Proof.
  intros g c G eps E. exists (g / (1 + / eps)). assert (IE : 0 < / eps) by (apply Rinv_0_lt_compat; auto).
  split; [apply Rdiv_lt_0_compat; lra|]. intros r H. unf.
  assert (K : 1 + / eps < g / (c - r)).
  { apply (Rmult_lt_reg_r (c - r)); [lra|]. replace (g / (c - r) * (c - r)) with g by (field; lra).
    assert (c - r < g / (1 + / eps)) by lra. replace g with ((1 + / eps) * (g / (1 + / eps))) by (field; lra).
    apply Rmult_lt_compat_l; lra. }
  replace (g / (r - c)) with (- (g / (c - r))) by (field; lra). rewrite exp_Ropp. rewrite <- (Rinv_inv eps).
  apply Rinv_lt_contravar; [apply Rmult_lt_0_compat; auto; apply exp_pos|].
  pose proof (exp_ineq1 (g / (c - r)) ltac:(lra)). lra.
Qed.
Lemma vas_beyond : forall r g c, 0 < g -> c < r -> 1 < vas_value r (arr_of [g; c]).
Proof.
  intros r g c G H. unf. rewrite <- exp_0. apply exp_increasing. apply Rdiv_lt_0_compat; lra.
Qed.

(** ** values and slopes at the reference point *)
Lemma d_Rpower : forall x a, 0 < x -> derivable_pt_lim (fun r => Rpower r a) x (a * Rpower x (a - 1)).
Proof. intros. apply derivable_pt_lim_power. auto. Qed.
Lemma universal_one : forall f n m k, m <> n -> let p := arr_of [f; n; m; k] in
  universal_value Rpower 1 p = f + k /\ derivable_pt_lim (fun r => universal_value Rpower r p) 1 k.
Proof.
  intros f n m k N. cbv zeta. assert (P1 : forall a, Rpower 1 a = 1) by (intros; unfold Rpower; rewrite ln_1, Rmult_0_r, exp_0; auto). split.
  - unf. rewrite !P1. field. lra.
  - unf. assert (E : k = f * (m / (m - n) * (n * Rpower 1 (n - 1)) - n / (m - n) * (m * Rpower 1 (m - 1))) + k * 1) by (rewrite !P1; field; lra).
    match goal with |- derivable_pt_lim ?g _ _ => refine (eq_ind_r (derivable_pt_lim g 1) _ E) end.
    apply (derivable_pt_lim_plus (fun r => f * (m / (m - n) * Rpower r n - n / (m - n) * Rpower r m)) (fun r => k * r)).
    + apply (derivable_pt_lim_scal (fun r => m / (m - n) * Rpower r n - n / (m - n) * Rpower r m)).
      apply (derivable_pt_lim_minus (fun r => m / (m - n) * Rpower r n) (fun r => n / (m - n) * Rpower r m)); apply (derivable_pt_lim_scal (fun r => Rpower r _)); apply d_Rpower; lra.
    + apply (derivable_pt_lim_scal (fun r => r)). apply derivable_pt_lim_id.
Qed.
Lemma gen_lj_ref : forall v n m r0 w, 0 < r0 -> m <> n -> let p := arr_of [v; n; m; r0; w] in
  gen_lj_value Rpower r0 p = v + w /\ derivable_pt_lim (fun r => gen_lj_value Rpower r p) r0 0.
Proof.
  intros v n m r0 w R0 N. cbv zeta. assert (P1 : forall a, Rpower 1 a = 1) by (intros; unfold Rpower; rewrite ln_1, Rmult_0_r, exp_0; auto). split.
  - unf. replace (r0 / r0) with 1 by (field; lra). rewrite !P1. field. lra.
  - unf. assert (D : forall a, derivable_pt_lim (fun r => / Rpower (r / r0) a) r0 (- a / r0)).
    { intros a. assert (E : forall r, / Rpower (r / r0) a = Rpower (r / r0) (- a)) by (intros; rewrite Rpower_Ropp; auto).
      assert (Q : derivable_pt_lim (fun r => Rpower (r / r0) (- a)) r0 ((- a * Rpower (r0 / r0) (- a - 1)) * (1 / r0))).
      { apply (derivable_pt_lim_comp (fun r => r / r0) (fun y => Rpower y (- a))).
        - unfold Rdiv. replace (1 * / r0) with (1 * / r0 + r0 * 0) by ring. apply (derivable_pt_lim_mult (fun r => r) (fun _ => / r0)); [apply derivable_pt_lim_id|apply derivable_pt_lim_const].
        - apply d_Rpower. replace (r0 / r0) with 1 by (field; lra). lra. }
      replace (r0 / r0) with 1 in Q by (field; lra). rewrite P1 in Q. replace (- a / r0) with (- a * 1 * (1 / r0)) by (field; lra).
      intros eps Heps. destruct (Q eps Heps) as [d Hd]. exists d. intros h H1 H2. rewrite !E. apply Hd; auto. }
    replace 0 with (v / (m - n) * (m * (- n / r0) - n * (- m / r0)) + 0) by (field; lra).
    apply (derivable_pt_lim_plus (fun r => v / (m - n) * (m * / Rpower (r / r0) n - n * / Rpower (r / r0) m)) (fun _ => w)); [|apply derivable_pt_lim_const].
    apply (derivable_pt_lim_scal (fun r => m * / Rpower (r / r0) n - n * / Rpower (r / r0) m)).
    apply (derivable_pt_lim_minus (fun r => m * / Rpower (r / r0) n) (fun r => n * / Rpower (r / r0) m)); apply (derivable_pt_lim_scal (fun r => / Rpower (r / r0) _)); apply D.
Qed.
Lemma poly_5_slope : forall p r, poly_5_value 1 p = p 0%nat /\
  derivable_pt_lim (fun r => poly_5_value r p) r (p 1%nat * (r - 1) + 3 * p 2%nat * (r - 1) ^ 2 + 4 * p 3%nat * (r - 1) ^ 3 + 5 * p 4%nat * (r - 1) ^ 4).
Proof.
  intros p r. split; [unf; field|]. 
  assert (D : derivable_pt_lim (fun r => poly_5_value r p) r (0 + 1 / 2 * p 1%nat * ((r - 1) + (r - 1)) + p 2%nat * (3 * (r - 1) ^ 2) + p 3%nat * (4 * (r - 1) ^ 3) + p 4%nat * (5 * (r - 1) ^ 4))).
  { assert (S : forall n, derivable_pt_lim (fun r => (r - 1) ^ n) r (INR n * (r - 1) ^ pred n)).
    { intros n. replace (INR n * (r - 1) ^ pred n) with (INR n * (r - 1) ^ pred n * (1 - 0)) by ring.
      apply (derivable_pt_lim_comp (fun r => r - 1) (fun y => y ^ n)); [|apply derivable_pt_lim_pow].
      apply (derivable_pt_lim_minus (fun r => r) (fun _ => 1)); [apply derivable_pt_lim_id|apply derivable_pt_lim_const]. }
    assert (E : forall r, p 0%nat + 1 / 2 * p 1%nat * (r - 1) ^ 2 + p 2%nat * (r - 1) ^ 3 + p 3%nat * (r - 1) ^ 4 + p 4%nat * (r - 1) ^ 5 = poly_5_value r p) by (intros; unf; ring).
    assert (Q : derivable_pt_lim (fun r => p 0%nat + 1 / 2 * p 1%nat * (r - 1) ^ 2 + p 2%nat * (r - 1) ^ 3 + p 3%nat * (r - 1) ^ 4 + p 4%nat * (r - 1) ^ 5) r
      (0 + 1 / 2 * p 1%nat * (INR 2 * (r - 1) ^ 1) + p 2%nat * (INR 3 * (r - 1) ^ 2) + p 3%nat * (INR 4 * (r - 1) ^ 3) + p 4%nat * (INR 5 * (r - 1) ^ 4))).
    { apply (derivable_pt_lim_plus (fun r => p 0%nat + 1 / 2 * p 1%nat * (r - 1) ^ 2 + p 2%nat * (r - 1) ^ 3 + p 3%nat * (r - 1) ^ 4) (fun r => p 4%nat * (r - 1) ^ 5)); [|apply (derivable_pt_lim_scal (fun r => (r - 1) ^ 5)), (S 5%nat)].
      apply (derivable_pt_lim_plus (fun r => p 0%nat + 1 / 2 * p 1%nat * (r - 1) ^ 2 + p 2%nat * (r - 1) ^ 3) (fun r => p 3%nat * (r - 1) ^ 4)); [|apply (derivable_pt_lim_scal (fun r => (r - 1) ^ 4)), (S 4%nat)].
      apply (derivable_pt_lim_plus (fun r => p 0%nat + 1 / 2 * p 1%nat * (r - 1) ^ 2) (fun r => p 2%nat * (r - 1) ^ 3)); [|apply (derivable_pt_lim_scal (fun r => (r - 1) ^ 3)), (S 3%nat)].
      apply (derivable_pt_lim_plus (fun r => p 0%nat) (fun r => 1 / 2 * p 1%nat * (r - 1) ^ 2)); [apply derivable_pt_lim_const|apply (derivable_pt_lim_scal (fun r => (r - 1) ^ 2)), (S 2%nat)]. }
    match type of Q with derivable_pt_lim _ _ ?x => match goal with |- derivable_pt_lim _ _ ?y => replace y with x by (simpl; ring) end end.
    intros eps Heps. destruct (Q eps Heps) as [d Hd]. exists d. intros h H1 H2. rewrite <- !E. apply Hd; auto. }
  match type of D with derivable_pt_lim _ _ ?x => match goal with |- derivable_pt_lim _ _ ?y => replace y with x by field end end. exact D.
Qed.
Lemma bjs_one : forall f g k, let p := arr_of [f; g; k] in
  bjs_value Rpower 0 p = 0 /\ bjs_value Rpower 1 p = f + k /\ derivable_pt_lim (fun r => bjs_value Rpower r p) 1 k.
Proof.
  intros f g k. cbv zeta. assert (P1 : forall a, Rpower 1 a = 1) by (intros; unfold Rpower; rewrite ln_1, Rmult_0_r, exp_0; auto).
  refine (conj _ (conj _ _)).
  - unfold bjs_value. destruct (Req_EM_T 0 0) as [_|X]; [auto|exfalso; lra].
  - unfold bjs_value. destruct (Req_EM_T 1 0); [exfalso; lra|]. unfold arr_of; cbn [nth]. rewrite P1, ln_1. ring.
  - assert (Q : derivable_pt_lim (fun r => f * (1 - g * ln r) * Rpower r g + k * r) 1 (f * (0 - g * (/ 1)) * Rpower 1 g + f * (1 - g * ln 1) * (g * Rpower 1 (g - 1)) + k * 1)).
    { apply (derivable_pt_lim_plus (fun r => f * (1 - g * ln r) * Rpower r g) (fun r => k * r)); [|apply (derivable_pt_lim_scal (fun r => r)), derivable_pt_lim_id].
      apply (derivable_pt_lim_mult (fun r => f * (1 - g * ln r)) (fun r => Rpower r g)); [|apply d_Rpower; lra].
      apply (derivable_pt_lim_scal (fun r => 1 - g * ln r)). apply (derivable_pt_lim_minus (fun _ => 1) (fun r => g * ln r)); [apply derivable_pt_lim_const|].
      apply (derivable_pt_lim_scal ln). apply derivable_pt_lim_ln. lra. }
    rewrite !P1, ln_1 in Q. replace (f * (0 - g * / 1) * 1 + f * (1 - g * 0) * (g * 1) + k * 1) with k in Q by field.
    intros eps Heps. destruct (Q eps Heps) as [d Hd]. assert (M : 0 < Rmin d 1) by (apply Rmin_pos; [apply cond_pos|lra]).
    exists (mkposreal _ M). intros h H1 H2. cbn [pos] in H2. pose proof (Rmin_l d 1). pose proof (Rmin_r d 1).
    unfold bjs_value. destruct (Req_EM_T (1 + h) 0) as [X|_]; [exfalso; apply Rabs_def2 in H2; lra|]. destruct (Req_EM_T 1 0) as [X|_]; [exfalso; lra|].
    unfold arr_of; cbn [nth]. apply Hd; auto. lra.
Qed.
(** near zero the function tends to the value set for zero *)
Lemma bjs_zero : forall f g k, 0 < g -> forall eps, 0 < eps -> exists d, 0 < d /\ forall r, 0 <= r < d -> Rabs (bjs_value Rpower r (arr_of [f; g; k])) < eps.
Proof.
  intros f g k G eps E. set (S := 4 * (Rabs f + 1) / eps). pose proof (Rabs_pos f) as F0. pose proof (Rabs_pos k) as K0.
  assert (SP : 0 < S) by (unfold S; apply Rdiv_lt_0_compat; lra).
  exists (Rmin (exp (- (2 * S) / g)) (eps / (2 * (Rabs k + 1)))). split; [apply Rmin_pos; [apply exp_pos|apply Rdiv_lt_0_compat; lra]|].
  intros r [R0 R1]. assert (A1 := Rlt_le_trans _ _ _ R1 (Rmin_l _ _)). assert (A2 := Rlt_le_trans _ _ _ R1 (Rmin_r _ _)).
  unfold bjs_value. destruct (Req_EM_T r 0); [rewrite Rabs_R0; auto|]. assert (RP : 0 < r) by lra. unfold arr_of; cbn [nth].
  assert (L : ln r < - (2 * S) / g) by (rewrite <- (ln_exp (- (2 * S) / g)); apply ln_increasing; auto).
  set (s := - (g * ln r)). assert (SS : 2 * S < s).
  { unfold s. apply (Rmult_lt_compat_l g) in L; auto. replace (g * (- (2 * S) / g)) with (- (2 * S)) in L by (field; lra). lra. }
  replace (1 - g * ln r) with (1 + s) by (unfold s; ring). unfold Rpower. replace (g * ln r) with (- s) by (unfold s; ring).
  assert (B : 0 <= (1 + s) * exp (- s) < eps / (2 * (Rabs f + 1))).
  { split; [apply Rmult_le_pos; [lra|left; apply exp_pos]|]. rewrite exp_Ropp.
    assert (H2 : 1 + s / 2 < exp (s / 2)) by (apply exp_ineq1; lra).
    assert (HE : (1 + s / 2) * (1 + s / 2) < exp s) by (replace s with (s / 2 + s / 2) at 3 by field; rewrite exp_plus; apply Rmult_le_0_lt_compat; lra).
    apply (Rmult_lt_reg_r (exp s)); [apply exp_pos|]. rewrite Rmult_assoc, Rinv_l, Rmult_1_r by (apply Rgt_not_eq, exp_pos).
    apply Rlt_trans with (eps / (2 * (Rabs f + 1)) * ((1 + s / 2) * (1 + s / 2))); [|apply Rmult_lt_compat_l; auto; apply Rdiv_lt_0_compat; lra].
    assert (T : 2 < eps / (2 * (Rabs f + 1)) * (1 + s / 2)).
    { apply Rlt_trans with (eps / (2 * (Rabs f + 1)) * (1 + S)); [|apply Rmult_lt_compat_l; [apply Rdiv_lt_0_compat; lra|lra]].
      assert (X : eps / (2 * (Rabs f + 1)) * S = 2) by (unfold S; field; split; lra). assert (0 < eps / (2 * (Rabs f + 1))) by (apply Rdiv_lt_0_compat; lra). lra. }
    apply Rlt_le_trans with (2 * (1 + s / 2)); [lra|]. replace (eps / (2 * (Rabs f + 1)) * ((1 + s / 2) * (1 + s / 2))) with (eps / (2 * (Rabs f + 1)) * (1 + s / 2) * (1 + s / 2)) by ring.
    apply Rmult_le_compat_r; lra. }
  rewrite Rmult_assoc. eapply Rle_lt_trans; [apply Rabs_triang|]. rewrite !Rabs_mult. rewrite (Rabs_pos_eq r), <- (Rabs_mult (1 + s)), (Rabs_pos_eq ((1 + s) * exp (- s))) by lra.
  assert (C1 : Rabs f * ((1 + s) * exp (- s)) <= (Rabs f) * (eps / (2 * (Rabs f + 1)))) by (apply Rmult_le_compat_l; lra).
  assert (C2 : Rabs f * (eps / (2 * (Rabs f + 1))) < eps / 2).
  { replace (eps / 2) with ((Rabs f + 1) * (eps / (2 * (Rabs f + 1)))) by (field; lra). apply Rmult_lt_compat_r; [apply Rdiv_lt_0_compat; lra|lra]. }
  assert (C3 : Rabs k * r <= Rabs k * (eps / (2 * (Rabs k + 1)))) by (apply Rmult_le_compat_l; lra).
  assert (C4 : Rabs k * (eps / (2 * (Rabs k + 1))) < eps / 2).
  { replace (eps / 2) with ((Rabs k + 1) * (eps / (2 * (Rabs k + 1)))) by (field; lra). apply Rmult_lt_compat_r; [apply Rdiv_lt_0_compat; lra|lra]. }
  lra.
Qed.
(** the density of Sheng jumps *)
Lemma sheng_rho_jump : forall pw, exists p, sheng_rho_value pw (145 / 100) p = 1 /\ forall r, 145 / 100 < r -> sheng_rho_value pw r p = 0.
Proof.
  intros pw. exists (arr_of [0; 1; 1; 0; 1]). split.
  - unf. destruct (Rlt_dec (145 / 100) (145 / 100)); [exfalso; lra|ring].
  - intros r H. unf. destruct (Rlt_dec (145 / 100) r); [ring|contradiction].
Qed.
Lemma vas_beyond_ex : exists r p, 0 < p 0%nat /\ p 1%nat < r /\ 1 < vas_value r p.
Proof. exists 2, (arr_of [1; 1]). refine (conj _ (conj _ _)); [unfold arr_of; simpl; lra|unfold arr_of; simpl; lra|apply vas_beyond; lra]. Qed.

(** ** central difference *)
Lemma mono0 : forall (w w' : R -> R) h, 0 <= h -> (forall t, 0 <= t <= h -> derivable_pt_lim w t (w' t)) -> (forall t, 0 <= t <= h -> 0 <= w' t) -> w 0 <= w h.
Proof.
  intros w w' h H D P. destruct (Req_dec h 0) as [->|N]; [lra|].
  destruct (MVT_cor2 w w' 0 h ltac:(lra) D) as (c & E & C). assert (0 <= w' c * (h - 0)) by (apply Rmult_le_pos; [apply P; lra|lra]). lra.
Qed.
Lemma bound0 : forall (u u' v v' : R -> R) h, 0 <= h ->
  (forall t, 0 <= t <= h -> derivable_pt_lim u t (u' t)) -> (forall t, 0 <= t <= h -> derivable_pt_lim v t (v' t)) ->
  (forall t, 0 <= t <= h -> Rabs (u' t) <= v' t) -> u 0 = 0 -> v 0 = 0 -> Rabs (u h) <= v h.
Proof.
  intros u u' v v' h H DU DV B U0 V0. apply Rabs_le.
  assert (A1 : (v - u)%F 0 <= (v - u)%F h).
  { apply (mono0 _ (fun t => v' t - u' t)); auto; [intros t T; apply derivable_pt_lim_minus; auto|].
    intros t T. pose proof (B t T). pose proof (Rle_abs (u' t)). lra. }
  assert (A2 : (v + u)%F 0 <= (v + u)%F h).
  { apply (mono0 _ (fun t => v' t + u' t)); auto; [intros t T; apply derivable_pt_lim_plus; auto|].
    intros t T. pose proof (B t T). pose proof (Rle_abs (- u' t)). rewrite Rabs_Ropp in H1. lra. }
  unfold minus_fct, plus_fct in A1, A2. lra.
Qed.
Lemma d_right : forall (f f1 : R -> R) r t, derivable_pt_lim f (r + t) (f1 (r + t)) -> derivable_pt_lim (fun t => f (r + t)) t (f1 (r + t)).
Proof.
  intros f f1 r t D. replace (f1 (r + t)) with (f1 (r + t) * (0 + 1)) by ring. apply (derivable_pt_lim_comp (fun t => r + t) f); auto.
  apply (derivable_pt_lim_plus (fun _ => r) (fun t => t)); [apply derivable_pt_lim_const|apply derivable_pt_lim_id].
Qed.
Lemma d_left : forall (f f1 : R -> R) r t, derivable_pt_lim f (r - t) (f1 (r - t)) -> derivable_pt_lim (fun t => f (r - t)) t (- f1 (r - t)).
Proof.
  intros f f1 r t D. replace (- f1 (r - t)) with (f1 (r - t) * (0 - 1)) by ring. apply (derivable_pt_lim_comp (fun t => r - t) f); auto.
  apply (derivable_pt_lim_minus (fun _ => r) (fun t => t)); [apply derivable_pt_lim_const|apply derivable_pt_lim_id].
Qed.
Lemma gradient_bound : forall (f f1 f2 f3 : R -> R) r M,
  (forall x, r - 1 / 10000 <= x <= r + 1 / 10000 -> derivable_pt_lim f x (f1 x) /\ derivable_pt_lim f1 x (f2 x) /\ derivable_pt_lim f2 x (f3 x) /\ Rabs (f3 x) <= M) ->
  Rabs (apot_gradient r f - f1 r) <= M * (1 / 10000) ^ 2 / 6.
Proof.
  intros f f1 f2 f3 r M H. set (h := 1 / 10000) in *. assert (HP : 0 < h) by (unfold h; lra).
  assert (B2 : forall t, 0 <= t <= h -> Rabs (f2 (r + t) - f2 (r - t)) <= 2 * M * t).
  { intros t T. apply (bound0 (fun t => f2 (r + t) - f2 (r - t)) (fun t => f3 (r + t) - - f3 (r - t)) (fun t => 2 * M * t) (fun _ => 2 * M * 1)); try lra.
    - intros x X. apply (derivable_pt_lim_minus (fun t => f2 (r + t)) (fun t => f2 (r - t))); [apply d_right|apply d_left]; apply H; lra.
    - intros x X. apply (derivable_pt_lim_scal (fun t => t)). apply derivable_pt_lim_id.
    - intros x X. destruct (H (r + x) ltac:(lra)) as (_ & _ & _ & P). destruct (H (r - x) ltac:(lra)) as (_ & _ & _ & Q).
      eapply Rle_trans; [apply Rabs_triang|]. rewrite !Rabs_Ropp. lra.
    - rewrite Rplus_0_r, Rminus_0_r. ring. }
  assert (B1 : forall t, 0 <= t <= h -> Rabs (f1 (r + t) + f1 (r - t) - 2 * f1 r) <= M * t ^ 2).
  { intros t T. apply (bound0 (fun t => f1 (r + t) + f1 (r - t) - 2 * f1 r) (fun t => f2 (r + t) + - f2 (r - t) - 0) (fun t => M * t ^ 2) (fun t => M * (INR 2 * t ^ 1))); try lra.
    - intros x X. apply (derivable_pt_lim_minus (fun t => f1 (r + t) + f1 (r - t)) (fun _ => 2 * f1 r)); [|apply derivable_pt_lim_const].
      apply (derivable_pt_lim_plus (fun t => f1 (r + t)) (fun t => f1 (r - t))); [apply d_right|apply d_left]; apply H; lra.
    - intros x X. apply (derivable_pt_lim_scal (fun t => t ^ 2)). apply (derivable_pt_lim_pow x 2).
    - intros x X. replace (f2 (r + x) + - f2 (r - x) - 0) with (f2 (r + x) - f2 (r - x)) by ring. eapply Rle_trans; [apply B2; lra|]. simpl. lra.
    - rewrite Rplus_0_r, Rminus_0_r. ring. }
  assert (B0 : Rabs (f (r + h) - f (r - h) - 2 * f1 r * h) <= M / 3 * h ^ 3).
  { apply (bound0 (fun t => f (r + t) - f (r - t) - 2 * f1 r * t) (fun t => f1 (r + t) - - f1 (r - t) - 2 * f1 r * 1) (fun t => M / 3 * t ^ 3) (fun t => M / 3 * (INR 3 * t ^ 2))); try lra.
    - intros x X. apply (derivable_pt_lim_minus (fun t => f (r + t) - f (r - t)) (fun t => 2 * f1 r * t)); [|apply (derivable_pt_lim_scal (fun t => t)), derivable_pt_lim_id].
      apply (derivable_pt_lim_minus (fun t => f (r + t)) (fun t => f (r - t))); [apply d_right|apply d_left]; apply H; lra.
    - intros x X. apply (derivable_pt_lim_scal (fun t => t ^ 3)). apply (derivable_pt_lim_pow x 3).
    - intros x X. replace (f1 (r + x) - - f1 (r - x) - 2 * f1 r * 1) with (f1 (r + x) + f1 (r - x) - 2 * f1 r) by ring. eapply Rle_trans; [apply B1; lra|]. simpl. lra.
    - rewrite Rplus_0_r, Rminus_0_r. ring. }
  unfold apot_gradient. fold h. replace ((f (r + h) - f (r - h)) / (2 * h) - f1 r) with ((f (r + h) - f (r - h) - 2 * f1 r * h) * / (2 * h)) by (field; lra).
  rewrite Rabs_mult, (Rabs_pos_eq (/ (2 * h))) by (left; apply Rinv_0_lt_compat; lra).
  replace (M * h ^ 2 / 6) with (M / 3 * h ^ 3 * / (2 * h)) by (field; lra). apply Rmult_le_compat_r; [left; apply Rinv_0_lt_compat; lra|auto].
Qed.
Lemma gradient_parabola : forall r p, apot_gradient r (fun x => parabola_value x p) = 2 * p 0%nat * r + p 1%nat.
Proof. intros. unfold apot_gradient. unf. field. Qed.
(** the functions without a value have gradient zero; a function that is not smooth has no bound: absolute value *)
