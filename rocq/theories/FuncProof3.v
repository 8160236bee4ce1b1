(** Electrostatic tails, electrostatic short-range functions, chemical potential. *)
From Coq Require Import Reals ZArith List Bool Lia Lra Permutation Sorted.
From Verif Require Import LoopUtil Vec FuncModel FuncSpec FuncProof.
Import ListNotations.
Local Open Scope R_scope.

Lemma dpl_eq f x l l' : derivable_pt_lim f x l -> l = l' -> derivable_pt_lim f x l'.
Proof. now intros H <-. Qed.
Lemma dpl_ext f g x l : (forall y, f y = g y) -> derivable_pt_lim f x l -> derivable_pt_lim g x l.
Proof. intros E H eps He. destruct (H eps He) as [d Hd]. exists d. intros h A B. rewrite <- !E. now apply Hd. Qed.
Lemma dpl_comp_lin (f : R -> R) k x l : derivable_pt_lim f (k * x) l -> derivable_pt_lim (fun r => f (k * r)) x (l * k).
Proof.
  intros H. apply (derivable_pt_lim_comp (fun r => k * r) f); [|exact H].
  apply (dpl_eq _ _ (k * 1)); [|ring]. apply derivable_pt_lim_scal. apply derivable_pt_lim_id.
Qed.
Lemma dpl_sq x : derivable_pt_lim (fun r => r * r) x (2 * x).
Proof. apply (dpl_eq _ _ (1 * x + x * 1)); [|ring]. apply (derivable_pt_lim_mult id id); apply derivable_pt_lim_id. Qed.
Lemma dpl_gauss c x : derivable_pt_lim (fun r => exp (- (r * r) * c)) x (exp (- (x * x) * c) * (- (2 * x) * c)).
Proof.
  apply (derivable_pt_lim_comp (fun r => - (r * r) * c) exp); [|apply derivable_pt_lim_exp].
  apply (dpl_ext (fun r => c * (- (r * r)))); [intros; ring|].
  apply (dpl_eq _ _ (c * (- (2 * x)))); [|ring]. apply derivable_pt_lim_scal. apply (derivable_pt_lim_opp (fun r => r * r)). apply dpl_sq.
Qed.

Section Tail.
Variable erfc : R -> R.
Variables X kappa : R.
(** the complementary error function: its derivative *)
Hypothesis erfc' : forall x, 0 < x < X -> derivable_pt_lim erfc x (- 2 / sqrt PI * exp (- (x * x))).
Hypothesis K : 0 < kappa.

Let f r := fst (fst (elstat_value erfc r kappa)).
Let g r := snd (fst (elstat_value erfc r kappa)).
Let gg r := snd (elstat_value erfc r kappa).

Lemma sqrtpi : 0 < sqrt PI.
Proof. apply sqrt_lt_R0, PI_RGT_0. Qed.

Lemma f_deriv r : 0 < r -> kappa * r < X -> derivable_pt_lim f r (r * g r).
Proof.
  intros Hr HX. pose proof sqrtpi as SP.
  assert (P : 0 < kappa * r) by (apply Rmult_lt_0_compat; assumption).
  pose proof (dpl_comp_lin erfc kappa r _ (erfc' _ (conj P HX))) as D1.
  assert (D : derivable_pt_lim (fun r => DP_EPS * erfc (kappa * r) / r) r
     ((DP_EPS * (- 2 / sqrt PI * exp (- (kappa * r * (kappa * r))) * kappa) * r - 1 * (DP_EPS * erfc (kappa * r))) / Rsqr r)).
  { apply (derivable_pt_lim_div (fun r => DP_EPS * erfc (kappa * r)) id); [|apply derivable_pt_lim_id|unfold id; lra].
    now apply derivable_pt_lim_scal. }
  apply (dpl_eq _ _ _ _ D). unfold g, elstat_value. cbn [fst snd].
  replace (- (r * r) * (kappa * kappa)) with (- (kappa * r * (kappa * r))) by ring. unfold Rsqr. field. split; lra.
Qed.
Lemma g_deriv r : 0 < r -> kappa * r < X -> derivable_pt_lim g r (r * gg r).
Proof.
  intros Hr HX. pose proof sqrtpi as SP.
  pose (x2 := 2 * DP_EPS * kappa / sqrt PI).
  assert (D : derivable_pt_lim (fun r => - (f r + x2 * exp (- (r * r) * (kappa * kappa))) / (r * r)) r
    ((- (r * g r + x2 * (exp (- (r * r) * (kappa * kappa)) * (- (2 * r) * (kappa * kappa)))) * (r * r) - (2 * r) * (- (f r + x2 * exp (- (r * r) * (kappa * kappa))))) / Rsqr (r * r))).
  { apply (derivable_pt_lim_div (fun r => - (f r + x2 * exp (- (r * r) * (kappa * kappa)))) (fun r => r * r)); [|apply dpl_sq|nra].
    apply (derivable_pt_lim_opp (fun r => f r + x2 * exp (- (r * r) * (kappa * kappa)))).
    apply (derivable_pt_lim_plus f (fun r => x2 * exp (- (r * r) * (kappa * kappa)))).
    - now apply f_deriv.
    - apply derivable_pt_lim_scal. apply dpl_gauss. }
  apply (dpl_eq _ _ _ _ D). unfold gg, g, f, elstat_value. cbn [fst snd]. fold x2. unfold Rsqr. field. lra.
Qed.

Variable c : R.
Hypothesis C : 0 < c.

Let fs dip r := fst (fst (elstat_shift erfc dip c r kappa)).
Let gs dip r := snd (fst (elstat_shift erfc dip c r kappa)).
Let ggs dip r := snd (elstat_shift erfc dip c r kappa).

Lemma shift_at_cut dip : fs dip c = 0 /\ gs dip c = 0 /\ ggs dip c = 0.
Proof.
  unfold fs, gs, ggs, elstat_shift. destruct (elstat_value erfc c kappa) as [[a b] d].
  destruct dip; cbn [fst snd]; repeat split; field.
Qed.
Lemma shift_deriv dip r : 0 < r -> kappa * r < X -> derivable_pt_lim (fs dip) r (r * gs dip r).
Proof.
  intros Hr HX.
  pose (ac := f c). pose (bc := g c). pose (dc := gg c).
  pose (w := if dip then dc else 0).
  assert (E : forall r, fs dip r = f r - ac - (r * r - c * c) * bc / 2 - (r * r - c * c) * (r * r - c * c) * w / 8 /\ gs dip r = g r - bc - (r * r - c * c) * w / 2).
  { intros s. unfold fs, gs, ac, bc, w, dc, f, g, gg, elstat_shift.
    destruct (elstat_value erfc s kappa) as [[a b] d], (elstat_value erfc c kappa) as [[a' b'] d'].
    destruct dip; cbn [fst snd]; split; field. }
  apply (dpl_ext (fun s => f s + (- ac + (- bc / 2 * (s * s - c * c) + - w / 8 * ((s * s - c * c) * (s * s - c * c)))))); [intros s; rewrite (proj1 (E s)); field|].
  rewrite (proj2 (E r)).
  assert (Q : derivable_pt_lim (fun s => s * s - c * c) r (2 * r)).
  { apply (dpl_eq _ _ (2 * r - 0)); [|ring]. apply (derivable_pt_lim_minus (fun s => s * s) (fct_cte (c * c))); [apply dpl_sq|apply derivable_pt_lim_const]. }
  apply (dpl_eq _ _ (r * g r + (0 + (- bc / 2 * (2 * r) + - w / 8 * (2 * r * (r * r - c * c) + (r * r - c * c) * (2 * r)))))); [|field].
  apply (derivable_pt_lim_plus f (fun s => - ac + (- bc / 2 * (s * s - c * c) + - w / 8 * ((s * s - c * c) * (s * s - c * c))))); [now apply f_deriv|].
  apply (derivable_pt_lim_plus (fct_cte (- ac)) (fun s => (- bc / 2 * (s * s - c * c) + - w / 8 * ((s * s - c * c) * (s * s - c * c))))); [apply derivable_pt_lim_const|].
  apply (derivable_pt_lim_plus (fun s => - bc / 2 * (s * s - c * c)) (fun s => - w / 8 * ((s * s - c * c) * (s * s - c * c)))); apply derivable_pt_lim_scal; [exact Q|].
  apply (derivable_pt_lim_mult (fun s => s * s - c * c) (fun s => s * s - c * c)); exact Q.
Qed.
Lemma shift_deriv2 r : 0 < r -> kappa * r < X -> derivable_pt_lim (gs true) r (r * ggs true r).
Proof.
  intros Hr HX. pose (bc := g c). pose (dc := gg c).
  assert (E : forall r, gs true r = g r - bc - (r * r - c * c) * dc / 2 /\ ggs true r = gg r - dc).
  { intros s. unfold gs, ggs, bc, dc, f, g, gg, elstat_shift.
    destruct (elstat_value erfc s kappa) as [[a b] d], (elstat_value erfc c kappa) as [[a' b'] d']. cbn [fst snd]. split; field. }
  apply (dpl_ext (fun s => g s + (- bc + - dc / 2 * (s * s - c * c)))); [intros s; rewrite (proj1 (E s)); field|].
  rewrite (proj2 (E r)).
  assert (Q : derivable_pt_lim (fun s => s * s - c * c) r (2 * r)).
  { apply (dpl_eq _ _ (2 * r - 0)); [|ring]. apply (derivable_pt_lim_minus (fun s => s * s) (fct_cte (c * c))); [apply dpl_sq|apply derivable_pt_lim_const]. }
  apply (dpl_eq _ _ (r * gg r + (0 + - dc / 2 * (2 * r)))); [|field].
  apply (derivable_pt_lim_plus g (fun s => - bc + - dc / 2 * (s * s - c * c))); [now apply g_deriv|].
  apply (derivable_pt_lim_plus (fct_cte (- bc)) (fun s => - dc / 2 * (s * s - c * c))); [apply derivable_pt_lim_const|].
  apply derivable_pt_lim_scal. exact Q.
Qed.

Let fd r := fst (fst (elstat_dsf erfc false c r kappa)).
Let gd r := snd (fst (elstat_dsf erfc false c r kappa)).
Lemma dsf_at_cut : fd c = 0 /\ gd c = 0.
Proof. unfold fd, gd, elstat_dsf. destruct (elstat_value erfc c kappa) as [[a b] d]. cbn [fst snd]. split; field; lra. Qed.
Lemma dsf_deriv r : 0 < r -> kappa * r < X -> derivable_pt_lim fd r (r * gd r).
Proof.
  intros Hr HX. pose (ac := f c). pose (bc := g c).
  assert (E : forall s, fd s = f s + (- ac + bc * c * c + - bc * c * s)).
  { intros s. unfold fd, ac, bc, f, g, elstat_dsf.
    destruct (elstat_value erfc s kappa) as [[a b] d], (elstat_value erfc c kappa) as [[a' b'] d']. cbn [fst snd]. ring. }
  assert (E2 : gd r = g r - bc * c / r).
  { unfold gd, bc, g, elstat_dsf.
    destruct (elstat_value erfc r kappa) as [[a b] d], (elstat_value erfc c kappa) as [[a' b'] d']. cbn [fst snd]. ring. }
  apply (dpl_ext (fun s => f s + (- ac + bc * c * c + - bc * c * s))); [intros s; rewrite (E s); reflexivity|]. rewrite E2.
  apply (dpl_eq _ _ (r * g r + (0 + (- bc * c) * 1))); [|field; lra].
  apply (derivable_pt_lim_plus f (fun s => - ac + bc * c * c + - bc * c * s)); [now apply f_deriv|].
  apply (derivable_pt_lim_plus (fct_cte (- ac + bc * c * c)) (fun s => - bc * c * s)); [apply derivable_pt_lim_const|].
  apply (derivable_pt_lim_scal id). apply derivable_pt_lim_id.
Qed.
End Tail.

(** such a function exists, on any interval *)
Lemma erfc_exists (X : R) : exists erfc, forall x, 0 < x < X -> derivable_pt_lim erfc x (- 2 / sqrt PI * exp (- (x * x))).
Proof.
  destruct (Rlt_dec 0 X) as [P|N]; [|exists (fun _ => 0); intros x Hx; lra].
  pose (h := fun x => - 2 / sqrt PI * exp (- (x * x))).
  assert (C : forall x, 0 <= x <= X -> continuity_pt h x).
  { intros x _. apply derivable_continuous_pt.
    exists (- 2 / sqrt PI * (exp (- (x * x) * 1) * (- (2 * x) * 1))).
    apply (dpl_ext (fun r => - 2 / sqrt PI * exp (- (r * r) * 1))); [intros; unfold h; do 2 f_equal; ring|].
    apply derivable_pt_lim_scal. apply dpl_gauss. }
  exists (primitive (Rlt_le _ _ P) (FTC_P1 (Rlt_le _ _ P) C)). intros x Hx.
  apply (RiemannInt_P28 (f := h)). lra.
Qed.

(** ** Damped short-range terms *)
Lemma exp_lin b x : derivable_pt_lim (fun r => exp (- (b * r))) x (exp (- (b * x)) * (- b)).
Proof.
  apply (derivable_pt_lim_comp (fun r => - (b * r)) exp); [|apply derivable_pt_lim_exp].
  apply (dpl_eq _ _ (- (b * 1))); [|ring]. apply (derivable_pt_lim_opp (fun r => b * r)). apply (derivable_pt_lim_scal id). apply derivable_pt_lim_id.
Qed.
Lemma dpl_pow4 a0 a1 a2 a3 a4 x : derivable_pt_lim (fun r => a0 + a1 * r + a2 * (r * r) + a3 * (r * r * r) + a4 * (r * r * (r * r))) x
  (a1 + a2 * (2 * x) + a3 * (3 * (x * x)) + a4 * (4 * (x * x * x))).
Proof.
  assert (D2 := dpl_sq x).
  assert (D3 : derivable_pt_lim (fun r => r * r * r) x (3 * (x * x))).
  { apply (dpl_eq _ _ (2 * x * x + x * x * 1)); [|ring]. apply (derivable_pt_lim_mult (fun r => r * r) id); [exact D2|apply derivable_pt_lim_id]. }
  assert (D4 : derivable_pt_lim (fun r => r * r * (r * r)) x (4 * (x * x * x))).
  { apply (dpl_eq _ _ (2 * x * (x * x) + x * x * (2 * x))); [|ring]. apply (derivable_pt_lim_mult (fun r => r * r) (fun r => r * r)); exact D2. }
  apply (dpl_eq _ _ (0 + a1 * 1 + a2 * (2 * x) + a3 * (3 * (x * x)) + a4 * (4 * (x * x * x)))); [|ring].
  apply (derivable_pt_lim_plus (fun r => a0 + a1 * r + a2 * (r * r) + a3 * (r * r * r)) (fun r => a4 * (r * r * (r * r)))); [|now apply derivable_pt_lim_scal].
  apply (derivable_pt_lim_plus (fun r => a0 + a1 * r + a2 * (r * r)) (fun r => a3 * (r * r * r))); [|now apply derivable_pt_lim_scal].
  apply (derivable_pt_lim_plus (fun r => a0 + a1 * r) (fun r => a2 * (r * r))); [|now apply derivable_pt_lim_scal].
  apply (derivable_pt_lim_plus (fct_cte a0) (fun r => a1 * r)); [apply derivable_pt_lim_const|].
  apply (derivable_pt_lim_scal id). apply derivable_pt_lim_id.
Qed.
Lemma shortrange_deriv b c r : 0 < r ->
  derivable_pt_lim (fun r => fst (shortrange_term r b c)) r (r * snd (shortrange_term r b c)).
Proof.
  intros Hr. assert (E0 : DP_EPS <> 0) by (unfold DP_EPS; lra).
  apply (dpl_ext (fun r => c / DP_EPS * ((1 + b * r + b * b / 2 * (r * r) + b * b * b / 6 * (r * r * r) + (b * b) * (b * b) / 24 * (r * r * (r * r))) * exp (- (b * r))))).
  { intros s. unfold shortrange_term. cbn [fst]. field. exact E0. }
  unfold shortrange_term. cbn [fst snd].
  apply (dpl_eq _ _ (c / DP_EPS * ((b + b * b / 2 * (2 * r) + b * b * b / 6 * (3 * (r * r)) + (b * b) * (b * b) / 24 * (4 * (r * r * r))) * exp (- (b * r))
     + (1 + b * r + b * b / 2 * (r * r) + b * b * b / 6 * (r * r * r) + (b * b) * (b * b) / 24 * (r * r * (r * r))) * (exp (- (b * r)) * (- b))))).
  - apply derivable_pt_lim_scal.
    apply (derivable_pt_lim_mult (fun r => 1 + b * r + b * b / 2 * (r * r) + b * b * b / 6 * (r * r * r) + (b * b) * (b * b) / 24 * (r * r * (r * r))) (fun r => exp (- (b * r)))); [|apply exp_lin].
    apply dpl_pow4.
  - field. split; lra.
Qed.

(** ** Morse-stretch and Buckingham *)
Lemma ms_pot_deriv (p : arr) r : 0 < r -> p 2%nat <> 0 ->
  derivable_pt_lim (fun r => fst (ms_init r p)) r (r * snd (ms_init r p)).
Proof.
  intros Hr H2. unfold ms_init. cbn [fst snd].
  assert (L : forall k, derivable_pt_lim (fun r => exp (k * (1 - r / p 2%nat))) r (exp (k * (1 - r / p 2%nat)) * (- k / p 2%nat))).
  { intros k. apply (derivable_pt_lim_comp (fun r => k * (1 - r / p 2%nat)) exp); [|apply derivable_pt_lim_exp].
    apply (dpl_ext (fun r => k + (- k / p 2%nat) * r)); [intros; field; exact H2|].
    apply (dpl_eq _ _ (0 + (- k / p 2%nat) * 1)); [|ring].
    apply (derivable_pt_lim_plus (fct_cte k) (fun r => - k / p 2%nat * r)); [apply derivable_pt_lim_const|]. apply (derivable_pt_lim_scal id), derivable_pt_lim_id. }
  apply (dpl_ext (fun r => p 0%nat * (exp (p 1%nat * (1 - r / p 2%nat)) - 2 * exp (p 1%nat / 2 * (1 - r / p 2%nat))))).
  { intros s. replace (p 1%nat * (1 - s / p 2%nat) / 2) with (p 1%nat / 2 * (1 - s / p 2%nat)) by (field; exact H2). reflexivity. }
  replace (p 1%nat * (1 - r / p 2%nat) / 2) with (p 1%nat / 2 * (1 - r / p 2%nat)) by (field; exact H2).
  apply (dpl_eq _ _ (p 0%nat * (exp (p 1%nat * (1 - r / p 2%nat)) * (- p 1%nat / p 2%nat) - 2 * (exp (p 1%nat / 2 * (1 - r / p 2%nat)) * (- (p 1%nat / 2) / p 2%nat))))); [|field; split; lra].
  apply derivable_pt_lim_scal.
  apply (derivable_pt_lim_minus (fun r => exp (p 1%nat * (1 - r / p 2%nat))) (fun r => 2 * exp (p 1%nat / 2 * (1 - r / p 2%nat)))); [apply L|].
  apply derivable_pt_lim_scal, L.
Qed.
Lemma ms_deriv (p : arr) c r : 0 < r -> p 2%nat <> 0 ->
  derivable_pt_lim (fun r => ms_value c r p) r (r * snd (ms_init r p) - snd (ms_init c p)).
Proof.
  intros Hr H2. set (gc := snd (ms_init c p)). set (fc := fst (ms_init c p)).
  apply (dpl_ext (fun r => fst (ms_init r p) + (- fc + c * gc + - gc * r))); [intros s; unfold ms_value; fold gc fc; ring|].
  apply (dpl_eq _ _ (r * snd (ms_init r p) + (0 + - gc * 1))); [|ring].
  apply (derivable_pt_lim_plus (fun r => fst (ms_init r p)) (fun r => - fc + c * gc + - gc * r)); [now apply ms_pot_deriv|].
  apply (derivable_pt_lim_plus (fct_cte (- fc + c * gc)) (fun r => - gc * r)); [apply derivable_pt_lim_const|]. apply (derivable_pt_lim_scal id), derivable_pt_lim_id.
Qed.
Lemma ms_cut (p : arr) c : ms_value c c p = 0.
Proof. unfold ms_value. ring. Qed.
Lemma buck_pot_deriv (p : arr) r : 0 < r -> p 1%nat <> 0 ->
  derivable_pt_lim (fun r => fst (buck_init r p)) r (snd (buck_init r p)).
Proof.
  intros Hr H1. unfold buck_init. cbn [fst snd].
  assert (R0 : r * r <> 0) by nra.
  assert (Dx : derivable_pt_lim (fun s => p 1%nat * p 1%nat / (s * s)) r ((0 * (r * r) - 2 * r * (p 1%nat * p 1%nat)) / Rsqr (r * r))).
  { apply (derivable_pt_lim_div (fct_cte (p 1%nat * p 1%nat)) (fun s => s * s)); [apply derivable_pt_lim_const|apply dpl_sq|exact R0]. }
  set (x := fun s => p 1%nat * p 1%nat / (s * s)) in *.
  set (x' := (0 * (r * r) - 2 * r * (p 1%nat * p 1%nat)) / Rsqr (r * r)) in *.
  assert (De : derivable_pt_lim (fun s => exp (- s / p 1%nat)) r (exp (- r / p 1%nat) * (- / p 1%nat))).
  { apply (derivable_pt_lim_comp (fun s => - s / p 1%nat) exp); [|apply derivable_pt_lim_exp].
    apply (dpl_ext (fun s => (- / p 1%nat) * s)); [intros; field; exact H1|].
    apply (dpl_eq _ _ ((- / p 1%nat) * 1)); [|ring]. apply (derivable_pt_lim_scal id), derivable_pt_lim_id. }
  apply (dpl_ext (fun s => p 0%nat * exp (- s / p 1%nat) - p 2%nat * (x s * x s * x s))); [intros s; unfold x; ring|].
  apply (dpl_eq _ _ (p 0%nat * (exp (- r / p 1%nat) * (- / p 1%nat)) - p 2%nat * ((x' * x r + x r * x') * x r + x r * x r * x'))).
  2:{ unfold x', x, Rsqr. field. split; lra. }
  apply (derivable_pt_lim_minus (fun s => p 0%nat * exp (- s / p 1%nat)) (fun s => p 2%nat * (x s * x s * x s))).
  - now apply derivable_pt_lim_scal.
  - apply derivable_pt_lim_scal. apply (derivable_pt_lim_mult (fun s => x s * x s) x); [|exact Dx]. now apply (derivable_pt_lim_mult x x).
Qed.
Lemma buck_deriv (p : arr) c r : 0 < r -> p 1%nat <> 0 ->
  derivable_pt_lim (fun r => buck_value c r p) r (snd (buck_init r p) - (2 * r - c) * snd (buck_init c p)).
Proof.
  intros Hr H1. set (gc := snd (buck_init c p)). set (fc := fst (buck_init c p)).
  apply (dpl_ext (fun r => fst (buck_init r p) + (- fc + (c * gc * r + - gc * (r * r))))); [intros s; unfold buck_value; fold gc fc; ring|].
  apply (dpl_eq _ _ (snd (buck_init r p) + (0 + (c * gc * 1 + - gc * (2 * r))))); [|ring].
  apply (derivable_pt_lim_plus (fun r => fst (buck_init r p)) (fun r => - fc + (c * gc * r + - gc * (r * r)))); [now apply buck_pot_deriv|].
  apply (derivable_pt_lim_plus (fct_cte (- fc)) (fun r => c * gc * r + - gc * (r * r))); [apply derivable_pt_lim_const|].
  apply (derivable_pt_lim_plus (fun r => c * gc * r) (fun r => - gc * (r * r))); [apply (derivable_pt_lim_scal id), derivable_pt_lim_id|].
  apply derivable_pt_lim_scal, dpl_sq.
Qed.
Lemma buck_cut (p : arr) c : buck_value c c p = 0.
Proof. unfold buck_value. ring. Qed.

(** slope at the cutoff *)
Lemma ms_slope (p : arr) c s : 0 < c -> p 2%nat <> 0 -> derivable_pt_lim (fun r => ms_value c r p) c s ->
  s = (c - 1) * snd (ms_init c p).
Proof. intros C H D. rewrite (uniqueness_limite _ _ _ _ D (ms_deriv p c c C H)). ring. Qed.
Lemma buck_slope (p : arr) c s : 0 < c -> p 1%nat <> 0 -> derivable_pt_lim (fun r => buck_value c r p) c s ->
  s = (1 - c) * snd (buck_init c p).
Proof. intros C H D. rewrite (uniqueness_limite _ _ _ _ D (buck_deriv p c c C H)). ring. Qed.
(** the default cutoff is 10 (memory.c:143) *)
Lemma ms_kink : exists p : arr, 0 < p 2%nat /\ ~ derivable_pt_lim (fun r => ms_value 10 r p) 10 0.
Proof.
  exists (fun _ => 1). split; [lra|]. intros D. apply ms_slope in D; [|lra|lra].
  unfold ms_init in D. cbn [snd] in D. assert (I : exp (1 * (1 - 10 / 1)) < exp (1 * (1 - 10 / 1) / 2)) by (apply exp_increasing; lra). lra.
Qed.
Lemma buck_kink : exists p : arr, 0 < p 1%nat /\ ~ derivable_pt_lim (fun r => buck_value 10 r p) 10 0.
Proof.
  exists (fun i => if Nat.eqb i 2 then 0 else 1). split; [simpl; lra|]. intros D. apply buck_slope in D; [|lra|simpl; lra].
  unfold buck_init in D. simpl in D. pose proof (exp_pos (- (10) / 1)). lra.
Qed.

(** ** Chemical potential *)
Fixpoint cnt (a : node) (l : list node) : nat :=
  match l with [] => O | b :: r => ((if Rlt_dec (ncomp b) (ncomp a) then 1 else 0) + cnt a r)%nat end.
Fixpoint inv (l : list node) : nat := match l with [] => O | a :: r => (cnt a r + inv r)%nat end.
Lemma cnt_perm a l m : Permutation l m -> cnt a l = cnt a m.
Proof. induction 1; simpl; lia. Qed.
Lemma bubble_perm l : forall a, Permutation (a :: l) (fst (bubble_from a l)).
Proof.
  induction l as [|b l IH]; intros a; simpl; [apply Permutation_refl|].
  destruct (Rlt_dec (ncomp b) (ncomp a)); cbn [fst].
  - etransitivity; [apply perm_swap|]. apply perm_skip, IH.
  - apply perm_skip, IH.
Qed.
Lemma bubble_inv l : forall a, (inv (fst (bubble_from a l)) + (if snd (bubble_from a l) then 1 else 0) <= inv (a :: l))%nat.
Proof.
  induction l as [|b l IH]; intros a; [simpl; lia|].
  simpl bubble_from. destruct (Rlt_dec (ncomp b) (ncomp a)) as [L|L]; cbn [fst snd].
  - specialize (IH a). pose proof (bubble_perm l a) as P. apply (cnt_perm b) in P. simpl in *.
    destruct (Rlt_dec (ncomp a) (ncomp b)); [lra|]. destruct (Rlt_dec (ncomp b) (ncomp a)); [|contradiction].
    destruct (snd (bubble_from a l)); lia.
  - specialize (IH b). pose proof (bubble_perm l b) as P. apply (cnt_perm a) in P. simpl in *.
    destruct (Rlt_dec (ncomp b) (ncomp a)); [contradiction|]. destruct (snd (bubble_from b l)); lia.
Qed.
Lemma bubble_sorted l : forall a, snd (bubble_from a l) = false -> fst (bubble_from a l) = a :: l /\ Sorted le_comp (a :: l).
Proof.
  induction l as [|b l IH]; intros a H; [split; [reflexivity|repeat constructor]|].
  simpl in *. destruct (Rlt_dec (ncomp b) (ncomp a)) as [L|L]; [discriminate|]. cbn [fst snd] in *.
  destruct (IH b H) as [-> S]. split; [reflexivity|]. constructor; [exact S|]. constructor. unfold le_comp. lra.
Qed.
Lemma sort_spec fuel : forall l, (inv l < fuel)%nat ->
  exists m, sort_chem_pot fuel l = Some m /\ Permutation l m /\ Sorted le_comp m.
Proof.
  induction fuel as [|fu IH]; intros l H; [lia|]. simpl. destruct l as [|a l].
  - exists []. simpl. repeat split; constructor.
  - unfold bubble_pass. pose proof (bubble_inv l a) as I. pose proof (bubble_perm l a) as P. pose proof (bubble_sorted l a) as So.
    destruct (bubble_from a l) as [m sw]. cbn [fst snd] in *. destruct sw.
    + destruct (IH m ltac:(lia)) as (m' & E & P' & S'). exists m'. split; [exact E|]. split; [now transitivity m|exact S'].
    + destruct (So eq_refl) as [-> S]. exists (a :: l). repeat split; [apply Permutation_refl|exact S].
Qed.
Lemma inv_bound l : (inv l <= length l * length l)%nat.
Proof.
  induction l as [|a l IH]; simpl; [lia|]. assert (cnt a l <= length l)%nat; [|lia].
  clear. induction l as [|b l IH]; simpl; [lia|]. destruct (Rlt_dec _ _); lia.
Qed.

(** interpolation *)
Lemma frac_range n0 n1 : (0 < n0 + n1)%nat -> let x := INR n1 / INR (n0 + n1) in
  0 <= x <= 1 /\ (x = 0 <-> n1 = O) /\ (x = 1 <-> n0 = O) /\ INR n1 = x * INR (n0 + n1) /\ INR n0 = (1 - x) * INR (n0 + n1).
Proof.
  intros H. apply lt_INR in H. simpl INR in H at 1. cbv zeta. rewrite plus_INR in *.
  pose proof (pos_INR n0). pose proof (pos_INR n1). set (a := INR n0) in *. set (b := INR n1) in *.
  assert (E : b = b / (a + b) * (a + b)) by (field; lra).
  assert (Q : 0 < / (a + b)) by (apply Rinv_0_lt_compat; lra).
  split; [|split; [|split; [|split]]].
  - split; [unfold Rdiv; apply Rmult_le_pos; lra|]. apply (Rmult_le_reg_r (a + b)); [lra|]. rewrite <- E. lra.
  - split; intros Z.
    + apply INR_eq. simpl. fold b. rewrite E, Z. ring.
    + assert (Y : b = 0) by (unfold b; rewrite Z; reflexivity). rewrite Y. field. lra.
  - split; intros Z.
    + apply INR_eq. simpl. fold a. rewrite Z in E. lra.
    + assert (Y : a = 0) by (unfold a; rewrite Z; reflexivity). rewrite Y. field. lra.
  - exact E.
  - rewrite Rmult_minus_distr_r, <- E. ring.
Qed.

(** no nodes: linear in the numbers *)
Lemma chempot_no_nodes values n0 n1 :
  chemical_potential_2d [] values n0 n1 = INR n0 * values 0%nat + INR n1 * values 1%nat.
Proof. unfold chemical_potential_2d. cbn [length Nat.eqb]. destruct (Req_EM_T _ 0); [reflexivity|]. destruct (Req_EM_T _ 1); reflexivity. Qed.
(** first and last interval *)
Lemma chempot_first c nodes values n0 n1 : (0 < n0)%nat -> (0 < n1)%nat -> 0 < c ->
  let x := INR n1 / INR (n0 + n1) in x <= c ->
  chemical_potential_2d (c :: nodes) values n0 n1 = line 0 (values 0%nat) c (values 2%nat) x * INR (n0 + n1).
Proof.
  intros A B C x Hx. destruct (frac_range n0 n1 ltac:(lia)) as (R1 & R2 & R3 & _). fold x in R1, R2, R3.
  unfold chemical_potential_2d. fold x.
  destruct (Req_EM_T x 0) as [Z|_]; [apply (proj1 R2) in Z; lia|]. destruct (Req_EM_T x 1) as [Z|_]; [apply (proj1 R3) in Z; lia|].
  cbn [length Nat.eqb find_node]. destruct (Rlt_dec c x); [lra|]. cbn [Nat.eqb nth]. unfold line. reflexivity.
Qed.
Lemma find_all x l : forall i, (forall a, In a l -> a < x) -> find_node x l i = (i + length l)%nat.
Proof.
  induction l as [|a l IH]; intros i H; simpl; [lia|]. destruct (Rlt_dec a x) as [_|N]; [|exfalso; apply N, H; now left].
  rewrite IH by (intros; apply H; now right). lia.
Qed.
Lemma chempot_last c nodes values n0 n1 : (0 < n0)%nat -> (0 < n1)%nat ->
  let x := INR n1 / INR (n0 + n1) in (forall a, In a (nodes ++ [c]) -> a < x) ->
  chemical_potential_2d (nodes ++ [c]) values n0 n1 = line c (values (2 + length nodes)%nat) 1 (values 1%nat) x * INR (n0 + n1).
Proof.
  intros A B x Hx. destruct (frac_range n0 n1 ltac:(lia)) as (R1 & R2 & R3 & _). fold x in R1, R2, R3.
  unfold chemical_potential_2d. fold x.
  destruct (Req_EM_T x 0) as [Z|_]; [apply (proj1 R2) in Z; lia|]. destruct (Req_EM_T x 1) as [Z|_]; [apply (proj1 R3) in Z; lia|].
  rewrite (find_all x _ 0 Hx). rewrite app_length. cbn [length]. replace (length nodes + 1)%nat with (S (length nodes)) by lia.
  cbn [Nat.eqb plus]. rewrite Nat.eqb_refl. replace (S (length nodes) - 1)%nat with (length nodes) by lia.
  rewrite app_nth2 by lia. rewrite Nat.sub_diag. cbn [nth]. replace (S (S (S (length nodes))) - 1)%nat with (S (S (length nodes))) by lia.
  unfold line. reflexivity.
Qed.
(** two nodes: the value at the second node is that of the first *)
Lemma chempot_wrong : exists c1 c2 (values : arr) n0 n1, 0 < c1 < c2 /\ c2 < 1 /\
  INR n1 / INR (n0 + n1) = c2 /\ values 2%nat <> values 3%nat /\
  chemical_potential_2d [c1; c2] values n0 n1 = values 2%nat * INR (n0 + n1).
Proof.
  exists (1 / 4), (1 / 2), (fun i => INR i), 1%nat, 1%nat. split; [lra|]. split; [lra|].
  assert (X : INR 1 / INR (1 + 1) = 1 / 2) by (simpl; lra). split; [exact X|]. split; [simpl; lra|].
  unfold chemical_potential_2d. rewrite X. destruct (Req_EM_T (1 / 2) 0); [lra|]. destruct (Req_EM_T (1 / 2) 1); [lra|].
  cbn [length Nat.eqb find_node]. destruct (Rlt_dec (1 / 4) (1 / 2)); [|lra]. destruct (Rlt_dec (1 / 2) (1 / 2)); [lra|].
  cbn [Nat.eqb nth Nat.sub Nat.add]. simpl. field.
Qed.
