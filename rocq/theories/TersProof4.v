(** Derivatives of the Tersoff functions. *)
From Coq Require Import Reals ZArith List Bool Lia Lra.
From Verif Require Import Vec NbrModel NbrProof NbrProof2 PairModel PairProof PairSpec PairProof2 PairProof3 LammpsModel BondProof GradProof
  ThreeSpec ThreeProof ThreeProof3 SwProof SwProof2 BoSpec BoProof BoProof2 TersSpec.
Import ListNotations.
Local Open Scope R_scope.

Lemma deriv_glue : forall f g a l, derivable_pt_lim f a l -> derivable_pt_lim g a l -> f a = g a ->
  derivable_pt_lim (fun x => if Rlt_dec x a then f x else g x) a l.
Proof.
  intros f g a l DF DG E eps P. destruct (DF eps P) as (d1 & H1). destruct (DG eps P) as (d2 & H2).
  assert (M : 0 < Rmin d1 d2) by (apply Rmin_pos; apply cond_pos). exists (mkposreal _ M). simpl. intros h N A. pose proof (Rmin_l d1 d2). pose proof (Rmin_r d1 d2).
  destruct (Rlt_dec a a); [lra|]. destruct (Rlt_dec (a + h) a); [rewrite <- E; apply H1|apply H2]; auto; lra.
Qed.
(** the cutoff functions have this form *)
Definition switch (h : R -> R) (a b o : R) (x : R) : R := if Rlt_dec x b then (if Rlt_dec x a then o else h x) else 0.
Lemma switch_deriv : forall h h' a b, a < b -> (forall x, derivable_pt_lim h x (h' x)) -> h a = 1 -> h' a = 0 -> h b = 0 -> h' b = 0 ->
  forall x, derivable_pt_lim (switch h a b 1) x (switch h' a b 0 x).
Proof.
  intros h h' a b AB D HA HA' HB HB' x. unfold switch.
  assert (IN : forall x, x < b -> derivable_pt_lim (fun x => if Rlt_dec x a then 1 else h x) x (if Rlt_dec x a then 0 else h' x)).
  { intros y _. destruct (Rtotal_order y a) as [O|[O|O]].
    - destruct (Rlt_dec y a); [|lra]. apply (deriv_local (fun _ => 1)); [apply derivable_pt_lim_const|]. exists (a - y). split; [lra|]. intros z Z. apply Rabs_def2 in Z. destruct (Rlt_dec z a); auto; lra.
    - destruct (Rlt_dec y a); [lra|]. rewrite O, HA'. apply (deriv_glue (fun _ => 1) h); auto; [apply derivable_pt_lim_const|rewrite <- HA'; auto].
    - destruct (Rlt_dec y a); [lra|]. apply (deriv_local h); auto. exists (y - a). split; [lra|]. intros z Z. apply Rabs_def2 in Z. destruct (Rlt_dec z a); auto; lra. }
  destruct (Rtotal_order x b) as [O|[O|O]].
  - destruct (Rlt_dec x b); [|lra]. apply (deriv_local (fun x => if Rlt_dec x a then 1 else h x)); auto. exists (b - x). split; [lra|]. intros z Z. apply Rabs_def2 in Z. destruct (Rlt_dec z b); auto; lra.
  - destruct (Rlt_dec x b); [lra|]. rewrite O. apply (deriv_glue (fun x => if Rlt_dec x a then 1 else h x) (fun _ => 0)); [|apply derivable_pt_lim_const|].
    + apply (deriv_local h); [rewrite <- HB'; auto|]. exists (b - a). split; [lra|]. intros z Z. apply Rabs_def2 in Z. destruct (Rlt_dec z a); auto; lra.
    + cbv beta. destruct (Rlt_dec b a); auto; lra.
  - destruct (Rlt_dec x b); [lra|]. apply (deriv_local (fun _ => 0)); [apply derivable_pt_lim_const|]. exists (x - b). split; [lra|]. intros z Z. apply Rabs_def2 in Z. destruct (Rlt_dec z b); auto; lra.
Qed.
Lemma deriv_lin : forall a b x, derivable_pt_lim (fun r => PI * (r - a) / (b - a)) x (PI / (b - a)).
Proof.
  intros a b x. apply (deriv_local (fun r => PI / (b - a) * (r - a))).
  - apply (deriv_eq _ _ (PI / (b - a) * (1 - 0))); [|ring]. apply (derivable_pt_lim_scal (fun r => r - a)).
    apply (derivable_pt_lim_minus (fun r => r) (fun _ => a)); [apply derivable_pt_lim_id|apply derivable_pt_lim_const].
  - exists 1. split; [lra|]. intros. unfold Rdiv. ring.
Qed.
Lemma deriv_exp_lin : forall k x, derivable_pt_lim (fun r => exp (- k * r)) x (- k * exp (- k * x)).
Proof.
  intros k x. pose proof (derivable_pt_lim_comp (fun r => - k * r) exp x (- k * 1) (exp (- k * x))) as C. unfold comp in C.
  eapply deriv_eq; [apply C; [apply (derivable_pt_lim_scal (fun r => r)); apply derivable_pt_lim_id|apply derivable_pt_lim_exp]|ring].
Qed.
Lemma deriv_cos : forall f d x, derivable_pt_lim f x d -> derivable_pt_lim (fun r => cos (f r)) x (- sin (f x) * d).
Proof. intros f d x D. exact (derivable_pt_lim_comp f cos x _ _ D (derivable_pt_lim_cos _)). Qed.
Lemma deriv_cut_exp : forall (f f' : R -> R) k c x, derivable_pt_lim f x (f' x) ->
  derivable_pt_lim (fun r => f r * (c * exp (- k * r))) x ((f' x - k * f x) * (c * exp (- k * x))).
Proof.
  intros f f' k c x D. eapply deriv_eq; [apply (derivable_pt_lim_mult f (fun r => c * exp (- k * r)) x (f' x) (c * (- k * exp (- k * x))) D); apply (derivable_pt_lim_scal (fun r => exp (- k * r))); apply deriv_exp_lin|].
  cbv beta. ring.
Qed.
(** bond order *)
Lemma order_gen : forall pow0 g n e z, 0 < g -> 0 < z -> let t := cpow pow0 (g * z) n in
  0 < 1 + t /\ derivable_pt_lim (fun z => cpow pow0 (1 + cpow pow0 (g * z) n) e) z (e * cpow pow0 (1 + t) e / (1 + t) * (n * t / z)).
Proof.
  intros pow0 g n e z G Z t.
  assert (PW : forall x y, 0 < x -> cpow pow0 x y = Rpower x y) by (intros x y H; unfold cpow; destruct (Rlt_dec 0 x); auto; lra).
  assert (GZ : 0 < g * z) by (apply Rmult_lt_0_compat; auto). assert (T : t = Rpower (g * z) n) by (apply PW; auto).
  assert (TP : 0 < t) by (rewrite T; apply exp_pos). split; [lra|].
  apply (deriv_local (fun z => Rpower (1 + Rpower (g * z) n) e)).
  - assert (D1 : derivable_pt_lim (fun z => 1 + Rpower (g * z) n) z (n * t / z)).
    { apply (deriv_eq _ _ (0 + n * (Rpower (g * z) n / (g * z)) * (g * 1))).
      - apply (derivable_pt_lim_plus (fun _ => 1) (fun z => Rpower (g * z) n)); [apply derivable_pt_lim_const|].
        apply (derivable_pt_lim_comp (fun z => g * z) (fun x => Rpower x n)); [apply (derivable_pt_lim_scal (fun z => z)); apply derivable_pt_lim_id|apply deriv_pow; auto].
      - rewrite <- T. field. lra. }
    eapply deriv_eq; [apply (derivable_pt_lim_comp (fun z => 1 + Rpower (g * z) n) (fun x => Rpower x e) z _ (e * (Rpower (1 + t) e / (1 + t))) D1); rewrite <- T; apply deriv_pow; lra|].
    rewrite PW by lra. field. lra.
  - exists z. split; [lra|]. intros y Y. apply Rabs_def2 in Y. assert (0 < g * y) by (apply Rmult_lt_0_compat; lra). rewrite (PW (g * y)) by auto.
    rewrite PW; auto. pose proof (exp_pos (n * ln (g * y))). unfold Rpower at 1. lra.
Qed.

(** ** Tersoff *)
Section Standard.
Variable pow0 : R -> R -> R.
Variable par : nat -> nat -> ters.
Notation pw := (cpow pow0).
Hypothesis RS : forall s t, t_R (par s t) < t_S (par s t).
Lemma fc_deriv : forall s t x, derivable_pt_lim (fc par s t) x (fc' par s t x).
Proof.
  intros s t x. set (w := par s t). assert (O := RS s t). fold w in O.
  pose (h := fun r => 1/2 + 1/2 * cos (PI * (r - t_R w) / (t_S w - t_R w))).
  pose (h' := fun r => - (1/2) * (PI / (t_S w - t_R w)) * sin (PI * (r - t_R w) / (t_S w - t_R w))).
  change (derivable_pt_lim (switch h (t_R w) (t_S w) 1) x (switch h' (t_R w) (t_S w) 0 x)).
  assert (A : PI * (t_R w - t_R w) / (t_S w - t_R w) = 0) by (field; lra). assert (B : PI * (t_S w - t_R w) / (t_S w - t_R w) = PI) by (field; lra).
  apply switch_deriv; auto; unfold h, h'; rewrite ?A, ?B, ?cos_0, ?sin_0, ?cos_PI, ?sin_PI; try lra.
  intros r. eapply deriv_eq.
  - apply (derivable_pt_lim_plus (fun _ => 1/2) (fun r => 1/2 * cos (PI * (r - t_R w) / (t_S w - t_R w)))); [apply derivable_pt_lim_const|].
    apply (derivable_pt_lim_scal (fun r => cos (PI * (r - t_R w) / (t_S w - t_R w)))). apply deriv_cos, deriv_lin.
  - cbv beta. field. lra.
Qed.
Lemma repel_deriv : forall s t x, derivable_pt_lim (repel par s t) x (repel' par s t x).
Proof. intros s t x. exact (deriv_cut_exp (fc par s t) (fc' par s t) (t_lambda (par s t)) (t_A (par s t)) x (fc_deriv s t x)). Qed.
Lemma attract_deriv : forall s t x, derivable_pt_lim (attract par s t) x (attract' par s t x).
Proof.
  intros s t x. apply (derivable_pt_lim_scal (fun r => fc par s t r * (t_B (par s t) * exp (- t_mu (par s t) * r)))).
  exact (deriv_cut_exp (fc par s t) (fc' par s t) (t_mu (par s t)) (t_B (par s t)) x (fc_deriv s t x)).
Qed.
Lemma fc_pos : forall s t x, x < t_S (par s t) -> 0 < fc par s t x.
Proof.
  intros s t x H. unfold fc. assert (O := RS s t). set (w := par s t) in *. destruct (Rlt_dec x (t_S w)); [|lra]. destruct (Rlt_dec x (t_R w)); [lra|].
  set (y := PI * (x - t_R w) / (t_S w - t_R w)). pose proof PI_RGT_0 as PP.
  assert (0 <= y < PI).
  { assert (I : 0 < / (t_S w - t_R w)) by (apply Rinv_0_lt_compat; lra). unfold y, Rdiv. split.
    - apply Rmult_le_pos; [apply Rmult_le_pos; lra|lra].
    - apply Rmult_lt_reg_r with (t_S w - t_R w); [lra|]. rewrite Rmult_assoc, Rinv_l, Rmult_1_r by lra. apply Rmult_lt_compat_l; lra. }
  assert (cos PI < cos y) by (apply cos_decreasing_1; lra). rewrite cos_PI in *. lra.
Qed.
Hypothesis DN : forall s t, t_d (par s t) <> 0.
Lemma den_pos : forall s t x, 0 < t_d (par s t) * t_d (par s t) + (t_h (par s t) - x) * (t_h (par s t) - x).
Proof.
  intros s t x. pose proof (DN s t) as N. pose proof (Rsqr_pos_lt _ N) as A. pose proof (Rle_0_sqr (t_h (par s t) - x)) as B. unfold Rsqr in A, B. lra.
Qed.
Lemma angle_deriv : forall s t x, derivable_pt_lim (angle par s t) x (angle' par s t x).
Proof.
  intros s t x. unfold angle, angle'. pose proof (den_pos s t x) as DP. pose proof (DN s t) as N. set (w := par s t) in *.
  assert (D2 : derivable_pt_lim (fun x => t_d w * t_d w + (t_h w - x) * (t_h w - x)) x (0 + ((0 - 1) * (t_h w - x) + (t_h w - x) * (0 - 1)))).
  { apply (derivable_pt_lim_plus (fun _ => t_d w * t_d w) (fun x => (t_h w - x) * (t_h w - x))); [apply derivable_pt_lim_const|].
    apply (derivable_pt_lim_mult (fun x => t_h w - x) (fun x => t_h w - x)); apply (derivable_pt_lim_minus (fun _ => t_h w) (fun x => x)); try apply derivable_pt_lim_const; apply derivable_pt_lim_id. }
  eapply deriv_eq.
  - apply (derivable_pt_lim_minus (fun _ => 1 + t_c w * t_c w / (t_d w * t_d w)) (fun x => t_c w * t_c w / (t_d w * t_d w + (t_h w - x) * (t_h w - x)))); [apply derivable_pt_lim_const|].
    apply (derivable_pt_lim_div (fun _ => t_c w * t_c w)); [apply derivable_pt_lim_const|exact D2|lra].
  - unfold Rsqr. field. lra.
Qed.
Lemma angle_pos : forall s t x, 0 < angle par s t x.
Proof.
  intros s t x. unfold angle. pose proof (den_pos s t x) as DP. pose proof (Rsqr_pos_lt _ (DN s t)) as A. set (w := par s t) in *. unfold Rsqr in A.
  pose proof (Rle_0_sqr (t_c w)) as C. pose proof (Rle_0_sqr (t_h w - x)) as B. unfold Rsqr in B, C.
  assert (/ (t_d w * t_d w + (t_h w - x) * (t_h w - x)) <= / (t_d w * t_d w)) by (apply Rinv_le_contravar; lra).
  assert (t_c w * t_c w / (t_d w * t_d w + (t_h w - x) * (t_h w - x)) <= t_c w * t_c w / (t_d w * t_d w)) by (apply Rmult_le_compat_l; auto). lra.
Qed.
Lemma around_chain : forall i j k r1 r2 x, chain (around par i j k) r1 r2 x (around1 i j k r1 r2 x) (around2 par i j k r1 r2 x) (aroundc par i j k r1 r2 x).
Proof.
  intros i j k r1 r2 x f1 f2 f3 d1 d2 d3 E1 E2 E3 D1 D2 D3. unfold around.
  assert (A : derivable_pt_lim (fun t => fc par i k (f2 t)) 0 (fc' par i k r2 * d2)).
  { apply (derivable_pt_lim_comp f2 (fc par i k)); auto. rewrite E2. apply fc_deriv. }
  assert (B : derivable_pt_lim (fun t => angle par i j (f3 t)) 0 (angle' par i j x * d3)).
  { apply (derivable_pt_lim_comp f3 (angle par i j)); auto. rewrite E3. apply angle_deriv. }
  eapply deriv_eq.
  - apply (derivable_pt_lim_mult (fun t => fc par i k (f2 t) * t_omega (par i k)) (fun t => angle par i j (f3 t))); [|exact B].
    apply (derivable_pt_lim_mult (fun t => fc par i k (f2 t)) (fun _ => t_omega (par i k))); [exact A|apply derivable_pt_lim_const].
  - unfold around1, around2, aroundc. cbv beta. rewrite E2, E3. ring.
Qed.
Hypothesis GP : forall s t, 0 < t_gamma (par s t).
Hypothesis NN : forall s t, t_n (par s t) <> 0.
Hypothesis OP : forall s t, 0 <= t_omega (par s t).
Lemma order_deriv' : forall s t z, 0 < z -> derivable_pt_lim (order pw par s t) z (order' pw par s t z).
Proof.
  intros s t z Z. destruct (order_gen pow0 (t_gamma (par s t)) (t_n (par s t)) (-1 / (2 * t_n (par s t))) z (GP s t) Z) as [P D].
  eapply deriv_eq; [exact D|]. unfold order', order. destruct (Req_EM_T z 0); [lra|]. field. repeat split; try lra. apply NN.
Qed.
Section Gradient.
Variables (c : conf) (pos : nat -> vec) (bx : box) (rcut : nat -> nat -> R).
Hypothesis FG : full_geometry c pos bx rcut.
Notation lo := (cnfstart c).
Notation hi := (cnfstart c + inconf c)%nat.
Variable L : nat -> list (nat * image).
Hypothesis HL : forall a, (lo <= a < hi)%nat -> all_neighbors c pos bx rcut a (L a).
Hypothesis OFF : forall i v, (lo <= i < hi)%nat -> In v (L i) -> dist pos bx i v <> t_S (par (typ c i) (typ c (fst v))).
Lemma at_nonneg : forall i v w, 0 <= at_ c pos bx (around par) i v w.
Proof.
  intros i v w. unfold at_, around. apply Rmult_le_pos; [|left; apply angle_pos]. apply Rmult_le_pos; auto.
  destruct (Rlt_dec (dist pos bx i w) (t_S (par (typ c i) (typ c (fst w))))) as [H|H]; [left; apply fc_pos; auto|].
  unfold fc. destruct (Rlt_dec (dist pos bx i w) _); [contradiction|lra].
Qed.
Lemma sum_zero_each : forall {A} (f : A -> R) l, (forall x, 0 <= f x) -> rsumf f l = 0 -> forall x, In x l -> f x = 0.
Proof.
  intros A f l N. induction l as [|y l IH]; intros Z x X; [destruct X|]. rewrite rsumf_cons in Z. pose proof (N y). assert (0 <= rsumf f l) by (apply rsumf_nonneg; auto).
  destruct X as [<-|X]; [lra|]. apply IH; auto. lra.
Qed.
Lemma locally_all : forall {A} (Q : A -> R -> Prop) (l : list A), (forall x, In x l -> exists e, 0 < e /\ forall t, Rabs t < e -> Q x t) ->
  exists e, 0 < e /\ forall t, Rabs t < e -> forall x, In x l -> Q x t.
Proof.
  intros A Q l. induction l as [|y l IH]; intros H; [exists 1; split; [lra|intros t _ x []]|].
  destruct (H y (or_introl eq_refl)) as (e1 & E1 & H1). destruct IH as (e2 & E2 & H2); [intros x X; apply H; right; auto|].
  exists (Rmin e1 e2). split; [apply Rmin_pos; auto|]. intros t T x [<-|X]; [apply H1|apply H2; auto]; pose proof (Rmin_l e1 e2); pose proof (Rmin_r e1 e2); lra.
Qed.
Lemma deriv_cont : forall f l, derivable_pt_lim f 0 l -> forall e, 0 < e -> exists d, 0 < d /\ forall t, Rabs t < d -> Rabs (f t - f 0) < e.
Proof.
  intros f l D e E. assert (C : continuity_pt f 0) by (apply derivable_continuous_pt; exists l; auto).
  destruct (C e E) as (d & P & H). exists d. split; auto. intros t T. destruct (Req_dec t 0) as [->|N]; [replace (f 0 - f 0) with 0 by ring; rewrite Rabs_R0; auto|].
  apply (H t). split; [split; [exact I|auto]|]. simpl. unfold R_dist. rewrite Rminus_0_r. auto.
Qed.
Lemma zeta_cases : forall a u i v, (lo <= a < hi)%nat -> (lo <= i < hi)%nat -> In v (L i) ->
  0 < zeta c pos bx (around par) L i v \/
  exists e, 0 < e /\ forall t, Rabs t < e -> zeta c (moved pos a u t) bx (around par) L i v = zeta c pos bx (around par) L i v.
Proof.
  intros a u i v Ha Hi Hv. assert (N : 0 <= zeta c pos bx (around par) L i v) by (apply rsumf_nonneg; intros; apply at_nonneg).
  destruct N as [N|Z]; [left; auto|right]. symmetry in Z.
  assert (E : forall w, In w (others L i v) -> exists e, 0 < e /\ forall t, Rabs t < e -> at_ c (moved pos a u t) bx (around par) i v w = 0).
  { intros w W. pose proof (sum_zero_each _ _ (at_nonneg i v) Z w W) as W0. apply filter_In in W. destruct W as [W _].
    unfold at_, around in W0. pose proof (angle_pos (typ c i) (typ c (fst v)) (cosine pos bx i v w)) as AP.
    destruct (Req_dec (t_omega (par (typ c i) (typ c (fst w)))) 0) as [O0|O1].
    - exists 1. split; [lra|]. intros t _. unfold at_, around. rewrite O0. ring.
    - assert (F0 : fc par (typ c i) (typ c (fst w)) (dist pos bx i w) = 0).
      { apply Rmult_integral in W0. destruct W0 as [W0|W0]; [|lra]. apply Rmult_integral in W0. tauto. }
      pose proof (OFF i w Hi W) as OF.
      assert (G : t_S (par (typ c i) (typ c (fst w))) < dist pos bx i w).
      { destruct (Rlt_dec (dist pos bx i w) (t_S (par (typ c i) (typ c (fst w))))) as [H|H]; [apply fc_pos in H; lra|lra]. }
      pose proof (dist_deriv' c pos bx rcut FG L HL a u i w Hi W) as DD.
      destruct (deriv_cont _ _ DD (dist pos bx i w - t_S (par (typ c i) (typ c (fst w)))) ltac:(lra)) as (e & E & H). exists e. split; auto. intros t T. specialize (H t T).
      rewrite moved_d0 in H. apply Rabs_def2 in H. unfold at_, around. unfold fc at 1. destruct (Rlt_dec (dist (moved pos a u t) bx i w) _); [lra|ring]. }
  destruct (locally_all _ _ E) as (e & E' & H). exists e. split; auto. intros t T. rewrite Z. apply rsumf_zero. intros w W. apply H; auto.
Qed.
Hypothesis PS : forall s t, par s t = par t s.
Theorem ters_gradient : forall a u, (lo <= a < hi)%nat ->
  derivable_pt_lim (fun t => pair_energy c (moved pos a u t) bx (repel par) (reach par) L + bo_energy c (moved pos a u t) bx (attract par) (order pw par) (around par) L) 0
    (- sprod u (vadd (pair_force c pos bx (repel' par) (reach par) L a)
       (bo_force c pos bx (attract par) (attract' par) (order pw par) (order' pw par) (around par) around1 (around2 par) (aroundc par) L a))).
Proof.
  intros a u Ha. destruct (half_exists c pos bx rcut FG) as (f & GEO).
  eapply deriv_eq.
  - apply (derivable_pt_lim_plus (fun t => pair_energy c (moved pos a u t) bx (repel par) (reach par) L) (fun t => bo_energy c (moved pos a u t) bx (attract par) (order pw par) (around par) L)).
    + apply (pair_gradient (with_nb c f) pos bx rcut GEO L HL a u Ha (repel par) (repel' par) (reach par)).
      * intros s t r. unfold repel', fc, fc'. rewrite (PS s t). auto.
      * intros s t r. unfold reach. rewrite (PS s t). auto.
      * intros i v Hi Hv. set (s := typ (with_nb c f) i). set (t := typ (with_nb c f) (fst v)). apply (deriv_local (repel par s t)).
        -- eapply deriv_eq; [apply repel_deriv|]. unfold reach. destruct (Rlt_dec _ _); auto. unfold repel', fc, fc'. destruct (Rlt_dec _ _); [lra|ring].
        -- exists 1. split; [lra|]. intros y _. unfold reach. destruct (Rlt_dec _ _); auto. unfold repel, fc. destruct (Rlt_dec _ _); [lra|ring].
    + apply (bo_gradient c pos bx rcut FG L HL a u Ha (attract par) (attract' par) (order pw par) (order' pw par) (around par) around1 (around2 par) (aroundc par)).
      * intros. apply attract_deriv.
      * intros. apply around_chain.
      * intros i v Hi Hv. destruct (zeta_cases a u i v Ha Hi Hv) as [Z|Z]; [left; apply order_deriv'; auto|right; auto].
  - rewrite sprod_add. change (pair_force (with_nb c f) pos bx (repel' par) (reach par) L a) with (pair_force c pos bx (repel' par) (reach par) L a). ring.
Qed.
End Gradient.
End Standard.

(** ** Modified Tersoff *)
Section Modified.
Variable pow0 : R -> R -> R.
Variable par : nat -> nat -> tmod.
Notation pw := (cpow pow0).
Hypothesis RS : forall s t, m_R1 (par s t) < m_R2 (par s t).
Lemma mfc_deriv : forall s t x, derivable_pt_lim (mfc par s t) x (mfc' par s t x).
Proof.
  intros s t x. set (w := par s t). assert (O := RS s t). fold w in O.
  pose (Y := fun r => PI * (r - m_R1 w) / (m_R2 w - m_R1 w)).
  pose (h := fun r => 1/2 + 9/16 * cos (Y r) - 1/16 * cos (3 * Y r)).
  pose (h' := fun r => (- (9/16) * sin (Y r) + 3/16 * sin (3 * Y r)) * (PI / (m_R2 w - m_R1 w))).
  change (derivable_pt_lim (switch h (m_R1 w) (m_R2 w) 1) x (switch h' (m_R1 w) (m_R2 w) 0 x)).
  assert (A : Y (m_R1 w) = 0) by (unfold Y; field; lra). assert (B : Y (m_R2 w) = PI) by (unfold Y; field; lra).
  assert (C3 : cos (3 * PI) = -1) by (replace (3 * PI) with (PI + 2 * INR 1 * PI) by (simpl; ring); rewrite (cos_period PI 1); apply cos_PI).
  assert (S3 : sin (3 * PI) = 0) by (replace (3 * PI) with (PI + 2 * INR 1 * PI) by (simpl; ring); rewrite (sin_period PI 1); apply sin_PI).
  assert (Z3 : 3 * 0 = 0) by ring.
  apply switch_deriv; auto; unfold h, h'; rewrite ?A, ?B, ?C3, ?S3, ?Z3, ?cos_0, ?sin_0, ?cos_PI, ?sin_PI; try lra; try (field; lra).
  intros r. eapply deriv_eq.
  - apply (derivable_pt_lim_minus (fun r => 1/2 + 9/16 * cos (Y r)) (fun r => 1/16 * cos (3 * Y r))).
    + apply (derivable_pt_lim_plus (fun _ => 1/2) (fun r => 9/16 * cos (Y r))); [apply derivable_pt_lim_const|].
      apply (derivable_pt_lim_scal (fun r => cos (Y r))). apply deriv_cos. apply deriv_lin.
    + apply (derivable_pt_lim_scal (fun r => cos (3 * Y r))). apply (deriv_cos (fun r => 3 * Y r)). apply (derivable_pt_lim_scal Y). apply deriv_lin.
  - cbv beta. field. lra.
Qed.
Lemma mrepel_deriv : forall s t x, derivable_pt_lim (mrepel par s t) x (mrepel' par s t x).
Proof. intros s t x. exact (deriv_cut_exp (mfc par s t) (mfc' par s t) (m_lambda (par s t)) (m_A (par s t)) x (mfc_deriv s t x)). Qed.
Lemma mattract_deriv : forall s t x, derivable_pt_lim (mattract par s t) x (mattract' par s t x).
Proof.
  intros s t x. apply (derivable_pt_lim_scal (fun r => mfc par s t r * (m_B (par s t) * exp (- m_mu (par s t) * r)))).
  exact (deriv_cut_exp (mfc par s t) (mfc' par s t) (m_mu (par s t)) (m_B (par s t)) x (mfc_deriv s t x)).
Qed.
Hypothesis C3 : forall s t, 0 < m_c3 (par s t).
Lemma mangle_deriv : forall s t x, derivable_pt_lim (mangle par s t) x (mangle' par s t x).
Proof.
  intros s t x. unfold mangle, mangle'. set (w := par s t). pose proof (C3 s t) as CP. fold w in CP. pose proof (Rle_0_sqr (m_h w - x)) as SQ. unfold Rsqr in SQ.
  assert (D2 : derivable_pt_lim (fun x => (m_h w - x) * (m_h w - x)) x ((0 - 1) * (m_h w - x) + (m_h w - x) * (0 - 1))).
  { apply (derivable_pt_lim_mult (fun x => m_h w - x) (fun x => m_h w - x)); apply (derivable_pt_lim_minus (fun _ => m_h w) (fun x => x)); try apply derivable_pt_lim_const; apply derivable_pt_lim_id. }
  assert (D3 : derivable_pt_lim (fun x => m_c3 w + (m_h w - x) * (m_h w - x)) x (0 + ((0 - 1) * (m_h w - x) + (m_h w - x) * (0 - 1)))).
  { apply (derivable_pt_lim_plus (fun _ => m_c3 w) (fun x => (m_h w - x) * (m_h w - x))); [apply derivable_pt_lim_const|auto]. }
  eapply deriv_eq.
  - apply (derivable_pt_lim_plus (fun _ => m_c1 w) (fun x => m_c2 w * ((m_h w - x) * (m_h w - x)) / (m_c3 w + (m_h w - x) * (m_h w - x)) * (1 + m_c4 w * exp (- m_c5 w * ((m_h w - x) * (m_h w - x)))))); [apply derivable_pt_lim_const|].
    apply (derivable_pt_lim_mult (fun x => m_c2 w * ((m_h w - x) * (m_h w - x)) / (m_c3 w + (m_h w - x) * (m_h w - x))) (fun x => 1 + m_c4 w * exp (- m_c5 w * ((m_h w - x) * (m_h w - x))))).
    + apply (derivable_pt_lim_div (fun x => m_c2 w * ((m_h w - x) * (m_h w - x)))); [apply (derivable_pt_lim_scal (fun x => (m_h w - x) * (m_h w - x))); exact D2|exact D3|lra].
    + apply (derivable_pt_lim_plus (fun _ => 1) (fun x => m_c4 w * exp (- m_c5 w * ((m_h w - x) * (m_h w - x))))); [apply derivable_pt_lim_const|].
      apply (derivable_pt_lim_scal (fun x => exp (- m_c5 w * ((m_h w - x) * (m_h w - x))))).
      apply (derivable_pt_lim_comp (fun x => - m_c5 w * ((m_h w - x) * (m_h w - x))) exp); [apply (derivable_pt_lim_scal (fun x => (m_h w - x) * (m_h w - x))); exact D2|apply derivable_pt_lim_exp].
  - unfold Rsqr. field. lra.
Qed.
Lemma morder_deriv : forall s t z, 0 < z -> derivable_pt_lim (morder pw par s t) z (morder' pw par s t z).
Proof.
  intros s t z Z. destruct (order_gen pow0 1 (m_eta (par s t)) (- m_delta (par s t)) z Rlt_0_1 Z) as [P D]. rewrite Rmult_1_l in P, D.
  apply (deriv_local (fun z => pw (1 + pw (1 * z) (m_eta (par s t))) (- m_delta (par s t)))).
  - eapply deriv_eq; [exact D|]. unfold morder', morder. destruct (Req_EM_T z 0); [lra|]. field. split; lra.
  - exists 1. split; [lra|]. intros y _. rewrite Rmult_1_l. auto.
Qed.
Section Gradient.
Variables (c : conf) (pos : nat -> vec) (bx : box) (rcut : nat -> nat -> R).
Hypothesis FG : full_geometry c pos bx rcut.
Notation lo := (cnfstart c).
Notation hi := (cnfstart c + inconf c)%nat.
Variable L : nat -> list (nat * image).
Hypothesis HL : forall a, (lo <= a < hi)%nat -> all_neighbors c pos bx rcut a (L a).
(** the power function at the differences of two distances *)
Hypothesis PD : forall i v w, (lo <= i < hi)%nat -> In v (L i) -> In w (L i) -> v <> w ->
  let beta := m_beta (par (typ c i) (typ c (fst v))) in
  derivable_pt_lim (fun x => pw x beta) (dist pos bx i v - dist pos bx i w) (beta * pw (dist pos bx i v - dist pos bx i w) (beta - 1)).
(** no bond has a vanishing sum, unless it is alone *)
Hypothesis ZP : forall i v, (lo <= i < hi)%nat -> In v (L i) -> 0 < zeta c pos bx (maround pw par) L i v \/
  forall w, In w (others L i v) -> m_R2 (par (typ c i) (typ c (fst w))) < dist pos bx i w.
Lemma maround_chain : forall i v w, (lo <= i < hi)%nat -> In v (L i) -> In w (L i) -> v <> w ->
  chain (maround pw par (typ c i) (typ c (fst v)) (typ c (fst w))) (dist pos bx i v) (dist pos bx i w) (cosine pos bx i v w)
    (at_ c pos bx (maround1 pw par) i v w) (at_ c pos bx (maround2 pw par) i v w) (at_ c pos bx (maroundc pw par) i v w).
Proof.
  intros i v w Hi Hv Hw NE f1 f2 f3 d1 d2 d3 E1 E2 E3 D1 D2 D3. unfold at_, maround. set (s := typ c i). set (t := typ c (fst v)). set (k := typ c (fst w)).
  assert (A : derivable_pt_lim (fun t => mfc par s k (f2 t)) 0 (mfc' par s k (dist pos bx i w) * d2)).
  { apply (derivable_pt_lim_comp f2 (mfc par s k)); auto. rewrite E2. apply mfc_deriv. }
  assert (B : derivable_pt_lim (fun y => mangle par s t (f3 y)) 0 (mangle' par s t (cosine pos bx i v w) * d3)).
  { apply (derivable_pt_lim_comp f3 (mangle par s t)); auto. rewrite E3. apply mangle_deriv. }
  assert (C : derivable_pt_lim (fun y => spread pw par s t (f1 y) (f2 y)) 0 (spread' pw par s t (dist pos bx i v) (dist pos bx i w) * (d1 - d2))).
  { unfold spread. set (m := par s t). eapply deriv_eq.
    - apply (derivable_pt_lim_comp (fun y => m_alpha m * pw (f1 y - f2 y) (m_beta m)) exp); [|apply derivable_pt_lim_exp].
      apply (derivable_pt_lim_scal (fun y => pw (f1 y - f2 y) (m_beta m))).
      apply (derivable_pt_lim_comp (fun y => f1 y - f2 y) (fun x => pw x (m_beta m))); [apply (derivable_pt_lim_minus f1 f2); eauto|].
      rewrite E1, E2. apply (PD i v w Hi Hv Hw NE).
    - cbv beta. unfold spread', spread. fold m. rewrite E1, E2. unfold m, s, t. ring. }
  eapply deriv_eq.
  - apply (derivable_pt_lim_mult (fun y => mfc par s k (f2 y) * mangle par s t (f3 y)) (fun y => spread pw par s t (f1 y) (f2 y))); [|exact C].
    apply (derivable_pt_lim_mult (fun y => mfc par s k (f2 y)) (fun y => mangle par s t (f3 y))); [exact A|exact B].
  - unfold maround1, maround2, maroundc. cbv beta. rewrite E1, E2, E3. ring.
Qed.
Lemma mzeta_cases : forall a u i v, (lo <= a < hi)%nat -> (lo <= i < hi)%nat -> In v (L i) ->
  0 < zeta c pos bx (maround pw par) L i v \/
  exists e, 0 < e /\ forall t, Rabs t < e -> zeta c (moved pos a u t) bx (maround pw par) L i v = zeta c pos bx (maround pw par) L i v.
Proof.
  intros a u i v Ha Hi Hv. destruct (ZP i v Hi Hv) as [Z|Z]; [left; auto|right].
  assert (E : forall w, In w (others L i v) -> exists e, 0 < e /\ forall t, Rabs t < e -> at_ c (moved pos a u t) bx (maround pw par) i v w = 0).
  { intros w W. pose proof (Z w W) as G. apply filter_In in W. destruct W as [W _].
    pose proof (dist_deriv' c pos bx rcut FG L HL a u i w Hi W) as DD.
    destruct (deriv_cont _ _ DD (dist pos bx i w - m_R2 (par (typ c i) (typ c (fst w)))) ltac:(lra)) as (e & E & H). exists e. split; auto. intros t T. specialize (H t T).
    rewrite moved_d0 in H. apply Rabs_def2 in H. unfold at_, maround. unfold mfc at 1. destruct (Rlt_dec (dist (moved pos a u t) bx i w) _); [lra|ring]. }
  assert (Z0 : zeta c pos bx (maround pw par) L i v = 0).
  { apply rsumf_zero. intros w W. unfold at_, maround, mfc. destruct (Rlt_dec (dist pos bx i w) _); [|ring]. pose proof (Z w W). lra. }
  destruct (locally_all _ _ E) as (e & E' & H). exists e. split; auto. intros t T. rewrite Z0. apply rsumf_zero. intros w W. apply H; auto.
Qed.
Hypothesis PS : forall s t, par s t = par t s.
Theorem mod_gradient : forall a u, (lo <= a < hi)%nat ->
  derivable_pt_lim (fun t => pair_energy c (moved pos a u t) bx (mrepel par) (mreach par) L + bo_energy c (moved pos a u t) bx (mattract par) (morder pw par) (maround pw par) L) 0
    (- sprod u (vadd (pair_force c pos bx (mrepel' par) (mreach par) L a)
       (bo_force c pos bx (mattract par) (mattract' par) (morder pw par) (morder' pw par) (maround pw par) (maround1 pw par) (maround2 pw par) (maroundc pw par) L a))).
Proof.
  intros a u Ha. destruct (half_exists c pos bx rcut FG) as (f & GEO).
  eapply deriv_eq.
  - apply (derivable_pt_lim_plus (fun t => pair_energy c (moved pos a u t) bx (mrepel par) (mreach par) L) (fun t => bo_energy c (moved pos a u t) bx (mattract par) (morder pw par) (maround pw par) L)).
    + apply (pair_gradient (with_nb c f) pos bx rcut GEO L HL a u Ha (mrepel par) (mrepel' par) (mreach par)).
      * intros s t r. unfold mrepel', mfc, mfc'. rewrite (PS s t). auto.
      * intros s t r. unfold mreach. rewrite (PS s t). auto.
      * intros i v Hi Hv. set (s := typ (with_nb c f) i). set (t := typ (with_nb c f) (fst v)). apply (deriv_local (mrepel par s t)).
        -- eapply deriv_eq; [apply mrepel_deriv|]. unfold mreach. destruct (Rlt_dec _ _); auto. unfold mrepel', mfc, mfc'. destruct (Rlt_dec _ _); [lra|ring].
        -- exists 1. split; [lra|]. intros y _. unfold mreach. destruct (Rlt_dec _ _); auto. unfold mrepel, mfc. destruct (Rlt_dec _ _); [lra|ring].
    + apply (bo_gradient c pos bx rcut FG L HL a u Ha (mattract par) (mattract' par) (morder pw par) (morder' pw par) (maround pw par) (maround1 pw par) (maround2 pw par) (maroundc pw par)).
      * intros. apply mattract_deriv.
      * intros. apply maround_chain; auto.
      * intros i v Hi Hv. destruct (mzeta_cases a u i v Ha Hi Hv) as [Z|Z]; [left; apply morder_deriv; auto|right; auto].
  - rewrite sprod_add. change (pair_force (with_nb c f) pos bx (mrepel' par) (mreach par) L a) with (pair_force c pos bx (mrepel' par) (mreach par) L a). ring.
Qed.
End Gradient.
End Modified.
