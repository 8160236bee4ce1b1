(** The Stillinger-Weber routine: textbook values, sums, derivatives. *)
From Coq Require Import Reals ZArith List Bool Lia Lra Permutation.
From Verif Require Import Vec NbrModel NbrProof NbrProof2 LoopUtil PairIndexModel PairModel PairProof PairSpec PairProof2 PairProof3
  ForceLoop LammpsModel BondProof GradProof ThreeSpec ThreeProof ThreeProof2 ThreeProof3 ThreeProof4 AddProof AddProof2 SwSpec SwModel SwProof.
Import ListNotations.
Local Open Scope R_scope.

Section Routine.
Variables (bld : build) (pow0 : R -> R -> R) (V : nat -> nat -> R) (lam : nat -> nat -> nat -> R) (n : nat).
Variables (eweight sweight punish : R) (cs : nat -> conf) (nconf : nat).
Hypothesis CONT : forall ci, cnfstart (cs (S ci)) = (cnfstart (cs ci) + inconf (cs ci))%nat.
Hypothesis LS : forall i j k, lam i j k = lam i k j.
Variables (pos : nat -> vec) (bx : nat -> box) (rcut : nat -> nat -> R).
Hypothesis FG : forall ci, (ci < nconf)%nat -> full_geometry (cs ci) pos (bx ci) rcut.
Variable L : nat -> nat -> list (nat * image).
Hypothesis HL : forall ci a, (ci < nconf)%nat -> (cnfstart (cs ci) <= a < cnfstart (cs ci) + inconf (cs ci))%nat ->
  all_neighbors (cs ci) pos (bx ci) rcut a (L ci a).
Notation lo ci := (cnfstart (cs ci)).
Notation hi ci := (cnfstart (cs ci) + inconf (cs ci))%nat.
Notation calc := (calc_forces bld pow0 V lam n eweight sweight punish cs nconf).
Notation par := (par V n).
Notation pf ci := (pair_force (cs ci) pos (bx ci) (two' par) (two_in par) (L ci)).
Notation tf ci := (three_force (cs ci) pos (bx ci) (three1 par lam) (threec par lam) (L ci)).
Notation PE ci := (pair_energy (cs ci) pos (bx ci) (two par) (two_in par) (L ci)).
Notation TE ci := (three_energy (cs ci) pos (bx ci) (three par lam) (L ci)).
Notation SE ci := (self_energy (cs ci) pos (bx ci) (L ci) (two par) (two_in par)).
Notation PV ci := (pair_virial (cs ci) pos (bx ci) (two' par) (two_in par) (L ci)).
Notation TV ci := (three_virial (cs ci) pos (bx ci) (three1 par lam) (threec par lam) (L ci)).
Notation SV ci := (self_virial (cs ci) pos (bx ci) (L ci) (two' par) (two_in par)).

Lemma calc_eq : forall s, calc s = groutine bld eweight sweight (fun _ => 0) punish cs nconf (fun c => c)
  (fun ci => for_up (lo ci) (hi ci) (atom_body bld pow0 V lam n ci (cs ci))) s.
Proof. intros s. reflexivity. Qed.
Definition cF (ci a : nat) : vec := if inside (cs ci) a then vadd (if uf (cs ci) then pf ci a else v0) (tf ci a) else v0.
Definition cE (ci : nat) : R := PE ci - 1/2 * SE ci + TE ci.
Definition cS (ci k : nat) : R := if (Nat.ltb k 6 && (STRESS bld && us (cs ci)))%bool then (if uf (cs ci) then PV ci k - 1/2 * SV ci k else 0) + TV ci k else 0.
Lemma sw_adds : forall ci, (ci < nconf)%nat -> adds ci (for_up (lo ci) (hi ci) (atom_body bld pow0 V lam n ci (cs ci))) (cF ci) (cE ci) (cS ci).
Proof. intros ci H. exact (atoms_adds bld pow0 V lam n LS (cs ci) pos (bx ci) rcut ci (FG ci H) (L ci) (fun a => HL ci a H)). Qed.
Lemma sw_out : forall ci a, (ci < nconf)%nat -> (a < lo ci)%nat \/ (hi ci <= a)%nat -> cF ci a = v0.
Proof.
  intros ci a _ O. unfold cF. destruct (inside (cs ci) a) eqn:I; auto. unfold inside in I. apply andb_true_iff in I. rewrite Nat.leb_le, Nat.ltb_lt in I. lia.
Qed.
Lemma cF_in : forall ci a, (lo ci <= a < hi ci)%nat -> cF ci a = vadd (if uf (cs ci) then pf ci a else v0) (tf ci a).
Proof. intros ci a H. unfold cF. apply inside_true in H. rewrite H. auto. Qed.

Theorem sw_values : forall s, let s' := calc s in forall ci, (ci < nconf)%nat ->
  (uf (cs ci) = true -> forall a, (lo ci <= a < hi ci)%nat ->
     frc s' a = vscale (fscale bld cs ci a) (vsub (vadd (pf ci a) (tf ci a)) (force_0 (cs ci) a))) /\
  (uf (cs ci) = false -> forall a, (lo ci <= a < hi ci)%nat -> frc s' a = tf ci a) /\
  en s' ci = (PE ci - 1/2 * SE ci + TE ci) / INR (inconf (cs ci)) - energy_0 (cs ci) /\
  (STRESS bld = true -> forall k, (k < 6)%nat -> str s' ci k =
     if us (cs ci)
     then if uf (cs ci) then (PV ci k - 1/2 * SV ci k + TV ci k) / conf_vol (cs ci) - stress_0 (cs ci) k else TV ci k
     else 0).
Proof.
  intros s s' ci H. unfold s'. rewrite calc_eq.
  destruct (groutine_closed bld eweight sweight (fun _ => 0) punish cs nconf (fun c => c) (fun c => conj eq_refl eq_refl) CONT
    (fun ci => for_up (lo ci) (hi ci) (atom_body bld pow0 V lam n ci (cs ci))) cF cE cS sw_adds sw_out s) as (A & B & C & _).
  split; [|split; [|split]].
  - intros U a Ha. rewrite (A ci a H Ha). unfold gF. rewrite U, cF_in, U by auto. unfold scl, fscale.
    set (p := vadd (pf ci a) (tf ci a)). clearbody p. destruct (FWEIGHT bld); vring.
  - intros U a Ha. rewrite (A ci a H Ha). unfold gF. rewrite U, cF_in, U by auto. vring.
  - rewrite (B ci H). unfold gE, cE. f_equal. f_equal. ring.
  - intros ON k K. rewrite (C ci k H K ON). unfold gS, cS, stress_on. rewrite ON. destruct (Nat.ltb_spec k 6); [|lia].
    destruct (us (cs ci)), (uf (cs ci)); cbn [andb]; auto; ring.
Qed.
(** textbook, where no atom meets its own images *)
Theorem sw_textbook : forall s, let s' := calc s in forall ci, (ci < nconf)%nat ->
  (uf (cs ci) = true -> forall a, (lo ci <= a < hi ci)%nat ->
     frc s' a = vscale (fscale bld cs ci a) (vsub (vadd (pf ci a) (tf ci a)) (force_0 (cs ci) a))) /\
  (no_self (cs ci) (L ci) ->
   en s' ci = (PE ci + TE ci) / INR (inconf (cs ci)) - energy_0 (cs ci) /\
   (STRESS bld = true -> uf (cs ci) = true -> us (cs ci) = true -> forall k, (k < 6)%nat ->
     str s' ci k = (PV ci k + TV ci k) / conf_vol (cs ci) - stress_0 (cs ci) k)).
Proof.
  intros s s' ci H. destruct (sw_values s ci H) as (A & _ & C & D). fold s' in A, C, D. split; [auto|]. intros NS. split.
  - rewrite C, no_self_energy by auto. f_equal. f_equal. ring.
  - intros ON U U2 k K. rewrite (D ON k K), U, U2, no_self_virial by auto. f_equal. f_equal. ring.
Qed.
Theorem sw_sum_zero : forall s, let s' := calc s in forall ci, (ci < nconf)%nat -> uf (cs ci) = true -> FWEIGHT bld = false ->
  vsum (fun a => vadd (frc s' a) (force_0 (cs ci) a)) (seq (lo ci) (inconf (cs ci))) = v0.
Proof.
  intros s s' ci H U W.
  assert (Q : forall a, In a (seq (lo ci) (inconf (cs ci))) -> vadd (frc s' a) (force_0 (cs ci) a) = vadd (pf ci a) (tf ci a)).
  { intros a Ha. apply in_seq in Ha. destruct (sw_values s ci H) as (F & _). fold s' in F. rewrite (F U a) by lia. unfold fscale. rewrite W. vring. }
  pose proof (full_newton (cs ci) pos (bx ci) rcut (FG ci H) (L ci) (fun a => HL ci a H) (two' par) (two_in par) (two'_sym V n) (two_in_sym V n)) as N1.
  pose proof (three_newton (cs ci) pos (bx ci) rcut (L ci) (fun a => HL ci a H) (three1 par lam) (threec par lam)) as N2.
  pose proof (f_equal vx N1) as X1. pose proof (f_equal vy N1) as Y1. pose proof (f_equal vz N1) as Z1.
  pose proof (f_equal vx N2) as X2. pose proof (f_equal vy N2) as Y2. pose proof (f_equal vz N2) as Z2.
  unfold vsum at 1 in X1. unfold vsum at 1 in Y1. unfold vsum at 1 in Z1. unfold vsum at 1 in X2. unfold vsum at 1 in Y2. unfold vsum at 1 in Z2.
  cbn [vx vy vz v0] in X1, Y1, Z1, X2, Y2, Z2.
  apply vec_eq; unfold vsum; cbn [vx vy vz v0].
  - rewrite (rsumf_ext _ (fun a => vx (pf ci a) + vx (tf ci a))); [|intros a Ha; rewrite Q by auto; auto]. rewrite rsumf_plus, X1, X2. ring.
  - rewrite (rsumf_ext _ (fun a => vy (pf ci a) + vy (tf ci a))); [|intros a Ha; rewrite Q by auto; auto]. rewrite rsumf_plus, Y1, Y2. ring.
  - rewrite (rsumf_ext _ (fun a => vz (pf ci a) + vz (tf ci a))); [|intros a Ha; rewrite Q by auto; auto]. rewrite rsumf_plus, Z1, Z2. ring.
Qed.
Theorem sw_error : forall s, let s' := calc s in
  err s' = rsumf (fun ci => 
     rsumf (fun a => if (uf (cs ci) && (negb (CONTRIB bld) || contrib (cs ci) a))%bool
                     then conf_weight (cs ci) * sqv (frc s' a) else 0) (seq (cnfstart (cs ci)) (inconf (cs ci))) +
     conf_weight (cs ci) * eweight * sq (en s' ci) +
     (if (STRESS bld && uf (cs ci) && us (cs ci))%bool
      then rsumf (fun k => conf_weight (cs ci) * sweight * sq (str s' ci k)) (seq 0 6) else 0)) (seq 0 nconf) + punish.
Proof.
  intros s s'. unfold s'. rewrite calc_eq.
  exact (groutine_error bld eweight sweight (fun _ => 0) punish cs nconf (fun c => c) (fun c => conj eq_refl eq_refl) CONT
    (fun ci => for_up (lo ci) (hi ci) (atom_body bld pow0 V lam n ci (cs ci))) cF cE cS sw_adds sw_out s).
Qed.
End Routine.

(** ** Derivatives of the functions *)
Lemma deriv_local : forall f g x l, derivable_pt_lim f x l -> (exists e, 0 < e /\ forall y, Rabs (y - x) < e -> f y = g y) -> derivable_pt_lim g x l.
Proof.
  intros f g x l D (e & E & H) eps P. destruct (D eps P) as (d & Hd). assert (M : 0 < Rmin d e) by (apply Rmin_pos; [apply cond_pos|auto]).
  exists (mkposreal _ M). simpl. intros h N A. pose proof (Rmin_l d e). pose proof (Rmin_r d e).
  rewrite <- (H (x + h)), <- (H x); [apply Hd; auto; lra| |].
  - replace (x - x) with 0 by ring. rewrite Rabs_R0. auto.
  - replace (x + h - x) with h by ring. lra.
Qed.
Lemma deriv_inv_exp : forall g a x, x <> a -> derivable_pt_lim (fun r => exp (g / (r - a))) x (- g / ((x - a) * (x - a)) * exp (g / (x - a))).
Proof.
  intros g a x N.
  assert (D : derivable_pt_lim (fun r => g / (r - a)) x ((0 * (x - a) - (1 - 0) * g) / Rsqr (x - a))).
  { apply (derivable_pt_lim_div (fun _ => g) (fun r => r - a)).
    - apply derivable_pt_lim_const.
    - apply (derivable_pt_lim_minus (fun r => r) (fun _ => a)); [apply derivable_pt_lim_id|apply derivable_pt_lim_const].
    - lra. }
  pose proof (derivable_pt_lim_comp (fun r => g / (r - a)) exp x _ _ D (derivable_pt_lim_exp _)) as C. unfold comp in C.
  eapply deriv_eq; [exact C|]. unfold Rsqr. field. lra.
Qed.
Lemma deriv_pow : forall y x, 0 < x -> derivable_pt_lim (fun r => Rpower r y) x (y * (Rpower x y / x)).
Proof.
  intros y x P. eapply deriv_eq; [apply derivable_pt_lim_power; auto|]. f_equal. unfold Rminus. rewrite Rpower_plus, Rpower_Ropp, Rpower_1 by auto. reflexivity.
Qed.
Section Functions.
Variable par : nat -> nat -> sw_pair.
Variable lam : nat -> nat -> nat -> R.
Lemma two_deriv : forall s t r, 0 < r -> r <> sw_a1 (par s t) -> derivable_pt_lim (two par s t) r (two' par s t r).
Proof.
  intros s t r P N. unfold two', two. set (w := par s t) in *.
  eapply deriv_eq.
  - apply (derivable_pt_lim_mult (fun r => sw_A w * Rpower r (- sw_p w) - sw_B w * Rpower r (- sw_q w)) (fun r => exp (sw_delta w / (r - sw_a1 w)))).
    + apply (derivable_pt_lim_minus (fun r => sw_A w * Rpower r (- sw_p w)) (fun r => sw_B w * Rpower r (- sw_q w)));
        [apply (derivable_pt_lim_scal (fun r => Rpower r (- sw_p w)))|apply (derivable_pt_lim_scal (fun r => Rpower r (- sw_q w)))]; apply deriv_pow; auto.
    + apply deriv_inv_exp. auto.
  - field. lra.
Qed.
Lemma two_in_deriv : forall s t r, 0 < r -> r <> sw_a1 (par s t) ->
  derivable_pt_lim (fun r => if two_in par s t r then two par s t r else 0) r (if two_in par s t r then two' par s t r else 0).
Proof.
  intros s t r P N. unfold two_in. destruct (Rlt_dec r (sw_a1 (par s t))) as [I|O].
  - apply (deriv_local (two par s t)); [apply two_deriv; auto|]. exists (sw_a1 (par s t) - r). split; [lra|]. intros y Y.
    destruct (Rlt_dec y (sw_a1 (par s t))); auto. apply Rabs_def2 in Y. lra.
  - apply (deriv_local (fun _ => 0)); [apply derivable_pt_lim_const|]. exists (r - sw_a1 (par s t)). split; [lra|]. intros y Y.
    destruct (Rlt_dec y (sw_a1 (par s t))); auto. apply Rabs_def2 in Y. lra.
Qed.
(** the end of the region where the cutoff function is taken as non-zero *)
Definition edge (s t : nat) : R := sw_a2 (par s t) - 1 / 100 * sw_gamma (par s t).
Lemma reached_spec : forall s t r, 0 <= sw_gamma (par s t) -> reached par s t r = true <-> r < edge s t.
Proof.
  intros s t r G. unfold reached, edge. destruct (Rlt_dec r (sw_a2 (par s t))).
  - destruct (Rlt_dec (r - sw_a2 (par s t)) (- (1/100) * sw_gamma (par s t))); split; auto; try discriminate; intros; lra.
  - split; [discriminate|]. intros. lra.
Qed.
Lemma cut_deriv : forall s t r, 0 <= sw_gamma (par s t) -> r <> edge s t -> derivable_pt_lim (cut par s t) r (cut' par s t r).
Proof.
  intros s t r G N. unfold cut'. destruct (reached par s t r) eqn:E.
  - apply reached_spec in E; auto. assert (r < sw_a2 (par s t)) by (unfold edge in E; lra).
    apply (deriv_local (fun r => exp (sw_gamma (par s t) / (r - sw_a2 (par s t))))); [apply deriv_inv_exp; lra|]. exists (edge s t - r). split; [lra|]. intros y Y.
    unfold cut. replace (reached par s t y) with true; auto. symmetry. apply reached_spec; auto. apply Rabs_def2 in Y. lra.
  - assert (Q : ~ r < edge s t) by (intros Q; apply reached_spec in Q; auto; congruence).
    apply (deriv_local (fun _ => 0)); [apply derivable_pt_lim_const|]. exists (r - edge s t). split; [lra|]. intros y Y.
    unfold cut. destruct (reached par s t y) eqn:F; auto. apply reached_spec in F; auto. apply Rabs_def2 in Y. lra.
Qed.
Lemma bend_deriv : forall i j k x, derivable_pt_lim (bend lam i j k) x (bend' lam i j k x).
Proof.
  intros i j k x. unfold bend, bend'. eapply deriv_eq.
  - apply (derivable_pt_lim_scal (fun x => (x + 1/3) * (x + 1/3))). apply (derivable_pt_lim_mult (fun x => x + 1/3) (fun x => x + 1/3));
      (apply (derivable_pt_lim_plus (fun x => x) (fun _ => 1/3)); [apply derivable_pt_lim_id|apply derivable_pt_lim_const]).
  - field.
Qed.
(** what is lost by leaving out the tail *)
Lemma cut_error : forall s t r, 0 <= sw_gamma (par s t) -> r < sw_a2 (par s t) ->
  0 <= exp (sw_gamma (par s t) / (r - sw_a2 (par s t))) - cut par s t r <= exp (- 100).
Proof.
  intros s t r G I. unfold cut. destruct (reached par s t r) eqn:E.
  - replace (exp _ - exp _) with 0 by ring. split; [lra|left; apply exp_pos].
  - assert (Q : ~ r < edge s t) by (intros Q; apply reached_spec in Q; auto; congruence). unfold edge in Q.
    set (g := sw_gamma (par s t)) in *. set (a := sw_a2 (par s t)) in *. rewrite Rminus_0_r. split; [left; apply exp_pos|].
    assert (g / (r - a) <= -100).
    { apply Rmult_le_reg_r with (a - r); [lra|]. replace (g / (r - a) * (a - r)) with (- g) by (field; lra). lra. }
    destruct H as [H|H]; [left; apply exp_increasing; auto|rewrite H; right; auto].
Qed.
Variables (c : conf) (pos : nat -> vec) (bx : box) (rcut : nat -> nat -> R).
Hypothesis FG : full_geometry c pos bx rcut.
Notation lo := (cnfstart c).
Notation hi := (cnfstart c + inconf c)%nat.
Variable L : nat -> list (nat * image).
Hypothesis HL : forall a, (lo <= a < hi)%nat -> all_neighbors c pos bx rcut a (L a).
Hypothesis PS : forall s t, par s t = par t s.
Hypothesis LS : forall i j k, lam i j k = lam i k j.
Hypothesis G0 : forall s t, 0 <= sw_gamma (par s t).
Hypothesis OFF : forall i v, (lo <= i < hi)%nat -> In v (L i) ->
  dist pos bx i v <> sw_a1 (par (typ c i) (typ c (fst v))) /\ dist pos bx i v <> edge (typ c i) (typ c (fst v)).
Theorem sw_gradient : forall a u, (lo <= a < hi)%nat ->
  derivable_pt_lim (fun t => pair_energy c (moved pos a u t) bx (two par) (two_in par) L + three_energy c (moved pos a u t) bx (three par lam) L) 0
    (- sprod u (vadd (pair_force c pos bx (two' par) (two_in par) L a) (three_force c pos bx (three1 par lam) (threec par lam) L a))).
Proof.
  intros a u Ha. destruct (half_exists c pos bx rcut FG) as (f & GEO).
  assert (POS : forall i v, (lo <= i < hi)%nat -> In v (L i) -> 0 < dist pos bx i v).
  { intros i v Hi Hv. apply dist_pos. exact (no_overlap (with_nb c f) pos bx rcut GEO L HL i v Hi Hv). }
  eapply deriv_eq.
  - apply (derivable_pt_lim_plus (fun t => pair_energy c (moved pos a u t) bx (two par) (two_in par) L) (fun t => three_energy c (moved pos a u t) bx (three par lam) L)).
    + apply (pair_gradient (with_nb c f) pos bx rcut GEO L HL a u Ha (two par) (two' par) (two_in par)).
      * intros s t r. unfold two', two. rewrite (PS s t). auto.
      * intros s t r. unfold two_in. rewrite (PS s t). auto.
      * intros i v Hi Hv. destruct (OFF i v Hi Hv). apply two_in_deriv; auto.
    + apply (three_gradient c pos bx rcut FG L HL a u Ha (cut par) (cut' par) (bend lam) (bend' lam)).
      * intros. unfold bend. rewrite LS. auto.
      * intros. unfold bend'. rewrite LS. auto.
      * intros i v Hi Hv. destruct (OFF i v Hi Hv). apply cut_deriv; auto.
      * intros i v w _ _ _ _. apply bend_deriv.
  - change (with_nb c f) with (with_nb c f). unfold three1, threec, ph1, phc, sprod, vadd. cbn [vx vy vz].
    change (pair_force (with_nb c f) pos bx (two' par) (two_in par) L a) with (pair_force c pos bx (two' par) (two_in par) L a). ring.
Qed.
End Functions.
