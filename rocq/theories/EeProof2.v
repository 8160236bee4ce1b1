(** One configuration and all of them: EAM with electrostatics as EAM on shifted references. *)
From Coq Require Import Reals ZArith List Bool Lia Lra.
From Verif Require Import Vec NbrModel NbrProof LoopUtil PairModel PairProof PairSpec ForceLoop AddProof FuncModel EamModel EamProof EamProof2 EamProof3 ElSpec ElModel ElProof ElProof2 ElProof3 EeModel EeProof.
Import ListNotations.
Local Open Scope R_scope.

Definition zdev : dev := mk_dev (fun _ => v0) (fun _ => 0) (fun _ _ => 0) 0.
Lemma rel_ext : forall s z z' t, (forall a, frc z a = frc z' a) -> (forall d, en z d = en z' d) -> (forall d k, str z d k = str z' d k) -> err z = err z' -> rel s z t -> rel s z' t.
Proof. intros s z z' t F E S R [A1 A2 A3 A4]. constructor; intros; rewrite <- ?F, <- ?E, <- ?S, <- ?R; auto. Qed.

Section Ee.
Variable bld : build.
Variable NOPUNISH DIPOLE : bool.
Notation eb := (eb bld NOPUNISH).
Variables phi dphi : nat -> nat -> R -> R.
Variable in_range : nat -> nat -> R -> bool.
Variables dens ddens : nat -> nat -> R -> R.
Variable reach : nat -> nat -> R -> bool.
Variables F dF : nat -> nat -> R -> R.
Variables fbegin fend : nat -> nat -> R.
Variables charge alpha : nat -> R.
Variables dpb dpc : nat -> nat -> R.
Variables fel gel ggel : R -> R.
Variables dp_cut dp_tol dp_mix self_coef : R.
Variables eweight sweight : R.
Variable limit_0 : nat -> R.
Variable dummy_0 : nat -> R.
Variable punish : R.
Variables ntypes natoms : nat.
Notation NX := (next DIPOLE charge alpha dpb dpc gel dp_cut dp_tol dp_mix).
Notation LOOPS p := (eloops bld DIPOLE phi dphi in_range charge alpha dpb dpc fel gel ggel dp_cut self_coef p).
Notation CBE := (EeModel.config_body bld NOPUNISH DIPOLE phi dphi in_range dens ddens reach F dF fbegin fend charge alpha dpb dpc fel gel ggel dp_cut dp_tol dp_mix self_coef eweight sweight limit_0).
Notation CBA := (EamModel.config_body eb phi dphi none dens ddens reach F dF F dF fbegin fend fbegin eweight sweight limit_0).

(** what a configuration must add; [X] only to its own atoms *)
Definition fits (c : conf) (X : nat -> vec) (Sg : nat -> R) : Prop :=
  (forall a, (a < cnfstart c)%nat \/ (cnfstart c + inconf c <= a)%nat -> X a = v0) /\ (uf c = false -> forall a, X a = v0) /\
  (forall k, (6 <= k)%nat -> Sg k = 0) /\ ((STRESS bld && uf c && us c)%bool = false -> forall k, Sg k = 0).
Definition good (c : conf) : Prop := typed c /\ (DIPOLE = true -> alike charge alpha c /\ all_charged charge alpha c).

Lemma config_dip : forall ci c t d, eed (CBE ci c (mk_eest t d)) = NX c d.
Proof. reflexivity. Qed.
Lemma config_rel : forall ci c X E Sg s t d, good c -> fits c X Sg -> adds ci (LOOPS (p_ind (NX c d)) ci c) X E Sg -> erel s zdev t ->
  erel (CBA ci (shifted c X E Sg) s) zdev (ees (CBE ci c (mk_eest t d))).
Proof.
  intros ci c X E Sg s t d [TY AL] (X1 & X2 & S1 & S2) AD H.
  unfold EeModel.config_body, EamModel.config_body. cbv zeta. cbn [ees eed]. fold (NX c d). set (p := p_ind (NX c d)) in *. clearbody p.
  cbn [RESCALE EeModel.eb base]. 
  set (z0 := mk_dev (fun a => vscale (-1) (X a)) (fun _ => 0) (fun _ _ => 0) 0).
  (* reset *)
  set (s1 := mk_est _ (rho (with_dv s _)) _ _ _ _). set (t1 := mk_est _ (rho (with_dv t _)) _ _ _ _).
  assert (H1 : erel s1 zdev t1).
  { destruct H as [[B1 B2 B3 B4] A2 A3 A4 A5 A6]. unfold s1, t1, with_dv, reset_conf. cbn [dv rho gradF lim rsum dum]. rewrite A2, A3, A4, A5, A6. constructor; auto; cbn [dv].
    constructor; cbn [frc en str err]; auto.
    - intros e. unfold setf. destruct (Nat.eqb e ci); [cbn [zdev en]; ring|auto].
    - intros e k. destruct (STRESS bld); [|auto]. unfold setf. destruct (Nat.eqb e ci); [|auto]. destruct (Nat.ltb k 6); [cbn [zdev str]; ring|exact (B3 ci k)]. }
  clearbody s1 t1. clear H.
  change (cnfstart (shifted c X E Sg)) with (cnfstart c). change (inconf (shifted c X E Sg)) with (inconf c).
  set (s2 := for_up _ _ (reset_rho eb (shifted c X E Sg)) s1). set (t2 := for_up _ _ (reset_rho eb c) t1).
  assert (H2 : erel s2 z0 t2).
  { pose (zn := fun n => mk_dev (fun a => if (Nat.leb (cnfstart c) a && Nat.ltb a n)%bool then vscale (-1) (X a) else v0) (fun _ => 0) (fun _ _ => 0) 0).
    assert (G : forall n, erel (for_up (cnfstart c) (cnfstart c + n) (reset_rho eb (shifted c X E Sg)) s1) (zn (cnfstart c + n)%nat) (for_up (cnfstart c) (cnfstart c + n) (reset_rho eb c) t1)).
    { induction n.
      - rewrite Nat.add_0_r. unfold for_up. rewrite Nat.sub_diag. cbn [seq fold_left]. destruct H1 as [A1 A2 A3 A4 A5 A6]. constructor; auto.
        apply (rel_ext _ zdev); auto. intros a. cbn [zdev zn frc]. destruct (Nat.leb_spec (cnfstart c) a), (Nat.ltb_spec a (cnfstart c)); auto; lia.
      - rewrite <- plus_n_Sm, !for_up_S by lia. revert IHn. generalize (for_up (cnfstart c) (cnfstart c + n) (reset_rho eb (shifted c X E Sg)) s1) as a, (for_up (cnfstart c) (cnfstart c + n) (reset_rho eb c) t1) as b. intros a b IHn.
        destruct IHn as [[B1 B2 B3 B4] A2 A3 A4 A5 A6]. unfold reset_rho, reset_atom. rewrite A2. constructor; cbn [dv rho gradF lim rsum dum]; auto.
        constructor; cbn [frc en str err]; auto. intros i. unfold setf. cbn [uf force_0 shifted zn frc]. destruct (Nat.eqb_spec i (cnfstart c + n)) as [->|N].
        + destruct (Nat.leb_spec (cnfstart c) (cnfstart c + n)), (Nat.ltb_spec (cnfstart c + n) (S (cnfstart c + n))); try lia. cbn [andb].
          destruct (uf c) eqn:U; [vring|rewrite X2 by auto; vring].
        + rewrite B1. f_equal. cbn [zn frc]. destruct (Nat.leb_spec (cnfstart c) i), (Nat.ltb_spec i (cnfstart c + n)), (Nat.ltb_spec i (S (cnfstart c + n))); auto; lia. }
    destruct (G (inconf c)) as [A1 A2 A3 A4 A5 A6]. constructor; auto. apply (rel_ext _ (zn (cnfstart c + inconf c)%nat)); auto.
    intros a. cbn [zn z0 frc]. destruct (Nat.leb_spec (cnfstart c) a), (Nat.ltb_spec a (cnfstart c + inconf c)); cbn [andb]; auto; rewrite X1 by lia; vring. }
  clearbody s2 t2. clear H1.
  (* second loop *)
  set (s3 := for_up _ _ (EamModel.second_atom _ _ _ _ _ _ _ _ _ _ _ _ _ _ _) s2). set (t3 := for_up _ _ (EeModel.second_atom _ _ _ _ _ _ _ _ _ _ _ _ _ _ _ _ _) t2).
  set (z1 := for_up (cnfstart c) (cnfstart c + inconf c) (ElModel.second_atom bld phi dphi in_range charge fel gel dp_cut ci c) z0).
  assert (H3 : erel s3 z1 t3).
  { unfold s3, z1, t3. apply (for_up_three erel); auto. intros i x y w _ HH. apply second_atom_rel; auto. }
  (* fourth and fifth loop *)
  set (v := if DIPOLE then pdv (for_up _ _ (EeModel.fourth_atom _ _ _ _ _ _ _ _ p ci c) (mk_proj (dv t3) 0 0)) else dv t3).
  set (z2 := if DIPOLE then ElProof2.fourth_loop bld charge alpha dpb dpc gel ggel dp_cut p ci c z1 else z1).
  assert (H4 : rel (dv s3) z2 v).
  { unfold v, z2. destruct DIPOLE; [|apply (x_dv _ _ _ H3)]. destruct (AL eq_refl) as [AK AC].
    change (rel (dv s3) (ElProof2.fourth_loop bld charge alpha dpb dpc gel ggel dp_cut p ci c z1) (fourth_loop bld charge alpha dpb dpc gel ggel dp_cut p ci c (dv t3))).
    rewrite fourth_same, !fourth_clean by auto.
    apply (rel_adds ci _ _ _ _ (body_adds _ ci _ _ _ (clean_spec bld charge alpha dpb dpc gel ggel dp_cut p ci c) c)). apply (x_dv _ _ _ H3). }
  clearbody v. clear AL.
  set (v5 := for_up _ _ (self_energy _ _ _ _ p ci c) v). set (z3 := LOOPS p ci c z0).
  assert (H5 : rel (dv s3) z3 v5).
  { change z3 with (for_up (cnfstart c) (cnfstart c + inconf c) (self_energy DIPOLE charge alpha self_coef p ci c) z2). unfold v5.
    apply (rel_adds ci _ _ _ _ (adds_up ci (self_energy DIPOLE charge alpha self_coef p ci c) _ _ _ (cnfstart c) (inconf c) (fun i _ => self_adds1 DIPOLE charge alpha self_coef p ci c i))). auto. }
  assert (Z1 : forall a, frc z3 a = v0) by (intros a; unfold z3; rewrite (ad_frc _ _ _ _ _ AD); cbn [z0 frc]; vring).
  assert (Z2 : forall e, en z3 e = if Nat.eqb e ci then E else 0) by (intros e; unfold z3; rewrite (ad_en _ _ _ _ _ AD); cbn [z0 en]; ring).
  assert (Z3 : forall e k, str z3 e k = if Nat.eqb e ci then Sg k else 0) by (intros e k; unfold z3; rewrite (ad_str _ _ _ _ _ AD); cbn [z0 str]; ring).
  assert (Z4 : err z3 = 0) by (unfold z3; rewrite (ad_err _ _ _ _ _ AD); auto).
  clearbody v5 z3.
  assert (G3 : rho t3 = rho s3 /\ gradF t3 = gradF s3 /\ lim t3 = lim s3 /\ rsum t3 = rsum s3 /\ dum t3 = dum s3) by (destruct H3; auto).
  clear H3 H4. clearbody s3 t3. destruct G3 as (G1 & G2 & G3 & G4 & G5).
  (* sixth loop *)
  cbn [uf shifted]. rewrite G2, G3.
  set (s6 := if uf c then for_up _ _ (third_atom eb ddens reach (gradF s3) ci (shifted c X E Sg)) (dv s3) else dv s3).
  set (v6 := if uf c then for_up _ _ (third_atom eb ddens reach (gradF s3) ci c) v5 else v5).
  assert (H6 : rel s6 z3 v6).
  { unfold s6, v6. destruct (uf c); auto. apply (for_up_two (fun x y => rel x z3 y)); auto. intros i x y _ HH. apply third_rel; auto. }
  clearbody s6 v6. clear H5.
  pose proof (energy_rel eweight ci c E X Sg s6 z3 v6 Z2 H6) as H7.
  pose proof (stress_rel bld sweight ci c E X Sg _ (mk_dev (frc z3) (fun _ => 0) (str z3) (err z3)) _ Z3 S1 S2 H7) as H8.
  constructor; cbn [with_dv dv rho gradF lim rsum dum]; auto.
  destruct H8 as [B1 B2 B3 B4]. constructor; cbn [frc en str err zdev]; auto.
  - intros a. rewrite B1. cbn [frc]. rewrite Z1. auto.
  - rewrite B4. cbn [err conf_weight shifted]. rewrite Z4. ring.
Qed.

(** ** dummy constraints *)
Lemma set_dum_rel : forall s t k x, erel s zdev t -> erel (set_dum s k x) zdev (set_dum t k x).
Proof. intros s t k x [A1 A2 A3 A4 A5 A6]. constructor; cbn [set_dum dv rho gradF lim rsum dum]; auto. rewrite A6; auto. Qed.
Lemma add_err_rel : forall s t x, erel s zdev t -> erel (add_err s x) zdev (add_err t x).
Proof.
  intros s t x [[B1 B2 B3 B4] A2 A3 A4 A5 A6]. constructor; cbn [add_err with_dv dv rho gradF lim rsum dum]; auto. constructor; cbn [frc en str err]; auto. rewrite B4. ring.
Qed.
Lemma dummy_rel : forall s t, erel s zdev t -> erel (dummy eb dF fbegin fend dummy_0 ntypes natoms s) zdev (dummy eb dF fbegin fend dummy_0 ntypes natoms t).
Proof.
  intros s t H. unfold dummy. cbn [EamModel.NOPUNISH RESCALE EeModel.eb]. destruct NOPUNISH; auto.
  apply (for_up_two (fun x y => erel x zdev y) 0 ntypes); auto. intros g x y _ HH. unfold dummy_type.
  apply (for_up_two (fun x y => erel x zdev y) 0 (nbands eb)).
  - apply (for_up_two (fun x y => erel x zdev y) 0 (nbands eb)); auto. intros b x' y' _ HH'. unfold dummy_set. apply set_dum_rel, set_dum_rel. auto.
  - intros b x' y' _ HH'. unfold dummy_add.
    assert (Q : erel (add_err x' (sq (dum x' (2 * b * ntypes + g)%nat))) zdev (add_err y' (sq (dum y' (2 * b * ntypes + g)%nat)))) by (rewrite (x_dum _ _ _ HH'); apply add_err_rel; auto).
    rewrite (x_dum _ _ _ Q). apply add_err_rel; auto.
Qed.

(** ** all configurations *)
Variables (cs : nat -> conf) (nconf : nat).
Notation DI n d := (dips DIPOLE charge alpha dpb dpc gel dp_cut dp_tol dp_mix cs n d).
Variables (X : nat -> nat -> vec) (E : nat -> R) (Sg : nat -> nat -> R).
Definition scs (ci : nat) : conf := shifted (cs ci) (X ci) (E ci) (Sg ci).
Notation calc := (EeModel.calc_forces bld NOPUNISH DIPOLE phi dphi in_range dens ddens reach F dF fbegin fend charge alpha dpb dpc fel gel ggel dp_cut dp_tol dp_mix self_coef eweight sweight limit_0 dummy_0 punish ntypes natoms cs nconf).
Notation calc' := (EamModel.calc_forces eb phi dphi none dens ddens reach F dF F dF fbegin fend fbegin eweight sweight limit_0 dummy_0 punish ntypes natoms scs nconf).
Theorem ee_run : forall e d, (forall ci, (ci < nconf)%nat -> good (cs ci) /\ fits (cs ci) (X ci) (Sg ci) /\ adds ci (LOOPS (p_ind (DI (S ci) d)) ci (cs ci)) (X ci) (E ci) (Sg ci)) ->
  erel (calc' e) zdev (ees (calc (mk_eest e d))) /\ eed (calc (mk_eest e d)) = DI nconf d.
Proof.
  intros e d H. unfold EeModel.calc_forces, EamModel.calc_forces. cbv zeta. cbn [ees eed].
  set (e0 := mk_est _ _ _ _ _ _).
  assert (G : forall n, (n <= nconf)%nat -> erel (for_up 0 n (fun ci => CBA ci (scs ci)) e0) zdev (ees (for_up 0 n (fun ci => CBE ci (cs ci)) (mk_eest e0 d))) /\
    eed (for_up 0 n (fun ci => CBE ci (cs ci)) (mk_eest e0 d)) = DI n d).
  { induction n; intros Hn.
    - split; [|reflexivity]. change (erel e0 zdev e0). constructor; auto. constructor; intros; cbn [zdev frc en str err]; try ring. vring.
    - rewrite !for_up_S by lia. destruct (IHn ltac:(lia)) as [I1 I2]. set (b := for_up 0 n (fun ci => CBE ci (cs ci)) _) in *. clearbody b. destruct b as [be bd]. cbn [ees eed] in *. subst bd.
      destruct (H n ltac:(lia)) as (G1 & G2 & G3). rewrite dips_S in G3 |- *. split; [|apply config_dip]. apply config_rel; auto. }
  destruct (G nconf ltac:(lia)) as [G1 G2]. split; [|exact G2]. apply dummy_rel, add_err_rel, G1.
Qed.
End Ee.
