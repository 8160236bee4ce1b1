(** The error report of the other routines, with their error sums. *)
From Coq Require Import Reals ZArith List Bool Lia Lra.
From Verif Require Import Vec NbrModel NbrProof NbrProof3 PairModel PairProof PairSpec PairProof2 PairProof3 EamModel EamProof EamSpec EamProof3
  CellSpec ThreeSpec ThreeProof ThreeProof2 SwModel SwSpec SwProof SwProof2 SwProof3 SwProof4 SwProof5 BoSpec TersModel TersSpec TersProof2 TersProof3 TersProof4 TersProof5
  AngSpec AngModel AngProof2 ElSpec AeModel AeProof3 MeamModel MeamSpec MeamProof3 MeamProof4 MeamProof5
  AdpModel AdpSpec AdpProof3 AdpProof5 AdpProof6 ElModel ElProof ElProof2 ElProof6 ElProof7 ElProof8 ElProof9 ElProof10 ElProof11
  EamProof2 EamProof7 EeModel EeProof EeProof2 EeProof3 EeProof4 EeProof5
  ErrModel ErrSpec ErrProof RepSpec RepProof.
Import ListNotations.
Local Open Scope R_scope.

Lemma sw_report : forall mdim conf_of opt bld pow0 V lam n ew sw punish cs nconf,
  (forall ci, cnfstart (cs (S ci)) = (cnfstart (cs ci) + inconf (cs ci))%nat) -> placed cs nconf conf_of ->
  (forall i j k, lam i j k = lam i k j) ->
  forall pos bx rcut, (forall ci, (ci < nconf)%nat -> full_geometry (cs ci) pos (bx ci) rcut) ->
  forall L, (forall ci a, (ci < nconf)%nat -> (cnfstart (cs ci) <= a < cnfstart (cs ci) + inconf (cs ci))%nat ->
    all_neighbors (cs ci) pos (bx ci) rcut a (L ci a)) ->
  forall s, let s' := SwModel.calc_forces bld pow0 V lam n ew sw punish cs nconf s in
  adds_up opt (write_errors bld ew sw (cnfstart (cs nconf)) nconf mdim cs conf_of opt s' (err s')) (punish - unscored_forces bld cs nconf s' - unscored_stresses bld sw cs nconf s').
Proof.
  intros. destruct H0 as (Z & O). apply both_scored; auto. eapply sw_error; eauto.
Qed.
Lemma ters_report : forall mdim conf_of opt bld pow0 V n omega ew sw punish cs nconf,
  (forall ci, cnfstart (cs (S ci)) = (cnfstart (cs ci) + inconf (cs ci))%nat) -> placed cs nconf conf_of ->
  forall pos bx rcut, (forall ci, (ci < nconf)%nat -> full_geometry (cs ci) pos (bx ci) rcut) ->
  forall L, (forall ci a, (ci < nconf)%nat -> (cnfstart (cs ci) <= a < cnfstart (cs ci) + inconf (cs ci))%nat ->
    all_neighbors (cs ci) pos (bx ci) rcut a (L ci a)) ->
  forall s, let s' := TersModel.calc_forces bld pow0 V n ew sw punish omega cs nconf s in
  adds_up opt (write_errors bld ew sw (cnfstart (cs nconf)) nconf mdim cs conf_of opt s' (err s')) (punish - unscored_forces bld cs nconf s' - unscored_stresses bld sw cs nconf s').
Proof.
  intros. destruct H0 as (Z & O). apply both_scored; auto. eapply ters_error; eauto.
Qed.
Lemma mod_report : forall mdim conf_of opt bld pow0 V n ew sw punish cs nconf,
  (forall ci, cnfstart (cs (S ci)) = (cnfstart (cs ci) + inconf (cs ci))%nat) -> placed cs nconf conf_of ->
  forall pos bx rcut, (forall ci, (ci < nconf)%nat -> full_geometry (cs ci) pos (bx ci) rcut) ->
  forall L, (forall ci a, (ci < nconf)%nat -> (cnfstart (cs ci) <= a < cnfstart (cs ci) + inconf (cs ci))%nat ->
    all_neighbors (cs ci) pos (bx ci) rcut a (L ci a)) ->
  forall s, let s' := mod_calc_forces bld pow0 V n ew sw punish cs nconf s in
  adds_up opt (write_errors bld ew sw (cnfstart (cs nconf)) nconf mdim cs conf_of opt s' (err s')) (punish - unscored_forces bld cs nconf s' - unscored_stresses bld sw cs nconf s').
Proof.
  intros. destruct H0 as (Z & O). apply both_scored; auto. eapply mod_error; eauto.
Qed.
Lemma ang_report : forall mdim conf_of opt bld phi dphi in0 f df in1 g dg ew sw punish cs nconf,
  (forall ci, cnfstart (cs (S ci)) = (cnfstart (cs ci) + inconf (cs ci))%nat) -> placed cs nconf conf_of ->
  (forall s t r, dphi s t r = dphi t s r) -> (forall s t r, in0 s t r = in0 t s r) ->
  forall pos bx rcut, (forall ci, (ci < nconf)%nat -> full_geometry (cs ci) pos (bx ci) rcut) ->
  forall L, (forall ci a, (ci < nconf)%nat -> (cnfstart (cs ci) <= a < cnfstart (cs ci) + inconf (cs ci))%nat ->
    all_neighbors (cs ci) pos (bx ci) rcut a (L ci a)) ->
  forall s, let s' := AngModel.calc_forces bld phi dphi in0 f df in1 g dg ew sw punish cs nconf s in
  adds_up opt (write_errors bld ew sw (cnfstart (cs nconf)) nconf mdim cs conf_of opt s' (err s')) (punish).
Proof.
  intros. destruct H0 as (Z & O). apply all_scored; auto. eapply ang_error; eauto.
Qed.
Lemma ae_report : forall mdim conf_of opt bld phi dphi in0 f df in1 g dg charge fel gel rc k ew sw punish cs nconf,
  (forall ci, cnfstart (cs (S ci)) = (cnfstart (cs ci) + inconf (cs ci))%nat) -> placed cs nconf conf_of ->
  (forall s t r, dphi s t r = dphi t s r) -> (forall s t r, in0 s t r = in0 t s r) ->
  forall pos bx rcut, (forall ci, (ci < nconf)%nat -> full_geometry (cs ci) pos (bx ci) rcut) ->
  forall L, (forall ci a, (ci < nconf)%nat -> (cnfstart (cs ci) <= a < cnfstart (cs ci) + inconf (cs ci))%nat ->
    all_neighbors (cs ci) pos (bx ci) rcut a (L ci a)) ->
  forall s, let s' := AeModel.calc_forces bld phi dphi in0 f df in1 g dg charge fel gel rc k ew sw punish cs nconf s in
  adds_up opt (write_errors bld ew sw (cnfstart (cs nconf)) nconf mdim cs conf_of opt s' (err s')) (punish - unscored_forces bld cs nconf s').
Proof.
  intros. destruct H0 as (Z & O). apply forces_scored; auto. eapply ae_error; eauto.
Qed.
Lemma meam_report : forall mdim conf_of opt bld phi dphi in0 dens ddens reach f df in2 g dg F dF FA dFA fbegin fend fstep eweight sweight limit_0 punish natoms cs nconf,
  (forall ci, cnfstart (cs (S ci)) = (cnfstart (cs ci) + inconf (cs ci))%nat) -> placed cs nconf conf_of ->
  (forall s t r, dphi s t r = dphi t s r) -> (forall s t r, in0 s t r = in0 t s r) ->
  forall pos bx rcut, (forall ci, (ci < nconf)%nat -> full_geometry (cs ci) pos (bx ci) rcut) ->
  forall L, (forall ci a, (ci < nconf)%nat -> (cnfstart (cs ci) <= a < cnfstart (cs ci) + inconf (cs ci))%nat ->
    all_neighbors (cs ci) pos (bx ci) rcut a (L ci a)) ->
  forall s, let m := MeamModel.calc_forces bld phi dphi in0 dens ddens reach f df in2 g dg F dF FA dFA fbegin fend fstep eweight sweight limit_0 punish natoms cs nconf s in
  adds_up opt (write_errors (base bld) eweight sweight (cnfstart (cs nconf)) nconf mdim cs conf_of opt (mdv m) (err (mdv m))) (rsumf (fun ci => if RESCALE bld then sq (mlim m ci) else 0) (seq 0 nconf) + punish + (if RESCALE bld then 0 else sq (mdum m))).
Proof.
  intros. destruct H0 as (Z & O). apply all_scored; auto.
  unfold m at 1. rewrite (meam_error _ _ _ _ _ _ _ _ _ _ _ _ _ _ _ _ _ _ _ _ _ _ _ _ _ _ H H1 H2 pos bx rcut H3 L H4 s). fold m. cbv zeta.
  rewrite rsumf_plus. ring.
Qed.
Lemma adp_report : forall mdim conf_of opt bld phi dphi in_range dens ddens reach F dF FA dFA fbegin fend fstep u du u_range w dw w_range
  eweight sweight limit_0 dummy_0 punish ntypes natoms cs nconf,
  (forall ci, cnfstart (cs (S ci)) = (cnfstart (cs ci) + inconf (cs ci))%nat) -> placed cs nconf conf_of ->
  (0 < ntypes)%nat ->
  forall pos bx rcut, (forall ci, (ci < nconf)%nat -> geometry (cs ci) pos (bx ci) rcut) ->
  forall L, (forall ci a, (ci < nconf)%nat -> (cnfstart (cs ci) <= a < cnfstart (cs ci) + inconf (cs ci))%nat ->
    all_neighbors (cs ci) pos (bx ci) rcut a (L ci a)) ->
  (forall s t r, phi s t r = phi t s r) -> (forall s t r, dphi s t r = dphi t s r) -> (forall s t r, in_range s t r = in_range t s r) ->
  (forall s t r, u s t r = u t s r) -> (forall s t r, du s t r = du t s r) -> (forall s t r, u_range s t r = u_range t s r) ->
  (forall s t r, w s t r = w t s r) -> (forall s t r, dw s t r = dw t s r) -> (forall s t r, w_range s t r = w_range t s r) ->
  forall s, let m := es (AdpModel.calc_forces bld phi dphi in_range dens ddens reach F dF FA dFA fbegin fend fstep
    u du u_range w dw w_range eweight sweight limit_0 dummy_0 punish ntypes natoms cs nconf s) in
  adds_up opt (write_errors (base bld) eweight sweight (cnfstart (cs nconf)) nconf mdim cs conf_of opt (dv m) (err (dv m))) (rsumf (fun ci => conf_weight (cs ci) * sq (lim m ci)) (seq 0 nconf) + punish + (if NOPUNISH bld then 0 else rsumf (fun k => sq (dum m k)) (seq 0 (2 * ntypes)))).
Proof.
  intros. destruct H0 as (Z & O).
  match goal with |- adds_up _ _ ?r => replace r with (r - unscored_forces (base bld) cs nconf (dv m) - unscored_stresses (base bld) sweight cs nconf (dv m)) end.
  - apply both_scored; auto.
    unfold m at 1. rewrite (adp_error bld phi dphi in_range dens ddens reach F dF FA dFA fbegin fend fstep u du u_range w dw w_range
      eweight sweight limit_0 dummy_0 punish ntypes natoms cs nconf H H1).
    + fold m. rewrite rsumf_plus. ring.
    + intros ci i e C I E. apply (geo_ordered (cs ci) pos (bx ci) rcut (H2 ci C) i e I E).
    + intros ci i e C. apply (geo_typ (cs ci) pos (bx ci) rcut (H2 ci C) (L ci) (fun a => H3 ci a C)).
  - pose proof (adp_textbook bld phi dphi in_range dens ddens reach F dF FA dFA fbegin fend fstep u du u_range w dw w_range
      eweight sweight limit_0 dummy_0 punish ntypes natoms cs nconf H H1 pos bx rcut H2 L H3 H4 H5 H6 H7 H8 H9 H10 H11 H12 s) as V. cbv zeta in V. fold m in V.
    rewrite unscored_forces_quiet, unscored_stresses_quiet; [ring| |].
    + intros ci k C K Us T. destruct (V ci C) as (_ & _ & _ & St). etransitivity; [exact (St T k K)|]. rewrite Us. reflexivity.
    + intros ci a C A Uf. destruct (V ci C) as (_ & Fr & _). exact (Fr Uf a A).
Qed.
Lemma el_report : forall mdim conf_of opt bld DIPOLE phi dphi in_range charge alpha dpb dpc fel gel ggel dp_cut dp_tol dp_mix self_coef eweight sweight punish cs nconf,
  (forall ci, cnfstart (cs (S ci)) = (cnfstart (cs ci) + inconf (cs ci))%nat) -> placed cs nconf conf_of ->
  (forall s t r, phi s t r = phi t s r) -> (forall s t r, dphi s t r = dphi t s r) -> (forall s t r, in_range s t r = in_range t s r) ->
  (forall s t, dpb s t = dpb t s) -> (forall s t, dpc s t = dpc t s) ->
  forall pos bx rcut, (forall ci, (ci < nconf)%nat -> geometry (cs ci) pos (bx ci) rcut) ->
  forall L, (forall ci a, (ci < nconf)%nat -> (cnfstart (cs ci) <= a < cnfstart (cs ci) + inconf (cs ci))%nat ->
    all_neighbors (cs ci) pos (bx ci) rcut a (L ci a)) ->
  (forall ci, (ci < nconf)%nat -> DIPOLE = true -> forall a, (cnfstart (cs ci) <= a < cnfstart (cs ci) + inconf (cs ci))%nat ->
     alpha (typ (cs ci) a) <> 0 -> charge (typ (cs ci) a) <> 0) ->
  forall s, let v := edv (ElModel.calc_forces bld DIPOLE phi dphi in_range charge alpha dpb dpc fel gel ggel dp_cut dp_tol dp_mix self_coef eweight sweight punish cs nconf s) in
  adds_up opt (write_errors bld eweight sweight (cnfstart (cs nconf)) nconf mdim cs conf_of opt v (err v)) (punish).
Proof.
  intros. destruct H0 as (Z & O).
  pose proof (el_values bld DIPOLE phi dphi in_range charge alpha dpb dpc fel gel ggel dp_cut dp_tol dp_mix self_coef eweight sweight punish cs nconf
    H H1 H2 H3 H4 H5 pos bx rcut H6 L H7 H8 s) as V. cbv zeta in V. fold v in V.
  replace punish with (punish - unscored_forces bld cs nconf v - unscored_stresses bld sweight cs nconf v).
  - apply both_scored; auto. eapply el_error; eauto.
  - rewrite unscored_forces_quiet, unscored_stresses_quiet; [ring| |].
    + intros ci k C K U T. destruct (V ci C) as (_ & _ & _ & S). etransitivity; [exact (S T k K)|]. rewrite U. reflexivity.
    + intros ci a C A U. destruct (V ci C) as (_ & F & _). exact (F U a A).
Qed.
Lemma ee_report : forall mdim conf_of opt bld NOPUNISH DIPOLE phi dphi in_range dens ddens reach F dF fbegin fend charge alpha dpb dpc fel gel ggel dp_cut dp_tol dp_mix self_coef
  eweight sweight limit_0 dummy_0 punish ntypes natoms cs nconf,
  (forall ci, cnfstart (cs (S ci)) = (cnfstart (cs ci) + inconf (cs ci))%nat) -> placed cs nconf conf_of -> (0 < ntypes)%nat ->
  (forall s t r, phi s t r = phi t s r) -> (forall s t r, dphi s t r = dphi t s r) -> (forall s t r, in_range s t r = in_range t s r) ->
  (forall s t, dpb s t = dpb t s) -> (forall s t, dpc s t = dpc t s) -> (forall b t, fbegin b t <= fend b t) ->
  forall pos bx rcut, (forall ci, (ci < nconf)%nat -> geometry (cs ci) pos (bx ci) rcut) ->
  forall L, (forall ci a, (ci < nconf)%nat -> (cnfstart (cs ci) <= a < cnfstart (cs ci) + inconf (cs ci))%nat ->
    all_neighbors (cs ci) pos (bx ci) rcut a (L ci a)) ->
  (forall ci, (ci < nconf)%nat -> DIPOLE = true ->
     (forall a b, (cnfstart (cs ci) <= a < cnfstart (cs ci) + inconf (cs ci))%nat -> (cnfstart (cs ci) <= b < cnfstart (cs ci) + inconf (cs ci))%nat ->
        charge (typ (cs ci) b) <> 0 -> (alpha (typ (cs ci) a) <> 0 <-> alpha (typ (cs ci) b) <> 0)) /\
     (forall a, (cnfstart (cs ci) <= a < cnfstart (cs ci) + inconf (cs ci))%nat -> alpha (typ (cs ci) a) <> 0 -> charge (typ (cs ci) a) <> 0)) ->
  forall e d, let m := ees (EeModel.calc_forces bld NOPUNISH DIPOLE phi dphi in_range dens ddens reach F dF fbegin fend charge alpha dpb dpc fel gel ggel dp_cut dp_tol dp_mix self_coef
    eweight sweight limit_0 dummy_0 punish ntypes natoms cs nconf (mk_eest e d)) in
  adds_up opt (write_errors bld eweight sweight (cnfstart (cs nconf)) nconf mdim cs conf_of opt (dv m) (err (dv m)))
    (rsumf (fun ci => conf_weight (cs ci) * sq (lim m ci)) (seq 0 nconf) + punish + (if NOPUNISH then 0 else rsumf (fun k => sq (dum m k)) (seq 0 (2 * ntypes)))).
Proof.
  intros. destruct H0 as (Z & O).
  match goal with |- adds_up _ _ ?r => replace r with (r - unscored_forces bld cs nconf (dv m) - unscored_stresses bld sweight cs nconf (dv m)) end.
  - apply both_scored; auto.
    unfold m at 1. rewrite (ee_error bld NOPUNISH DIPOLE phi dphi in_range dens ddens reach F dF fbegin fend charge alpha dpb dpc fel gel ggel dp_cut dp_tol dp_mix self_coef
      eweight sweight limit_0 dummy_0 punish ntypes natoms cs nconf H H1 H2 H3 H4 H5 H6 pos bx rcut H8 L H9 H10 e d).
    fold m. cbv zeta. rewrite rsumf_plus. ring.
  - pose proof (ee_values bld NOPUNISH DIPOLE phi dphi in_range dens ddens reach F dF fbegin fend charge alpha dpb dpc fel gel ggel dp_cut dp_tol dp_mix self_coef
      eweight sweight limit_0 dummy_0 punish ntypes natoms cs nconf H H1 H2 H3 H4 H5 H6 H7 pos bx rcut H8 L H9 H10 e d) as V. cbv zeta in V. fold m in V.
    rewrite unscored_forces_quiet, unscored_stresses_quiet; [ring| |].
    + intros ci k C K Us T. destruct (V ci C) as (_ & _ & _ & St). etransitivity; [exact (St T k K)|]. rewrite Us. reflexivity.
    + intros ci a C A Uf. destruct (V ci C) as (_ & Fr & _). exact (Fr Uf a A).
Qed.

(** the forces of an unused configuration are reported though they do not belong to the total *)
Definition plain_build : build := mk_build false false false.
Lemma elbow_unscored : forall d : dev, vy (frc d 1%nat) <> 0 -> 0 < unscored_forces plain_build elbow_conf 1 d.
Proof.
  intros d N. assert (Y : 0 < vy (frc d 1%nat) * vy (frc d 1%nat)) by nra. revert Y. unfold unscored_forces, rsumf. cbn. unfold sqv, sq. clear N.
  generalize (vx (frc d 0%nat)) (vy (frc d 0%nat)) (vz (frc d 0%nat)) (vx (frc d 1%nat)) (vy (frc d 1%nat)) (vz (frc d 1%nat)) (vx (frc d 2%nat)) (vy (frc d 2%nat)) (vz (frc d 2%nat)).
  intros a1 a2 a3 a4 y a5 a6 a7 a8 Y. pose proof (Rle_0_sqr a1). pose proof (Rle_0_sqr a2). pose proof (Rle_0_sqr a3). pose proof (Rle_0_sqr a4).
  pose proof (Rle_0_sqr a5). pose proof (Rle_0_sqr a6). pose proof (Rle_0_sqr a7). pose proof (Rle_0_sqr a8). unfold Rsqr in *. lra.
Qed.
Lemma elbow_exceeds : forall pow0 ew sw conf_of mdim opt, (forall a, conf_of a = 0%nat) ->
  let s' := SwModel.calc_forces plain_build pow0 bending lam1 1 ew sw 0 elbow_conf 1 zero_dev in
  let r := write_errors plain_build ew sw 3 1 mdim elbow_conf conf_of opt s' (err s') in
  r_total r < r_forces r + shown (r_energies r) + shown (r_stresses r).
Proof.
  intros pow0 ew sw conf_of mdim opt CO. cbv zeta.
  set (s' := SwModel.calc_forces plain_build pow0 bending lam1 1 ew sw 0 elbow_conf 1 zero_dev).
  destruct (sw_report mdim conf_of opt plain_build pow0 bending lam1 1 ew sw 0 elbow_conf 1) with (pos := elbow) (bx := fun _ : nat => cube) (rcut := fun _ _ : nat => 12/100)
    (L := fun _ : nat => elbow_list) (s := zero_dev) as (E & _).
  - intros ci. apply single_cont.
  - split; [reflexivity|]. intros ci a C A. rewrite CO. lia.
  - auto.
  - intros ci H. replace ci with 0%nat by lia. apply elbow_full.
  - intros ci a H Ha. replace ci with 0%nat in * by lia. apply elbow_neighbors; auto. simpl in Ha. lia.
  - change (cnfstart (elbow_conf 1)) with 3%nat in E. fold s' in E.
    set (r := write_errors plain_build ew sw 3 1 mdim elbow_conf conf_of opt s' (err s')) in *.
    assert (P : 0 < unscored_forces plain_build elbow_conf 1 s').
    { apply elbow_unscored. apply unused_forces. }
    assert (Q : unscored_stresses plain_build sw elbow_conf 1 s' = 0) by (unfold unscored_stresses, rsumf; cbn; ring).
    rewrite Q in E. lra.
Qed.
Lemma sw_report_refuted : exists V lam n cs pos bx rcut s, full_geometry (cs 0%nat) pos bx rcut /\ uf (cs 0%nat) = false /\
  forall pow0 ew sw mdim opt,
  let s' := SwModel.calc_forces plain_build pow0 V lam n ew sw 0 cs 1 s in
  let r := write_errors plain_build ew sw (cnfstart (cs 1%nat)) 1 mdim cs (fun _ => 0%nat) opt s' (err s') in
  r_total r < r_forces r + shown (r_energies r) + shown (r_stresses r).
Proof.
  exists bending, lam1, 1%nat, elbow_conf, elbow, cube, (fun _ _ => 12/100), zero_dev.
  split; [exact elbow_full|]. split; [reflexivity|]. intros. apply elbow_exceeds. reflexivity.
Qed.
Lemma all_used : forall bld sweight nconf cs d, (forall ci, (ci < nconf)%nat -> uf (cs ci) = true /\ us (cs ci) = true) ->
  unscored_forces bld cs nconf d = 0 /\ unscored_stresses bld sweight cs nconf d = 0.
Proof.
  intros bld sweight nconf cs d H. split; [apply unscored_forces_used|apply unscored_stresses_used]; intros ci C; destruct (H ci C) as (A & B); rewrite A, ?B; reflexivity.
Qed.
Lemma rep_ex : full_geometry (elbow_conf 0) elbow cube (fun _ _ => 12/100) /\ placed elbow_conf 1 (fun _ => 0%nat).
Proof. split; [exact elbow_full|]. split; [reflexivity|]. intros ci a C A. lia. Qed.
