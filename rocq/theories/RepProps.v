(** C33 for the other routines: the report and the error sum. *)
From Coq Require Import Reals ZArith List Bool Lia Lra.
From Verif Require Import Vec NbrModel NbrProof NbrProof3 PairModel PairProof PairSpec PairProof2 PairProof3 EamModel EamProof EamSpec EamProof3
  CellSpec ThreeSpec ThreeProof ThreeProof2 SwModel SwSpec SwProof SwProof2 SwProof3 SwProof4 SwProof5 BoSpec TersModel TersSpec TersProof2 TersProof3 TersProof4 TersProof5
  AngSpec AngModel AngProof2 ElSpec AeModel AeProof3 MeamModel MeamSpec MeamProof3 MeamProof4 MeamProof5
  AdpModel AdpSpec AdpProof3 AdpProof5 AdpProof6 ElModel ElProof ElProof2 ElProof6 ElProof7 ElProof8 ElProof9 ElProof10 ElProof11
  EamProof2 EamProof7 EeModel EeProof EeProof2 EeProof3 EeProof4 EeProof5
  ErrModel ErrSpec ErrProof RepSpec RepProof RepProof2.
Import ListNotations.
Local Open Scope R_scope.

(** Stillinger-Weber *)
Theorem C33_sw_sum : forall mdim conf_of opt bld pow0 V lam n ew sw punish cs nconf,
  (forall ci, cnfstart (cs (S ci)) = (cnfstart (cs ci) + inconf (cs ci))%nat) -> placed cs nconf conf_of ->
  (forall i j k, lam i j k = lam i k j) ->
  forall pos bx rcut, (forall ci, (ci < nconf)%nat -> full_geometry (cs ci) pos (bx ci) rcut) ->
  forall L, (forall ci a, (ci < nconf)%nat -> (cnfstart (cs ci) <= a < cnfstart (cs ci) + inconf (cs ci))%nat ->
    all_neighbors (cs ci) pos (bx ci) rcut a (L ci a)) ->
  forall s, let s' := SwModel.calc_forces bld pow0 V lam n ew sw punish cs nconf s in
  adds_up opt (write_errors bld ew sw (cnfstart (cs nconf)) nconf mdim cs conf_of opt s' (err s')) (punish - unscored_forces bld cs nconf s' - unscored_stresses bld sw cs nconf s').
Proof. exact sw_report. Qed.
Print Assumptions C33_sw_sum.

(** Tersoff *)
Theorem C33_tersoff_sum : forall mdim conf_of opt bld pow0 V n omega ew sw punish cs nconf,
  (forall ci, cnfstart (cs (S ci)) = (cnfstart (cs ci) + inconf (cs ci))%nat) -> placed cs nconf conf_of ->
  forall pos bx rcut, (forall ci, (ci < nconf)%nat -> full_geometry (cs ci) pos (bx ci) rcut) ->
  forall L, (forall ci a, (ci < nconf)%nat -> (cnfstart (cs ci) <= a < cnfstart (cs ci) + inconf (cs ci))%nat ->
    all_neighbors (cs ci) pos (bx ci) rcut a (L ci a)) ->
  forall s, let s' := TersModel.calc_forces bld pow0 V n ew sw punish omega cs nconf s in
  adds_up opt (write_errors bld ew sw (cnfstart (cs nconf)) nconf mdim cs conf_of opt s' (err s')) (punish - unscored_forces bld cs nconf s' - unscored_stresses bld sw cs nconf s').
Proof. exact ters_report. Qed.
Print Assumptions C33_tersoff_sum.

(** modified Tersoff *)
Theorem C33_tersoffmod_sum : forall mdim conf_of opt bld pow0 V n ew sw punish cs nconf,
  (forall ci, cnfstart (cs (S ci)) = (cnfstart (cs ci) + inconf (cs ci))%nat) -> placed cs nconf conf_of ->
  forall pos bx rcut, (forall ci, (ci < nconf)%nat -> full_geometry (cs ci) pos (bx ci) rcut) ->
  forall L, (forall ci a, (ci < nconf)%nat -> (cnfstart (cs ci) <= a < cnfstart (cs ci) + inconf (cs ci))%nat ->
    all_neighbors (cs ci) pos (bx ci) rcut a (L ci a)) ->
  forall s, let s' := mod_calc_forces bld pow0 V n ew sw punish cs nconf s in
  adds_up opt (write_errors bld ew sw (cnfstart (cs nconf)) nconf mdim cs conf_of opt s' (err s')) (punish - unscored_forces bld cs nconf s' - unscored_stresses bld sw cs nconf s').
Proof. exact mod_report. Qed.
Print Assumptions C33_tersoffmod_sum.

(** angular potentials *)
Theorem C33_ang_sum : forall mdim conf_of opt bld phi dphi in0 f df in1 g dg ew sw punish cs nconf,
  (forall ci, cnfstart (cs (S ci)) = (cnfstart (cs ci) + inconf (cs ci))%nat) -> placed cs nconf conf_of ->
  (forall s t r, dphi s t r = dphi t s r) -> (forall s t r, in0 s t r = in0 t s r) ->
  forall pos bx rcut, (forall ci, (ci < nconf)%nat -> full_geometry (cs ci) pos (bx ci) rcut) ->
  forall L, (forall ci a, (ci < nconf)%nat -> (cnfstart (cs ci) <= a < cnfstart (cs ci) + inconf (cs ci))%nat ->
    all_neighbors (cs ci) pos (bx ci) rcut a (L ci a)) ->
  forall s, let s' := AngModel.calc_forces bld phi dphi in0 f df in1 g dg ew sw punish cs nconf s in
  adds_up opt (write_errors bld ew sw (cnfstart (cs nconf)) nconf mdim cs conf_of opt s' (err s')) (punish).
Proof. exact ang_report. Qed.
Print Assumptions C33_ang_sum.

(** angular potentials with charges *)
Theorem C33_ang_elstat_sum : forall mdim conf_of opt bld phi dphi in0 f df in1 g dg charge fel gel rc k ew sw punish cs nconf,
  (forall ci, cnfstart (cs (S ci)) = (cnfstart (cs ci) + inconf (cs ci))%nat) -> placed cs nconf conf_of ->
  (forall s t r, dphi s t r = dphi t s r) -> (forall s t r, in0 s t r = in0 t s r) ->
  forall pos bx rcut, (forall ci, (ci < nconf)%nat -> full_geometry (cs ci) pos (bx ci) rcut) ->
  forall L, (forall ci a, (ci < nconf)%nat -> (cnfstart (cs ci) <= a < cnfstart (cs ci) + inconf (cs ci))%nat ->
    all_neighbors (cs ci) pos (bx ci) rcut a (L ci a)) ->
  forall s, let s' := AeModel.calc_forces bld phi dphi in0 f df in1 g dg charge fel gel rc k ew sw punish cs nconf s in
  adds_up opt (write_errors bld ew sw (cnfstart (cs nconf)) nconf mdim cs conf_of opt s' (err s')) (punish - unscored_forces bld cs nconf s').
Proof. exact ae_report. Qed.
Print Assumptions C33_ang_elstat_sum.

(** MEAM *)
Theorem C33_meam_sum : forall mdim conf_of opt bld phi dphi in0 dens ddens reach f df in2 g dg F dF FA dFA fbegin fend fstep eweight sweight limit_0 punish natoms cs nconf,
  (forall ci, cnfstart (cs (S ci)) = (cnfstart (cs ci) + inconf (cs ci))%nat) -> placed cs nconf conf_of ->
  (forall s t r, dphi s t r = dphi t s r) -> (forall s t r, in0 s t r = in0 t s r) ->
  forall pos bx rcut, (forall ci, (ci < nconf)%nat -> full_geometry (cs ci) pos (bx ci) rcut) ->
  forall L, (forall ci a, (ci < nconf)%nat -> (cnfstart (cs ci) <= a < cnfstart (cs ci) + inconf (cs ci))%nat ->
    all_neighbors (cs ci) pos (bx ci) rcut a (L ci a)) ->
  forall s, let m := MeamModel.calc_forces bld phi dphi in0 dens ddens reach f df in2 g dg F dF FA dFA fbegin fend fstep eweight sweight limit_0 punish natoms cs nconf s in
  adds_up opt (write_errors (base bld) eweight sweight (cnfstart (cs nconf)) nconf mdim cs conf_of opt (mdv m) (err (mdv m))) (rsumf (fun ci => if RESCALE bld then sq (mlim m ci) else 0) (seq 0 nconf) + punish + (if RESCALE bld then 0 else sq (mdum m))).
Proof. exact meam_report. Qed.
Print Assumptions C33_meam_sum.

(** ADP *)
Theorem C33_adp_sum : forall mdim conf_of opt bld phi dphi in_range dens ddens reach F dF FA dFA fbegin fend fstep u du u_range w dw w_range
  eweight sweight limit_0 dummy_0 punish ntypes natoms cs nconf,
  (forall ci, cnfstart (cs (S ci)) = (cnfstart (cs ci) + inconf (cs ci))%nat) -> placed cs nconf conf_of ->
  (0 < ntypes)%nat ->
  forall pos bx rcut, (forall ci, (ci < nconf)%nat -> geometry (cs ci) pos (bx ci) rcut) ->
  forall L, (forall ci a, (ci < nconf)%nat -> (cnfstart (cs ci) <= a < cnfstart (cs ci) + inconf (cs ci))%nat ->
    all_neighbors (cs ci) pos (bx ci) rcut a (L ci a)) ->
  (forall s t r, phi s t r = phi t s r) -> (forall s t r, dphi s t r = dphi t s r) -> (forall s t r, in_range s t r = in_range t s r) ->
  (forall s t r, u s t r = u t s r) -> (forall s t r, du s t r = du t s r) -> (forall s t r, u_range s t r = u_range t s r) ->
  (forall s t r, w s t r = w t s r) -> (forall s t r, dw s t r = dw t s r) -> (forall s t r, w_range s t r = w_range t s r) ->
  forall s, let m := es (AdpModel.calc_forces bld phi dphi in_range dens ddens reach F dF FA dFA fbegin fend fstep
    u du u_range w dw w_range eweight sweight limit_0 dummy_0 punish ntypes natoms cs nconf s) in
  adds_up opt (write_errors (base bld) eweight sweight (cnfstart (cs nconf)) nconf mdim cs conf_of opt (dv m) (err (dv m))) (rsumf (fun ci => conf_weight (cs ci) * sq (lim m ci)) (seq 0 nconf) + punish + (if NOPUNISH bld then 0 else rsumf (fun k => sq (dum m k)) (seq 0 (2 * ntypes)))).
Proof. exact adp_report. Qed.
Print Assumptions C33_adp_sum.

(** charges and dipoles *)
Theorem C33_elstat_sum : forall mdim conf_of opt bld DIPOLE phi dphi in_range charge alpha dpb dpc fel gel ggel dp_cut dp_tol dp_mix self_coef eweight sweight punish cs nconf,
  (forall ci, cnfstart (cs (S ci)) = (cnfstart (cs ci) + inconf (cs ci))%nat) -> placed cs nconf conf_of ->
  (forall s t r, phi s t r = phi t s r) -> (forall s t r, dphi s t r = dphi t s r) -> (forall s t r, in_range s t r = in_range t s r) ->
  (forall s t, dpb s t = dpb t s) -> (forall s t, dpc s t = dpc t s) ->
  forall pos bx rcut, (forall ci, (ci < nconf)%nat -> geometry (cs ci) pos (bx ci) rcut) ->
  forall L, (forall ci a, (ci < nconf)%nat -> (cnfstart (cs ci) <= a < cnfstart (cs ci) + inconf (cs ci))%nat ->
    all_neighbors (cs ci) pos (bx ci) rcut a (L ci a)) ->
  (forall ci, (ci < nconf)%nat -> DIPOLE = true -> forall a, (cnfstart (cs ci) <= a < cnfstart (cs ci) + inconf (cs ci))%nat ->
     alpha (typ (cs ci) a) <> 0 -> charge (typ (cs ci) a) <> 0) ->
  forall s, let v := edv (ElModel.calc_forces bld DIPOLE phi dphi in_range charge alpha dpb dpc fel gel ggel dp_cut dp_tol dp_mix self_coef eweight sweight punish cs nconf s) in
  adds_up opt (write_errors bld eweight sweight (cnfstart (cs nconf)) nconf mdim cs conf_of opt v (err v)) (punish).
Proof. exact el_report. Qed.
Print Assumptions C33_elstat_sum.

(** EAM with charges and dipoles *)
Theorem C33_eam_elstat_sum : forall mdim conf_of opt bld NOPUNISH DIPOLE phi dphi in_range dens ddens reach F dF fbegin fend charge alpha dpb dpc fel gel ggel dp_cut dp_tol dp_mix self_coef
  eweight sweight limit_0 dummy_0 punish ntypes natoms cs nconf,
  (forall ci, cnfstart (cs (S ci)) = (cnfstart (cs ci) + inconf (cs ci))%nat) -> placed cs nconf conf_of -> (0 < ntypes)%nat ->
  (forall s t r, phi s t r = phi t s r) -> (forall s t r, dphi s t r = dphi t s r) -> (forall s t r, in_range s t r = in_range t s r) ->
  (forall s t, dpb s t = dpb t s) -> (forall s t, dpc s t = dpc t s) -> (forall b t, fbegin b t <= fend b t) ->
  forall pos bx rcut, (forall ci, (ci < nconf)%nat -> geometry (cs ci) pos (bx ci) rcut) ->
  forall L, (forall ci a, (ci < nconf)%nat -> (cnfstart (cs ci) <= a < cnfstart (cs ci) + inconf (cs ci))%nat ->
    all_neighbors (cs ci) pos (bx ci) rcut a (L ci a)) ->
  (forall ci, (ci < nconf)%nat -> DIPOLE = true ->
     (forall a b, (cnfstart (cs ci) <= a < cnfstart (cs ci) + inconf (cs ci))%nat -> (cnfstart (cs ci) <= b < cnfstart (cs ci) + inconf (cs ci))%nat ->
        charge (typ (cs ci) b) <> 0 -> (alpha (typ (cs ci) a) <> 0 <-> alpha (typ (cs ci) b) <> 0)) /\
     (forall a, (cnfstart (cs ci) <= a < cnfstart (cs ci) + inconf (cs ci))%nat -> alpha (typ (cs ci) a) <> 0 -> charge (typ (cs ci) a) <> 0)) ->
  forall e d, let m := ees (EeModel.calc_forces bld NOPUNISH DIPOLE phi dphi in_range dens ddens reach F dF fbegin fend charge alpha dpb dpc fel gel ggel dp_cut dp_tol dp_mix self_coef
    eweight sweight limit_0 dummy_0 punish ntypes natoms cs nconf (mk_eest e d)) in
  adds_up opt (write_errors bld eweight sweight (cnfstart (cs nconf)) nconf mdim cs conf_of opt (dv m) (err (dv m)))
    (rsumf (fun ci => conf_weight (cs ci) * sq (lim m ci)) (seq 0 nconf) + punish + (if NOPUNISH then 0 else rsumf (fun k => sq (dum m k)) (seq 0 (2 * ntypes)))).
Proof. exact ee_report. Qed.
Print Assumptions C33_eam_elstat_sum.

(** The forces that Stillinger-Weber leaves for configurations without forces are part of the reported sum, not of
    the total: the lines add up to more than the total. *)
Theorem C33_sw_refuted : exists V lam n cs pos bx rcut s, full_geometry (cs 0%nat) pos bx rcut /\ uf (cs 0%nat) = false /\
  forall pow0 ew sw mdim opt,
  let s' := SwModel.calc_forces plain_build pow0 V lam n ew sw 0 cs 1 s in
  let r := write_errors plain_build ew sw (cnfstart (cs 1%nat)) 1 mdim cs (fun _ => 0%nat) opt s' (err s') in
  r_total r < r_forces r + shown (r_energies r) + shown (r_stresses r).
Proof. exact sw_report_refuted. Qed.
Print Assumptions C33_sw_refuted.

(** nothing is left out if all configurations use forces and stresses *)
Theorem C33_all_used : forall bld sweight nconf cs d, (forall ci, (ci < nconf)%nat -> uf (cs ci) = true /\ us (cs ci) = true) ->
  unscored_forces bld cs nconf d = 0 /\ unscored_stresses bld sweight cs nconf d = 0.
Proof. exact all_used. Qed.
Print Assumptions C33_all_used.

Example C33_other_ex : full_geometry (elbow_conf 0) elbow cube (fun _ _ => 12/100) /\ placed elbow_conf 1 (fun _ => 0%nat).
Proof. exact rep_ex. Qed.
