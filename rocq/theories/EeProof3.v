(** Values, error sum and constraints of the routine for EAM with electrostatics. *)
From Coq Require Import Reals ZArith List Bool Lia Lra.
From Verif Require Import Vec NbrModel NbrProof NbrProof2 LoopUtil PairModel PairProof PairSpec PairProof2 PairProof3 ForceLoop BondProof AddProof AddProof2 BoProof FuncModel
  EamModel EamProof EamSpec EamProof2 EamProof3 EamProof4 EamProof7 ElSpec ElModel ElProof ElProof2 ElProof3 ElProof5 ElProof6 EeModel EeProof EeProof2.
Import ListNotations.
Local Open Scope R_scope.

Section Routine.
Variable bld : build.
Variable NOPUNISH DIPOLE : bool.
Variables phi dphi : nat -> nat -> R -> R.
Variable in_range : nat -> nat -> R -> bool.
Variables dens ddens : nat -> nat -> R -> R.
Variable reach : nat -> nat -> R -> bool.
Variables F dF : nat -> nat -> R -> R.
Variables fbegin fend : nat -> nat -> R.
Variables charge alpha : nat -> R.
Variables dpb dpc : nat -> nat -> R.
Variables fel gel ggel : R -> R.
Variables dp_cut dp_tol dp_mix self_coef : R.
Variables eweight sweight : R.
Variable limit_0 : nat -> R.
Variable dummy_0 : nat -> R.
Variable punish : R.
Variables ntypes natoms : nat.
Variables (cs : nat -> conf) (nconf : nat).
Hypothesis CONT : forall ci, cnfstart (cs (S ci)) = (cnfstart (cs ci) + inconf (cs ci))%nat.
Hypothesis NT : (0 < ntypes)%nat.
Hypothesis PS : forall s t r, phi s t r = phi t s r.
Hypothesis DS : forall s t r, dphi s t r = dphi t s r.
Hypothesis IS : forall s t r, in_range s t r = in_range t s r.
Hypothesis BS : forall s t, dpb s t = dpb t s.
Hypothesis CS : forall s t, dpc s t = dpc t s.
Hypothesis BE : forall b t, fbegin b t <= fend b t.
Variables (pos : nat -> vec) (bx : nat -> box) (rcut : nat -> nat -> R).
Hypothesis GEO : forall ci, (ci < nconf)%nat -> geometry (cs ci) pos (bx ci) rcut.
Variable L : nat -> nat -> list (nat * image).
Notation lo ci := (cnfstart (cs ci)).
Notation hi ci := (cnfstart (cs ci) + inconf (cs ci))%nat.
Hypothesis HL : forall ci a, (ci < nconf)%nat -> (lo ci <= a < hi ci)%nat -> all_neighbors (cs ci) pos (bx ci) rcut a (L ci a).
(** all charged types of a configuration are polarisable, or none; every polarisable one has a charge *)
Hypothesis OK : forall ci, (ci < nconf)%nat -> DIPOLE = true -> alike charge alpha (cs ci) /\ all_charged charge alpha (cs ci).
Notation calc := (EeModel.calc_forces bld NOPUNISH DIPOLE phi dphi in_range dens ddens reach F dF fbegin fend charge alpha dpb dpc fel gel ggel dp_cut dp_tol dp_mix self_coef eweight sweight limit_0 dummy_0 punish ntypes natoms cs nconf).
Notation DI n d := (dips DIPOLE charge alpha dpb dpc gel dp_cut dp_tol dp_mix cs n d).
Notation EF ci p := (eforce (cs ci) pos (bx ci) (L ci) DIPOLE dphi in_range charge alpha dpb dpc gel ggel dp_cut p).
Notation EE ci p := (eenergy (cs ci) pos (bx ci) (L ci) DIPOLE phi in_range charge alpha dpb dpc fel gel dp_cut self_coef p).
Notation EV ci p := (evirial (cs ci) pos (bx ci) (L ci) DIPOLE dphi in_range charge alpha dpb dpc gel ggel dp_cut p).
Definition cutF (b t : nat) (x : R) : R := F b t (cut (fbegin b t) (fend b t) x).
Definition cutdF (b t : nat) (x : R) : R := dF b t (cut (fbegin b t) (fend b t) x).
Notation BF ci := (embed_force (cs ci) pos (bx ci) 1 dens ddens reach cutdF (L ci)).
Notation BEN ci := (embed_energy (cs ci) pos (bx ci) 1 dens reach cutF (L ci)).
Notation BV ci := (embed_virial (cs ci) pos (bx ci) 1 dens ddens reach cutdF (L ci)).
Notation rho ci := (density (cs ci) pos (bx ci) dens reach (L ci)).

Section State.
Variables (e : est) (d : dip).
Definition qF (ci : nat) := eF (cs ci) pos (bx ci) (L ci) DIPOLE dphi in_range charge alpha dpb dpc gel ggel dp_cut (p_ind (DI (S ci) d)).
Definition qE (ci : nat) := EE ci (p_ind (DI (S ci) d)).
Definition qS (ci : nat) := eS (cs ci) pos (bx ci) (L ci) bld DIPOLE dphi in_range charge alpha dpb dpc gel ggel dp_cut (p_ind (DI (S ci) d)).
Notation sc := (scs cs qF qE qS).
Notation s' := (calc (mk_eest e d)).
Notation eb := (eb bld NOPUNISH).
Notation calc' := (EamModel.calc_forces eb phi dphi none dens ddens reach F dF F dF fbegin fend fbegin eweight sweight limit_0 dummy_0 punish ntypes natoms sc nconf).
Lemma q_run : erel (calc' e) zdev (ees s') /\ eed s' = DI nconf d.
Proof.
  apply ee_run. intros ci H. split; [|split].
  - split; [apply (ent_typed (cs ci) pos (bx ci) rcut (GEO ci H) (L ci) (fun a => HL ci a H))|]. intros DD. apply OK; auto.
  - unfold qF, qS, eF, eS, inr. split; [|split; [|split]].
    + intros a O. destruct (Nat.leb_spec (lo ci) a), (Nat.ltb_spec a (hi ci)); cbn [andb]; auto; lia.
    + intros U a. rewrite U. destruct (_ && _)%bool; auto.
    + intros k K. destruct (Nat.ltb_spec k 6); [lia|]. auto.
    + intros OFF k. destruct (STRESS bld), (us (cs ci)), (uf (cs ci)); cbn [andb] in *; rewrite ?andb_false_r; auto; discriminate.
  - apply (eloops_adds (cs ci) pos (bx ci) rcut (GEO ci H) (L ci) (fun a => HL ci a H)); auto. intros DD. apply OK; auto.
Qed.
Lemma q_geo : forall ci, (ci < nconf)%nat -> geometry (sc ci) pos (bx ci) rcut.
Proof. intros ci H. destruct (GEO ci H) as [G1 G2 G3]. exact (mk_geometry (sc ci) pos (bx ci) rcut G1 G2 G3). Qed.
Lemma q_p : forall ci a, (ci < nconf)%nat -> (lo ci <= a < hi ci)%nat -> p_ind (DI (S ci) d) a = p_ind (eed s') a.
Proof.
  intros ci a H Ha. rewrite (proj2 q_run). symmetry.
  apply (dips_after DIPOLE charge alpha dpb dpc gel dp_cut dp_tol dp_mix cs nconf CONT BS CS pos bx rcut GEO L HL nconf ci d a H ltac:(lia) Ha).
Qed.
Lemma none_bond : forall c b i v, bond_force c pos b dphi none i v = v0.
Proof. reflexivity. Qed.
Lemma dE_cut : forall b t x, dEu eb F dF F dF fbegin fend fbegin b t x = cutdF b t x.
Proof. intros. unfold dEu, use, cutdF. rewrite cl_cut by auto. reflexivity. Qed.
Lemma E_cut : forall b t x, Eu eb F dF F dF fbegin fend fbegin b t x = cutF b t x.
Proof. intros. unfold Eu, use, cutF. rewrite cl_cut by auto. reflexivity. Qed.
Lemma bond_cut : forall ci a v, embed_bond (cs ci) pos (bx ci) 1 dens ddens reach (dEu eb F dF F dF fbegin fend fbegin) (L ci) a v = embed_bond (cs ci) pos (bx ci) 1 dens ddens reach cutdF (L ci) a v.
Proof. intros. unfold embed_bond, slope. f_equal. f_equal. apply rsumf_ext. intros k _. rewrite !dE_cut. auto. Qed.

Theorem ee_values : let v := dv (ees s') in let p := p_ind (eed s') in forall ci, (ci < nconf)%nat ->
  (uf (cs ci) = true -> forall a, (lo ci <= a < hi ci)%nat -> frc v a = vscale (fscale bld cs ci a) (vsub (vadd (EF ci p a) (BF ci a)) (force_0 (cs ci) a))) /\
  (uf (cs ci) = false -> forall a, (lo ci <= a < hi ci)%nat -> frc v a = v0) /\
  en v ci = (EE ci p + BEN ci) / INR (inconf (cs ci)) - energy_0 (cs ci) /\
  (STRESS bld = true -> forall k, (k < 6)%nat -> str v ci k =
     if (uf (cs ci) && us (cs ci))%bool then (EV ci p k + BV ci k) / conf_vol (cs ci) - stress_0 (cs ci) k else 0).
Proof.
  intros v p ci H. unfold v, p.
  assert (FP : forall a, (lo ci <= a < hi ci)%nat -> p_ind (DI (S ci) d) a = p_ind (eed s') a) by (intros a Ha; apply q_p; auto).
  assert (Q1 : forall a, (lo ci <= a < hi ci)%nat -> EF ci (p_ind (DI (S ci) d)) a = EF ci (p_ind (eed s')) a).
  { intros a Ha. unfold eforce. destruct DIPOLE; auto. f_equal. apply (force_same (cs ci) pos (bx ci) rcut (L ci) (fun a => HL ci a H)); auto. }
  assert (Q2 : EE ci (p_ind (DI (S ci) d)) = EE ci (p_ind (eed s'))).
  { unfold eenergy. destruct DIPOLE; auto. rewrite (energy_same (cs ci) pos (bx ci) rcut (L ci) (fun a => HL ci a H) charge alpha dpb dpc gel dp_cut _ _ FP), (self_same (cs ci) alpha _ _ FP). auto. }
  assert (Q3 : forall k, EV ci (p_ind (DI (S ci) d)) k = EV ci (p_ind (eed s')) k).
  { intros k. unfold evirial. destruct DIPOLE; auto. rewrite (virial_same (cs ci) pos (bx ci) rcut (L ci) (fun a => HL ci a H) charge alpha dpb dpc gel ggel dp_cut _ _ FP). auto. }
  destruct q_run as [[RE _ _ _ _ _] _].
  destruct (eam_textbook eb phi dphi none dens ddens reach F dF F dF fbegin fend fbegin eweight sweight limit_0 dummy_0 punish ntypes natoms sc nconf CONT NT
    pos bx rcut q_geo L HL PS DS (fun _ _ _ => eq_refl) ltac:(intros X; discriminate) e ci H) as (A & B & C & D).
  destruct RE as [R1 R2 R3 R4]. set (w := dv (ees s')) in *. clearbody w. set (u := dv (calc' e)) in *. clearbody u.
  cbn [zdev frc en str err] in R1, R2, R3, R4.
  split; [|split; [|split]].
  - intros U a Ha. rewrite R1, (A U a Ha). cbn [force_0 scs shifted].
    replace (pair_force (sc ci) pos (bx ci) dphi none (L ci) a) with v0.
    2: { unfold pair_force. symmetry. rewrite (vsum_ext _ (fun _ => v0)); [|intros; apply none_bond]. unfold vsum. cbn [vx vy vz v0]. rewrite rsumf_zero by auto. auto. }
    change (embed_force (sc ci)) with (embed_force (cs ci)). change (nbands eb) with 1%nat.
    replace (embed_force (cs ci) pos (bx ci) 1 dens ddens reach (dEu eb F dF F dF fbegin fend fbegin) (L ci) a) with (BF ci a).
    2: { unfold embed_force. apply vsum_ext. intros x _. symmetry. apply bond_cut. }
    change (fscale_e eb sc ci a) with (fscale bld cs ci a). set (k := fscale bld cs ci a). set (b := BF ci a). clearbody b k.
    unfold qF, eF, inr. destruct (Nat.leb_spec (lo ci) a), (Nat.ltb_spec a (hi ci)); try lia. cbn [andb]. rewrite U, Q1 by auto. set (f := EF ci _ a). clearbody f. vring.
  - intros U a Ha. rewrite R1, (B U a Ha). vring.
  - rewrite R2, C. cbn [energy_0 scs shifted]. change (inconf (sc ci)) with (inconf (cs ci)). change (nbands eb) with 1%nat.
    replace (pair_energy (sc ci) pos (bx ci) phi none (L ci)) with 0.
    2: { unfold pair_energy. rewrite rsumf_zero; [ring|]. intros a _. apply rsumf_zero. reflexivity. }
    replace (embed_energy (sc ci) pos (bx ci) 1 dens reach (Eu eb F dF F dF fbegin fend fbegin) (L ci)) with (BEN ci).
    2: { unfold embed_energy. apply rsumf_ext. intros a _. apply rsumf_ext. intros k _. symmetry. apply E_cut. }
    unfold qE. rewrite Q2. unfold Rdiv. ring.
  - intros ON k K. rewrite R3, (D ON k K). cbn [stress_0 scs shifted uf us conf_vol]. change (nbands eb) with 1%nat.
    replace (pair_virial (sc ci) pos (bx ci) dphi none (L ci) k) with 0.
    2: { unfold pair_virial. rewrite rsumf_zero; [ring|]. intros a _. apply rsumf_zero. intros x _. rewrite none_bond. apply stress_v0. }
    change (embed_virial (sc ci)) with (embed_virial (cs ci)).
    replace (embed_virial (cs ci) pos (bx ci) 1 dens ddens reach (dEu eb F dF F dF fbegin fend fbegin) (L ci) k) with (BV ci k).
    2: { unfold embed_virial. do 2 f_equal. apply rsumf_ext. intros a _. apply rsumf_ext. intros x _. rewrite bond_cut. auto. }
    unfold qS, eS. rewrite Q3, ON. destruct (Nat.ltb_spec k 6); [|lia]. destruct (uf (cs ci)), (us (cs ci)); cbn [andb]; unfold Rdiv; ring.
Qed.
Theorem ee_constraints :
  (forall ci, (ci < nconf)%nat ->
     lim (ees s') ci = rsumf (fun a => outside (fbegin 0%nat (typ (cs ci) a)) (fend 0%nat (typ (cs ci) a)) (rho ci 0%nat a)) (seq (lo ci) (inconf (cs ci))) - limit_0 ci) /\
  (NOPUNISH = false -> forall g, (g < ntypes)%nat ->
     dum (ees s') g = 100 * dF 0%nat g ((fbegin 0%nat g + fend 0%nat g) / 2) - dummy_0 g /\ dum (ees s') (ntypes + g)%nat = 0).
Proof.
  destruct q_run as [[_ _ _ RL _ RD] _]. rewrite RL, RD.
  destruct (eam_constraints eb phi dphi none dens ddens reach F dF F dF fbegin fend fbegin eweight sweight limit_0 dummy_0 punish ntypes natoms sc nconf CONT NT
    pos bx rcut q_geo L HL BE e) as (A & B).
  split.
  - intros ci H. rewrite (A eq_refl ci H). f_equal. apply rsumf_ext. intros a _. change (nbands eb) with 1%nat. unfold rsumf; cbn [seq map]; unfold Vec.rsum; cbn [fold_right].
    change (typ (sc ci)) with (typ (cs ci)). change (density (sc ci)) with (density (cs ci)). ring.
  - intros NP g Hg. destruct (B NP 0%nat g (Nat.lt_0_succ 0) Hg) as [B1 B2]. cbn [Nat.mul Nat.add RESCALE EeModel.eb negb andb] in B1, B2. rewrite Nat.add_0_r in B2. auto.
Qed.
Theorem ee_error : let s1 := ees s' in let v := dv s1 in
  err v = rsumf (fun ci => 
     rsumf (fun a => if (uf (cs ci) && (negb (CONTRIB bld) || contrib (cs ci) a))%bool
                     then conf_weight (cs ci) * sqv (frc v a) else 0) (seq (lo ci) (inconf (cs ci))) +
     conf_weight (cs ci) * eweight * sq (en v ci) +
     (if (STRESS bld && uf (cs ci) && us (cs ci))%bool
      then rsumf (fun k => conf_weight (cs ci) * sweight * sq (str v ci k)) (seq 0 6) else 0) +
     conf_weight (cs ci) * sq (lim s1 ci)) (seq 0 nconf) + punish +
  (if NOPUNISH then 0 else rsumf (fun k => sq (dum s1 k)) (seq 0 (2 * ntypes))).
Proof.
  intros s1 v. destruct q_run as [[RE _ _ RL _ RD] _]. fold s1 in RE, RL, RD. fold v in RE. rewrite RL, RD.
  pose proof (eam_error eb phi dphi none dens ddens reach F dF F dF fbegin fend fbegin eweight sweight limit_0 dummy_0 punish ntypes natoms sc nconf CONT NT
    (fun ci i e0 H => ordG sc nconf pos bx rcut q_geo ci H i e0) (typG sc nconf pos bx rcut q_geo L HL) e) as EQ. cbv zeta in EQ.
  destruct RE as [R1 R2 R3 R4]. cbn [zdev frc en str err] in R1, R2, R3, R4.
  set (w := dv (calc' e)) in *. clearbody v w. rewrite R4, EQ, Rplus_0_r. f_equal. f_equal.
  apply rsumf_ext. intros ci _. cbn [RESCALE EeModel.eb base]. change (inconf (sc ci)) with (inconf (cs ci)). change (cnfstart (sc ci)) with (lo ci).
  change (conf_weight (sc ci)) with (conf_weight (cs ci)). change (uf (sc ci)) with (uf (cs ci)). change (us (sc ci)) with (us (cs ci)). change (contrib (sc ci)) with (contrib (cs ci)).
  f_equal. f_equal; [f_equal|].
  - apply rsumf_ext. intros a _. replace (frc w a) with (frc v a) by (rewrite R1; vring). auto.
  - replace (en w ci) with (en v ci) by (rewrite R2; ring). auto.
  - destruct (_ && _)%bool; auto. apply rsumf_ext. intros k _. replace (str w ci k) with (str v ci k) by (rewrite R3; ring). auto.
Qed.
Lemma embed_newton : forall ci, (ci < nconf)%nat -> vsum (BF ci) (seq (lo ci) (inconf (cs ci))) = v0.
Proof.
  intros ci H. rewrite (vsum_ext (BF ci) (embed_force (cs ci) pos (bx ci) 1 dens ddens reach (dEu eb F dF F dF fbegin fend fbegin) (L ci))).
  - apply (gen_newton (cs ci) pos (bx ci) rcut (GEO ci H) (L ci) (fun a => HL ci a H)). apply (ebond_sym eb dens ddens reach F dF F dF fbegin fend fbegin (cs ci) pos (bx ci) (L ci)).
  - intros a _. unfold embed_force. apply vsum_ext. intros v _. symmetry. apply bond_cut.
Qed.
Theorem ee_sum_zero : let v := dv (ees s') in forall ci, (ci < nconf)%nat -> uf (cs ci) = true -> FWEIGHT bld = false ->
  vsum (fun a => vadd (frc v a) (force_0 (cs ci) a)) (seq (lo ci) (inconf (cs ci))) = v0.
Proof.
  intros v ci H U W. set (p := p_ind (eed s')).
  pose proof (newton dphi in_range DS IS (cs ci) pos (bx ci) rcut (GEO ci H) (L ci) (fun a => HL ci a H)) as N1.
  pose proof (gen_newton (cs ci) pos (bx ci) rcut (GEO ci H) (L ci) (fun a => HL ci a H) _ (CB_neg (cs ci) pos (bx ci) charge gel dp_cut)) as N2.
  pose proof (gen_newton (cs ci) pos (bx ci) rcut (GEO ci H) (L ci) (fun a => HL ci a H) _ (XB_neg (cs ci) pos (bx ci) charge alpha dpb dpc BS CS gel ggel dp_cut p)) as N3.
  pose proof (embed_newton ci H) as N4.
  set (P1 := pair_force (cs ci) pos (bx ci) dphi in_range (L ci)) in *. set (P2 := fun a => vsum (coulomb_bond (cs ci) pos (bx ci) charge gel dp_cut a) (L ci a)) in *.
  set (P3 := fun a => vsum (dip_bond (cs ci) pos (bx ci) charge gel ggel dp_cut alpha dpb dpc p a) (L ci a)) in *.
  rewrite (vsum_ext _ (fun a => vadd (vadd (vadd (P1 a) (P2 a)) (if DIPOLE then P3 a else v0)) (BF ci a))).
  - rewrite !vsum_add, N1, N2, N4. destruct DIPOLE; [rewrite (vsum_ext _ P3 _ (fun _ _ => eq_refl)), N3; vring|]. unfold vsum. cbn [v0 vx vy vz]. rewrite rsumf_zero by auto. vring.
  - intros a Ha. apply in_seq in Ha. destruct (ee_values ci H) as (Q & _). fold v in Q. fold p in Q. rewrite (Q U a) by lia. unfold fscale. rewrite W.
    change (EF ci p a) with (vadd (vadd (P1 a) (P2 a)) (if DIPOLE then P3 a else v0)). set (x1 := P1 a). set (x2 := P2 a). set (x3 := if DIPOLE then P3 a else v0). set (x4 := BF ci a). clearbody x1 x2 x3 x4. vring.
Qed.
(** the dipoles are the ones of the electrostatic routine *)
Theorem ee_dipoles : forall b v, eed s' = edp (ElModel.calc_forces b DIPOLE phi dphi in_range charge alpha dpb dpc fel gel ggel dp_cut dp_tol dp_mix self_coef eweight sweight punish cs nconf (mk_elst v d)).
Proof. intros b v. rewrite (proj2 q_run), el_calc_eq. reflexivity. Qed.
End State.
End Routine.
