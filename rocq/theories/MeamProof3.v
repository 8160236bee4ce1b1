(** The MEAM force routine: all configurations. *)
From Coq Require Import Reals ZArith List Bool Lia Lra Permutation.
From Verif Require Import Vec NbrModel NbrProof NbrProof2 LoopUtil PairModel PairProof PairSpec PairProof2 PairProof3
  ForceLoop BondProof GradProof ThreeSpec ThreeProof ThreeProof2 ThreeProof3 ThreeProof4 ThreeProof5 AddProof AddProof2 SwModel SwProof AngSpec AngModel AngProof AngProof2
  BoProof EamModel MeamModel MeamSpec MeamProof MeamProof2.
Import ListNotations.
Local Open Scope R_scope.

Section Routine.
Variable bld : ebuild.
Variables phi dphi : nat -> nat -> R -> R.
Variable in0 : nat -> nat -> R -> bool.
Variables dens ddens : nat -> R -> R.
Variable reach : nat -> R -> bool.
Variables f df : nat -> nat -> R -> R.
Variable in2 : nat -> nat -> R -> bool.
Variables g dg : nat -> R -> R.
Variables F dF FA dFA : nat -> R -> R.
Variables fbegin fend fstep : nat -> R.
Variables eweight sweight : R.
Variable limit_0 : nat -> R.
Variables (punish : R) (natoms : nat).
Variables (cs : nat -> conf) (nconf : nat).
Hypothesis CONT : forall ci, cnfstart (cs (S ci)) = (cnfstart (cs ci) + inconf (cs ci))%nat.
Hypothesis DS : forall s t r, dphi s t r = dphi t s r.
Hypothesis IS : forall s t r, in0 s t r = in0 t s r.
Variables (pos : nat -> vec) (bx : nat -> box) (rcut : nat -> nat -> R).
Hypothesis FG : forall ci, (ci < nconf)%nat -> full_geometry (cs ci) pos (bx ci) rcut.
Variable L : nat -> nat -> list (nat * image).
Hypothesis HL : forall ci a, (ci < nconf)%nat -> (cnfstart (cs ci) <= a < cnfstart (cs ci) + inconf (cs ci))%nat ->
  all_neighbors (cs ci) pos (bx ci) rcut a (L ci a).
Notation Ec := (MeamProof.Ec bld F dF FA dFA fbegin fend fstep).
Notation dEc := (MeamProof.dEc bld F dF FA dFA fbegin fend fstep).
Notation lo ci := (cnfstart (cs ci)).
Notation hi ci := (cnfstart (cs ci) + inconf (cs ci))%nat.
Notation sqn ci := (seq (cnfstart (cs ci)) (inconf (cs ci))).
Notation calc := (MeamModel.calc_forces bld phi dphi in0 dens ddens reach f df in2 g dg F dF FA dFA fbegin fend fstep eweight sweight limit_0 punish natoms cs nconf).
Notation rho ci := (meam_density (cs ci) pos (bx ci) dens reach f in2 g (L ci)).
Notation pf ci := (pair_force (cs ci) pos (bx ci) dphi in0 (L ci)).
Notation PE ci := (pair_energy (cs ci) pos (bx ci) phi in0 (L ci)).
Notation PV ci := (pair_virial (cs ci) pos (bx ci) dphi in0 (L ci)).
Notation mf ci := (meam_force (cs ci) pos (bx ci) dens ddens reach f df in2 g dg dEc (L ci)).
Notation ME ci := (meam_energy (cs ci) pos (bx ci) dens reach f in2 g Ec (L ci)).
Notation MV ci := (meam_virial (cs ci) pos (bx ci) dens ddens reach f df in2 g dg dEc (L ci)).
Notation ld ci i := (list_density dens reach f in2 g (cs ci) i (nb (cs ci) i)).
Notation dat ci := (fun i => datom bld phi dphi in0 ddens reach f df in2 g dg F dF FA dFA fbegin fend fstep ci (cs ci) i (ld ci i)).
Notation loop ci := (for_up (lo ci) (hi ci) (dat ci)).
Notation cbody := (fun ci => MeamModel.config_body bld phi dphi in0 dens ddens reach f df in2 g dg F dF FA dFA fbegin fend fstep eweight sweight limit_0 ci (cs ci)).
Notation flim ci := (final_limit bld dens reach f in2 g fbegin fend ci (cs ci) limit_0).
Notation skept ci := (sum_kept bld dens reach f in2 g fbegin fend (cs ci)).

Lemma ld_rho : forall ci i, (ci < nconf)%nat -> (lo ci <= i < hi ci)%nat -> ld ci i = rho ci i.
Proof.
  intros ci i H Hi. destruct (nb_full (cs ci) pos (bx ci) rcut (FG ci H)) as (B & NB & HB & NO).
  exact (density_eq dens reach f in2 g (cs ci) pos (bx ci) rcut (L ci) (fun a => HL ci a H) B NB HB NO i Hi).
Qed.
Definition mF (ci a : nat) : vec := if inside (cs ci) a then (if uf (cs ci) then vadd (pf ci a) (mf ci a) else v0) else v0.
Definition mE (ci : nat) : R := PE ci + ME ci.
Definition mS (ci k : nat) : R := if (Nat.ltb k 6 && (STRESS (base bld) && us (cs ci)) && uf (cs ci))%bool then PV ci k + MV ci k else 0.
Lemma meam_adds : forall ci, (ci < nconf)%nat -> adds ci (loop ci) (mF ci) (mE ci) (mS ci).
Proof.
  intros ci H. destruct (nb_full (cs ci) pos (bx ci) rcut (FG ci H)) as (B & NB & HB & NO).
  exact (meam_atoms_adds bld phi dphi in0 dens ddens reach f df in2 g dg F dF FA dFA fbegin fend fstep DS IS (cs ci) pos (bx ci) rcut ci
    (FG ci H) (L ci) (fun a => HL ci a H) B NB HB NO).
Qed.
Lemma meam_out : forall ci a, (ci < nconf)%nat -> (a < lo ci)%nat \/ (hi ci <= a)%nat -> mF ci a = v0.
Proof.
  intros ci a _ O. unfold mF. destruct (inside (cs ci) a) eqn:I; auto. apply inside_true in I. lia.
Qed.
(** the deviation vector through one configuration *)
Definition dconf (ci : nat) (d : dev) : dev :=
  let d := gconfig (base bld) eweight sweight (fun _ => 0) ci (cs ci) (all_used (cs ci)) (loop ci) d in
  if RESCALE bld then mk_dev (frc d) (en d) (str d) (err d + sq (flim ci)) else d.
Lemma confs_spec : forall s, let s' := for_up 0 nconf cbody s in
  mdv s' = for_up 0 nconf dconf (mdv s) /\ (forall ci, (ci < nconf)%nat -> mlim s' ci = flim ci) /\
  mrsum s' = mrsum s + rsumf (fun ci => skept ci) (seq 0 nconf) /\ mdum s' = mdum s.
Proof.
  intros s. cbv zeta.
  assert (G : forall n, let s' := for_up 0 n cbody s in
    mdv s' = for_up 0 n dconf (mdv s) /\ (forall ci, (ci < n)%nat -> mlim s' ci = flim ci) /\
    mrsum s' = mrsum s + rsumf (fun ci => skept ci) (seq 0 n) /\ mdum s' = mdum s).
  { induction n as [|n IH].
    - rewrite !for_up_nil. unfold rsumf; simpl. repeat split; auto; [intros; lia|ring].
    - rewrite !for_up_S by lia. cbv zeta in *. destruct IH as (A & B & C & D).
      destruct (config_spec bld phi dphi in0 dens ddens reach f df in2 g dg F dF FA dFA fbegin fend fstep n (cs n) eweight sweight limit_0 (for_up 0 n cbody s)) as (P1 & _ & P3 & P4 & P5 & P6).
      rewrite P1, A, P5, C, P6, seq_S, rsumf_snoc. split; [reflexivity|]. split; [|split; [simpl (0 + n)%nat; ring|auto]].
      intros ci H. destruct (Nat.eq_dec ci n) as [->|N]; [auto|]. rewrite P4 by auto. apply B. lia. }
  apply G.
Qed.
Definition mX (ci : nat) : R := gX (base bld) eweight sweight (fun _ => 0) ci (cs ci) (all_used (cs ci)) (mF ci) (mE ci) (mS ci) + (if RESCALE bld then sq (flim ci) else 0).
Lemma dconfs : forall d, let d' := for_up 0 nconf dconf d in
  (forall ci a, (ci < nconf)%nat -> (lo ci <= a < hi ci)%nat -> frc d' a = gF (base bld) (cs ci) (all_used (cs ci)) (mF ci) a) /\
  (forall ci, (ci < nconf)%nat -> en d' ci = gE (fun _ => 0) ci (cs ci) (all_used (cs ci)) (mE ci)) /\
  (forall ci k, (ci < nconf)%nat -> (k < 6)%nat -> STRESS (base bld) = true -> str d' ci k = gS (base bld) (all_used (cs ci)) (mS ci) k) /\
  err d' = err d + rsumf mX (seq 0 nconf).
Proof.
  intros d. apply (all_confs dconf cs nconf CONT (fun ci a => gF (base bld) (cs ci) (all_used (cs ci)) (mF ci) a)
    (fun ci => gE (fun _ => 0) ci (cs ci) (all_used (cs ci)) (mE ci)) (fun ci k => gS (base bld) (all_used (cs ci)) (mS ci) k) mX (STRESS (base bld))).
  intros ci t H. destruct (gconfig_closed (base bld) eweight sweight (fun _ => 0) ci (cs ci) (all_used (cs ci)) (conj eq_refl eq_refl) (loop ci) (mF ci) (mE ci) (mS ci)
    (meam_adds ci H) (fun a => meam_out ci a H) t) as (P1 & P2 & P3 & P4 & P5 & P6 & P7).
  unfold dconf, mX. cbv zeta. destruct (RESCALE bld); cbn [frc en str err]; repeat split; auto; rewrite P7; ring.
Qed.
Definition total : R := rsumf (fun ci => skept ci) (seq 0 nconf).
Lemma calc_parts : forall s, let s' := calc s in let d' := for_up 0 nconf dconf (mk_dev (frc (mdv s)) (en (mdv s)) (str (mdv s)) 0) in
  frc (mdv s') = frc d' /\ en (mdv s') = en d' /\ str (mdv s') = str d' /\
  (forall ci, (ci < nconf)%nat -> mlim s' ci = flim ci) /\
  mdum s' = (if RESCALE bld then mdum s else 100 * (total / INR natoms - 1)) /\
  err (mdv s') = err d' + punish + (if RESCALE bld then 0 else sq (mdum s')).
Proof.
  intros s. cbv zeta. unfold MeamModel.calc_forces. cbv zeta.
  set (s0 := mk_mst (mk_dev (frc (mdv s)) (en (mdv s)) (str (mdv s)) 0) (mrho s) (mgrad s) (mlim s) 0 (mdum s)).
  destruct (confs_spec s0) as (A & B & C & D). set (s1 := for_up 0 nconf cbody s0) in *. clearbody s1. cbn [s0 mdv mrsum mdum] in A, C, D. rewrite <- A. fold total in C.
  unfold mean_density, madd_err, with_mdv. destruct (RESCALE bld); cbn [mdv mrho mlim mrsum mdum frc en str err].
  - repeat split; auto. ring.
  - repeat split; auto. rewrite C. unfold DUMMY_WEIGHT. rewrite Rplus_0_l. auto.
Qed.
(** the entries in terms of the textbook densities *)
Lemma flim_eq : forall ci, (ci < nconf)%nat -> RESCALE bld = true -> flim ci =
  conf_weight (cs ci) * (1000 * rsumf (fun a => sq (excess (fbegin (typ (cs ci) a)) (fend (typ (cs ci) a)) (rho ci a))) (sqn ci) - limit_0 ci).
Proof.
  intros ci H R. unfold final_limit, sum_over, over. rewrite R. rewrite rsumf_scale.
  rewrite (rsumf_ext _ (fun a => sq (excess (fbegin (typ (cs ci) a)) (fend (typ (cs ci) a)) (rho ci a)))).
  - unfold DUMMY_WEIGHT. ring.
  - intros a Ha. apply in_seq in Ha. rewrite (ld_rho ci a H Ha). auto.
Qed.
Lemma total_eq : RESCALE bld = false -> total = rsumf (fun ci => rsumf (rho ci) (sqn ci)) (seq 0 nconf).
Proof.
  intros R. apply rsumf_ext. intros ci H. apply in_seq in H. apply rsumf_ext. intros a Ha. apply in_seq in Ha. unfold kept. rewrite R. apply ld_rho; auto; lia.
Qed.
Theorem meam_values : forall s, let s' := mdv (calc s) in forall ci, (ci < nconf)%nat ->
  (uf (cs ci) = true -> forall a, (lo ci <= a < hi ci)%nat ->
     frc s' a = vscale (fscale (base bld) cs ci a) (vsub (vadd (pf ci a) (mf ci a)) (force_0 (cs ci) a))) /\
  (uf (cs ci) = false -> forall a, (lo ci <= a < hi ci)%nat -> frc s' a = v0) /\
  en s' ci = (PE ci + ME ci) / INR (inconf (cs ci)) - energy_0 (cs ci) /\
  (STRESS (base bld) = true -> forall k, (k < 6)%nat -> str s' ci k =
     (if (uf (cs ci) && us (cs ci))%bool then (PV ci k + MV ci k) / conf_vol (cs ci) else 0) - stress_0 (cs ci) k).
Proof.
  intros s s' ci H. unfold s'. destruct (calc_parts s) as (-> & -> & -> & _).
  destruct (dconfs (mk_dev (frc (mdv s)) (en (mdv s)) (str (mdv s)) 0)) as (A & B & C & _).
  split; [|split; [|split]].
  - intros U a Ha. rewrite (A ci a H Ha). unfold gF, mF. rewrite U. cbn [all_used uf]. apply inside_true in Ha. rewrite Ha. unfold scl, fscale.
    set (p := vadd (pf ci a) (mf ci a)). clearbody p. cbn [all_used absforce]. destruct (FWEIGHT (base bld)); vring.
  - intros U a Ha. rewrite (A ci a H Ha). unfold gF, mF. rewrite U. cbn [all_used uf]. apply inside_true in Ha. rewrite Ha. unfold scl. destruct (FWEIGHT (base bld)); vring.
  - rewrite (B ci H). unfold gE, mE. cbn [all_used energy_0]. f_equal. f_equal. ring.
  - intros ON k K. rewrite (C ci k H K ON). unfold gS, mS, stress_on. cbn [all_used uf us conf_vol stress_0]. rewrite ON. destruct (Nat.ltb_spec k 6); [|lia].
    destruct (us (cs ci)), (uf (cs ci)); cbn [andb]; auto; unfold Rdiv; ring.
Qed.
Theorem meam_error : forall s, let r := calc s in let s' := mdv r in
  err s' = rsumf (fun ci => 
     rsumf (fun a => if (negb (CONTRIB (base bld)) || contrib (cs ci) a)%bool
                     then conf_weight (cs ci) * sqv (frc s' a) else 0) (sqn ci) +
     conf_weight (cs ci) * eweight * sq (en s' ci) +
     (if STRESS (base bld) then rsumf (fun k => conf_weight (cs ci) * sweight * sq (str s' ci k)) (seq 0 6) else 0) +
     (if RESCALE bld then sq (mlim r ci) else 0)) (seq 0 nconf) + punish + (if RESCALE bld then 0 else sq (mdum r)).
Proof.
  intros s. cbv zeta. destruct (calc_parts s) as (E1 & E2 & E3 & E4 & _ & E6). rewrite E1, E2, E3, E6.
  destruct (dconfs (mk_dev (frc (mdv s)) (en (mdv s)) (str (mdv s)) 0)) as (A & B & C & D). rewrite D at 1. cbn [err]. rewrite Rplus_0_l. f_equal. f_equal.
  apply rsumf_ext. intros ci H. apply in_seq in H. unfold mX, gX. rewrite E4 by lia. f_equal. f_equal; [f_equal|].
  - apply rsumf_ext. intros a Ha. apply in_seq in Ha. rewrite (A ci a) by lia. unfold scored. cbn [all_used uf contrib conf_weight]. auto.
  - rewrite (B ci) by lia. auto.
  - unfold stress_on. cbn [all_used uf us conf_weight]. rewrite !andb_true_r. destruct (STRESS (base bld)) eqn:ST; auto. apply rsumf_ext. intros k K. apply in_seq in K.
    rewrite C by (auto; lia). auto.
Qed.
Theorem meam_limits : forall s, let r := calc s in
  (RESCALE bld = true -> forall ci, (ci < nconf)%nat -> mlim r ci =
     conf_weight (cs ci) * (1000 * rsumf (fun a => sq (excess (fbegin (typ (cs ci) a)) (fend (typ (cs ci) a)) (rho ci a))) (sqn ci) - limit_0 ci)) /\
  (RESCALE bld = false -> mdum r = 100 * (rsumf (fun ci => rsumf (rho ci) (sqn ci)) (seq 0 nconf) / INR natoms - 1)).
Proof.
  intros s. cbv zeta. destruct (calc_parts s) as (_ & _ & _ & E4 & E5 & _). split; intros R.
  - intros ci H. rewrite E4, flim_eq; auto.
  - rewrite E5, R, total_eq; auto.
Qed.
Theorem meam_sum_zero : forall s, let s' := mdv (calc s) in forall ci, (ci < nconf)%nat -> uf (cs ci) = true -> FWEIGHT (base bld) = false ->
  vsum (fun a => vadd (frc s' a) (force_0 (cs ci) a)) (sqn ci) = v0.
Proof.
  intros s s' ci H U W.
  assert (Q : forall a, In a (sqn ci) -> vadd (frc s' a) (force_0 (cs ci) a) = vadd (pf ci a) (mf ci a)).
  { intros a Ha. apply in_seq in Ha. destruct (meam_values s ci H) as (FF & _). fold s' in FF. rewrite (FF U a) by lia. unfold fscale. rewrite W. vring. }
  pose proof (full_newton (cs ci) pos (bx ci) rcut (FG ci H) (L ci) (fun a => HL ci a H) dphi in0 DS IS) as N1.
  pose proof (meam_newton bld dens ddens reach f df in2 g dg F dF FA dFA fbegin fend fstep (cs ci) pos (bx ci) rcut (L ci) (fun a => HL ci a H)) as N2.
  apply by_sprod. intros u. rewrite sprod_sum, sprod_0. apply (f_equal (sprod u)) in N1, N2. rewrite sprod_sum, sprod_0 in N1, N2.
  rewrite (rsumf_ext _ (fun a => sprod u (pf ci a) + sprod u (mf ci a))); [rewrite rsumf_plus, N1, N2; ring|].
  intros a Ha. rewrite Q, sprod_add; auto.
Qed.
End Routine.
