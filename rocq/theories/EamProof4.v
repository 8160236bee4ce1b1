(** The EAM force routine: statements about whole runs, the embedding function at the ends
    of its table, two bands. *)
From Coq Require Import Reals ZArith List Bool Lia Lra.
From Verif Require Import Vec NbrModel NbrProof NbrProof2 NbrProof3 LoopUtil PairModel PairProof PairSpec PairProof2 PairProof3 ForceLoop BondProof EamModel EamProof EamSpec EamProof2 EamProof3.
Import ListNotations.
Local Open Scope R_scope.

Section Run.
Variable bld : ebuild.
Variables phi dphi : nat -> nat -> R -> R.
Variable in_range : nat -> nat -> R -> bool.
Variables dens ddens : nat -> nat -> R -> R.
Variable reach : nat -> nat -> R -> bool.
Variables F dF FA dFA : nat -> nat -> R -> R.
Variables fbegin fend fstep : nat -> nat -> R.
Notation nbd := (nbands bld).
Variables eweight sweight : R.
Variables limit_0 dummy_0 : nat -> R.
Variable punish : R.
Variables ntypes natoms : nat.
Variable cs : nat -> conf.
Variable nconf : nat.
Notation calc := (EamModel.calc_forces bld phi dphi in_range dens ddens reach F dF FA dFA fbegin fend fstep eweight sweight limit_0 dummy_0 punish ntypes natoms cs nconf).
Notation lo ci := (cnfstart (cs ci)).
Notation hi ci := (cnfstart (cs ci) + inconf (cs ci))%nat.
Hypothesis CONT : forall ci, cnfstart (cs (S ci)) = (cnfstart (cs ci) + inconf (cs ci))%nat.
Hypothesis NT : (0 < ntypes)%nat.

(** C70 *)
Theorem eam_error : 
  (forall ci i e, (ci < nconf)%nat -> (lo ci <= i < hi ci)%nat -> In e (nb (cs ci) i) -> (i <= n_nr e < hi ci)%nat) ->
  (forall ci i e, (ci < nconf)%nat -> (lo ci <= i < hi ci)%nat -> In e (nb (cs ci) i) -> n_type e = typ (cs ci) (n_nr e)) ->
  forall s, let s' := calc s in
  err (dv s') = rsumf (fun ci => 
     rsumf (fun a => if (uf (cs ci) && (negb (CONTRIB (base bld)) || contrib (cs ci) a))%bool
                     then conf_weight (cs ci) * sqv (frc (dv s') a) else 0) (seq (lo ci) (inconf (cs ci))) +
     conf_weight (cs ci) * eweight * sq (en (dv s') ci) +
     (if (STRESS (base bld) && uf (cs ci) && us (cs ci))%bool
      then rsumf (fun k => conf_weight (cs ci) * sweight * sq (str (dv s') ci k)) (seq 0 6) else 0) +
     (if RESCALE bld then conf_weight (cs ci) * sq (lim s' ci) else 0)) (seq 0 nconf) + punish +
  (if NOPUNISH bld then 0 else rsumf (fun k => sq (dum s' k)) (seq 0 (2 * nbd * ntypes))).
Proof.
  intros O T s. assert (ORD : forall ci, (ci < nconf)%nat -> ordered (cs ci)) by (intros ci H i e; apply O; auto).
  destruct (eam_run bld phi dphi in_range dens ddens reach F dF FA dFA fbegin fend fstep eweight sweight limit_0 dummy_0 punish ntypes natoms cs nconf CONT ORD T NT s) as (_ & _ & _ & _ & _ & _ & R).
  exact R.
Qed.

Section Geo.
Variable pos : nat -> vec.
Variable bx : nat -> box.
Variable rcut : nat -> nat -> R.
Hypothesis GEO : forall ci, (ci < nconf)%nat -> geometry (cs ci) pos (bx ci) rcut.
Variable L : nat -> nat -> list (nat * image).
Hypothesis HL : forall ci a, (ci < nconf)%nat -> (lo ci <= a < hi ci)%nat -> all_neighbors (cs ci) pos (bx ci) rcut a (L ci a).
Lemma ordG : forall ci, (ci < nconf)%nat -> ordered (cs ci).
Proof. intros ci H. apply (geo_ordered (cs ci) pos (bx ci) rcut). auto. Qed.
Lemma typG : forall ci i e, (ci < nconf)%nat -> (lo ci <= i < hi ci)%nat -> In e (nb (cs ci) i) -> n_type e = typ (cs ci) (n_nr e).
Proof. intros ci i e H. apply (geo_typ (cs ci) pos (bx ci) rcut (GEO ci H) (L ci) (fun a => HL ci a H)). Qed.

Hypothesis PS : forall s t r, phi s t r = phi t s r.
Hypothesis DS : forall s t r, dphi s t r = dphi t s r.
Hypothesis IS : forall s t r, in_range s t r = in_range t s r.
Hypothesis NEST : bands_nested bld reach.
Notation Eu := (Eu bld F dF FA dFA fbegin fend fstep).
Notation dEu := (dEu bld F dF FA dFA fbegin fend fstep).
Notation force ci := (fun a => vadd (pair_force (cs ci) pos (bx ci) dphi in_range (L ci) a) (embed_force (cs ci) pos (bx ci) nbd dens ddens reach dEu (L ci) a)).
Definition fscale_e (ci a : nat) : R := if FWEIGHT (base bld) then / (FORCE_EPS + absforce (cs ci) a) else 1.

Theorem eam_textbook : forall s, let s' := calc s in forall ci, (ci < nconf)%nat ->
  (uf (cs ci) = true -> forall a, (lo ci <= a < hi ci)%nat ->
     frc (dv s') a = vscale (fscale_e ci a) (vsub (force ci a) (force_0 (cs ci) a))) /\
  (uf (cs ci) = false -> forall a, (lo ci <= a < hi ci)%nat -> frc (dv s') a = v0) /\
  en (dv s') ci = (pair_energy (cs ci) pos (bx ci) phi in_range (L ci) + embed_energy (cs ci) pos (bx ci) nbd dens reach Eu (L ci)) / INR (inconf (cs ci)) - energy_0 (cs ci) /\
  (STRESS (base bld) = true -> forall k, (k < 6)%nat -> str (dv s') ci k =
     if (uf (cs ci) && us (cs ci))%bool
     then (pair_virial (cs ci) pos (bx ci) dphi in_range (L ci) k + embed_virial (cs ci) pos (bx ci) nbd dens ddens reach dEu (L ci) k) / conf_vol (cs ci) - stress_0 (cs ci) k else 0).
Proof.
  intros s s' ci H.
  destruct (eam_run bld phi dphi in_range dens ddens reach F dF FA dFA fbegin fend fstep eweight sweight limit_0 dummy_0 punish ntypes natoms cs nconf CONT ordG typG NT s) as (Q1 & Q2 & Q3 & _).
  fold s' in Q1, Q2, Q3. clearbody s'. split; [|split; [|split]].
  - intros U a Ha. rewrite (Q1 ci a H Ha).
    rewrite (eam_frc bld dphi in_range dens ddens reach F dF FA dFA fbegin fend fstep (cs ci) pos (bx ci) rcut (GEO ci H) (L ci) (fun a => HL ci a H) NEST DS IS a Ha U).
    unfold scl, fscale_e, eam_force. set (p := vadd _ _). clearbody p. destruct (FWEIGHT (base bld)); vring.
  - intros U a Ha. rewrite (Q1 ci a H Ha). unfold frc_f. rewrite U. auto.
  - rewrite (Q2 ci H). apply (eam_en bld phi in_range dens reach F dF FA dFA fbegin fend fstep (cs ci) pos (bx ci) rcut (GEO ci H) (L ci) (fun a => HL ci a H) PS IS).
  - intros ON k K. rewrite (Q3 ci k H K ON).
    rewrite (eam_str bld dphi in_range dens ddens reach F dF FA dFA fbegin fend fstep (cs ci) pos (bx ci) rcut (GEO ci H) (L ci) (fun a => HL ci a H) NEST DS IS k).
    unfold stress_on. rewrite ON. auto.
Qed.

Theorem eam_sum_zero : forall s, let s' := calc s in forall ci, (ci < nconf)%nat ->
  uf (cs ci) = true -> FWEIGHT (base bld) = false ->
  vsum (fun a => vadd (frc (dv s') a) (force_0 (cs ci) a)) (seq (lo ci) (inconf (cs ci))) = v0.
Proof.
  intros s s' ci H U W.
  rewrite <- (eam_newton bld dphi in_range dens ddens reach F dF FA dFA fbegin fend fstep (cs ci) pos (bx ci) rcut (GEO ci H) (L ci) (fun a => HL ci a H) DS IS).
  apply vsum_ext. intros a Ha. apply in_seq in Ha. destruct (eam_textbook s ci H) as (Q & _). fold s' in Q. rewrite (Q U a) by lia.
  unfold fscale_e, eam_force. rewrite W. set (p := vadd (pair_force _ _ _ _ _ _ _) _). clearbody p. vring.
Qed.

(** all densities in the tables: the embedding functions are the tabulated ones *)
Hypothesis INT : forall ci a b, (ci < nconf)%nat -> (lo ci <= a < hi ci)%nat -> (b < nbd)%nat ->
  let x := density (cs ci) pos (bx ci) dens reach (L ci) b a in
  fbegin b (typ (cs ci) a) <= x <= fend b (typ (cs ci) a) /\ (APOT bld = true -> RESCALE bld = false -> 1/10 <= x).
Lemma use_in : forall b t x, fbegin b t <= x <= fend b t -> (APOT bld = true -> RESCALE bld = false -> 1/10 <= x) ->
  use bld F dF FA dFA fbegin fend fstep b t x = (F b t x, dF b t x).
Proof.
  intros b t x I A. unfold use, embed, cl. destruct (RESCALE bld).
  - destruct (Rlt_dec (fend b t) x); [lra|]. destruct (Rlt_dec x (fbegin b t)); [lra|]. auto.
  - destruct (Rlt_dec (fend b t) x); [lra|]. destruct (Rlt_dec x (fbegin b t)); [lra|].
    destruct (APOT bld); auto. specialize (A eq_refl eq_refl). destruct (Rlt_dec x (1/10)); [lra|]. auto.
Qed.
Theorem eam_textbook_in : forall s, let s' := calc s in forall ci, (ci < nconf)%nat ->
  (uf (cs ci) = true -> forall a, (lo ci <= a < hi ci)%nat ->
     frc (dv s') a = vscale (fscale_e ci a) (vsub (vadd (pair_force (cs ci) pos (bx ci) dphi in_range (L ci) a)
        (embed_force (cs ci) pos (bx ci) nbd dens ddens reach dF (L ci) a)) (force_0 (cs ci) a))) /\
  (uf (cs ci) = false -> forall a, (lo ci <= a < hi ci)%nat -> frc (dv s') a = v0) /\
  en (dv s') ci = (pair_energy (cs ci) pos (bx ci) phi in_range (L ci) + embed_energy (cs ci) pos (bx ci) nbd dens reach F (L ci)) / INR (inconf (cs ci)) - energy_0 (cs ci) /\
  (STRESS (base bld) = true -> forall k, (k < 6)%nat -> str (dv s') ci k =
     if (uf (cs ci) && us (cs ci))%bool
     then (pair_virial (cs ci) pos (bx ci) dphi in_range (L ci) k + embed_virial (cs ci) pos (bx ci) nbd dens ddens reach dF (L ci) k) / conf_vol (cs ci) - stress_0 (cs ci) k else 0).
Proof.
  intros s s' ci H. destruct (eam_textbook s ci H) as (Q1 & Q2 & Q3 & Q4). fold s' in Q1, Q2, Q3, Q4. clearbody s'.
  assert (SL : forall a b, (lo ci <= a < hi ci)%nat -> (b < nbd)%nat -> slope (cs ci) pos (bx ci) dens reach dEu (L ci) b a = slope (cs ci) pos (bx ci) dens reach dF (L ci) b a).
  { intros a b Ha Hb. unfold slope, EamProof3.dEu. destruct (INT ci a b H Ha Hb) as [I1 I2]. rewrite use_in by auto. auto. }
  assert (BD : forall a v, (lo ci <= a < hi ci)%nat -> In v (L ci a) -> embed_bond (cs ci) pos (bx ci) nbd dens ddens reach dEu (L ci) a v = embed_bond (cs ci) pos (bx ci) nbd dens ddens reach dF (L ci) a v).
  { intros a [j n] Ha Hv. apply (proj2 (HL ci a H Ha)) in Hv. destruct Hv as [Hj _]. unfold embed_bond. f_equal. f_equal. apply rsumf_ext. intros b Hb. apply in_seq in Hb. cbn [fst]. rewrite !SL by lia. auto. }
  split; [|split; [auto|split]].
  - intros U a Ha. rewrite (Q1 U a Ha). f_equal. f_equal. f_equal. apply vsum_ext. auto.
  - rewrite Q3. f_equal. f_equal. f_equal. unfold embed_energy. apply rsumf_ext. intros a Ha. apply in_seq in Ha. apply rsumf_ext. intros b Hb. apply in_seq in Hb.
    unfold EamProof3.Eu. destruct (INT ci a b H ltac:(lia) ltac:(lia)) as [I1 I2]. rewrite use_in by auto. auto.
  - intros ON k K. rewrite (Q4 ON k K). destruct (uf (cs ci) && us (cs ci))%bool; auto. f_equal. f_equal. f_equal. unfold embed_virial. f_equal. f_equal.
    apply rsumf_ext. intros a Ha. apply in_seq in Ha. apply rsumf_ext. intros v Hv. rewrite BD by (auto; lia). auto.
Qed.
End Geo.
End Run.

(** ** C31 *)
Section Ends.
Variable bld : ebuild.
Variables F dF FA dFA : nat -> nat -> R -> R.
Variables fbegin fend fstep : nat -> nat -> R.
Variables b t : nat.
Notation E := (Eu bld F dF FA dFA fbegin fend fstep b t).
Notation beg := (fbegin b t).
Notation fin := (fend b t).
Notation h := (fstep b t).
Hypothesis ORDR : beg < fin.

Lemma cont_intro : forall f x, (forall eps, 0 < eps -> exists d, 0 < d /\ forall y, Rabs (y - x) < d -> Rabs (f y - f x) < eps) -> continuity_pt f x.
Proof.
  intros f x H eps He. destruct (H eps He) as (d & D & Q). exists d. split; auto. intros y [_ Y]. apply Q. exact Y.
Qed.
Lemma cont_elim : forall f x eps, continuity_pt f x -> 0 < eps -> exists d, 0 < d /\ forall y, Rabs (y - x) < d -> Rabs (f y - f x) < eps.
Proof.
  intros f x eps H He. destruct (H eps He) as (d & D & Q). exists d. split; auto. intros y Y.
  destruct (Req_dec x y) as [->|N]; [replace (f y - f y) with 0 by ring; rewrite Rabs_R0; auto|]. apply Q. split; [split; [exact I|auto]|exact Y].
Qed.
(** with rescaling the density is clamped: no jump at either end *)
Lemma clamp_cont : RESCALE bld = true -> (forall x, beg <= x <= fin -> continuity_pt (F b t) x) -> forall x, continuity_pt E x.
Proof.
  intros RS C x. unfold Eu, use, embed, cl. rewrite RS.
  set (k := fun x => if Rlt_dec (if Rlt_dec fin x then fin else x) beg then beg else if Rlt_dec fin x then fin else x).
  change (continuity_pt (fun x => F b t (k x)) x). apply (continuity_pt_comp k (F b t)).
  - apply cont_intro. intros eps He. exists eps. split; auto. intros y Y. apply Rabs_def2 in Y. unfold k.
    destruct (Rlt_dec fin x), (Rlt_dec fin y); repeat match goal with |- context [Rlt_dec ?p ?q] => destruct (Rlt_dec p q) end; apply Rabs_def1; lra.
  - apply C. unfold k. destruct (Rlt_dec fin x); destruct (Rlt_dec _ beg); lra.
Qed.
Hypothesis PLAIN : RESCALE bld = false /\ APOT bld = false.
Lemma E_plain : forall x, E x = if Rlt_dec x beg then F b t beg + (x - beg) * dF b t beg
   else if Rlt_dec fin x then F b t (fin - 1 / 2 * h) + (x - fin) * dF b t (fin - 1 / 2 * h) else F b t x.
Proof. intros x. unfold Eu, use, embed, cl. destruct PLAIN as [-> ->]. destruct (Rlt_dec x beg); auto. destruct (Rlt_dec fin x); auto. Qed.
Lemma line_small : forall g eps, 0 < eps -> exists d, 0 < d /\ forall z, Rabs z < d -> Rabs (z * g) < eps.
Proof.
  intros g eps He. pose proof (Rabs_pos g). exists (eps / (Rabs g + 1)). assert (0 < Rabs g + 1) by lra. split; [apply Rdiv_lt_0_compat; auto|].
  intros z Z. rewrite Rabs_mult. apply Rle_lt_trans with (Rabs z * (Rabs g + 1)); [apply Rmult_le_compat_l; [apply Rabs_pos|lra]|].
  apply Rmult_lt_reg_r with (/ (Rabs g + 1)); [apply Rinv_0_lt_compat; auto|]. rewrite Rmult_assoc, Rinv_r by lra. rewrite Rmult_1_r. exact Z.
Qed.
Theorem left_cont : continuity_pt (F b t) beg -> continuity_pt E beg.
Proof.
  intros C. apply cont_intro. intros eps He. destruct (cont_elim _ _ eps C He) as (d & D & Q). destruct (line_small (dF b t beg) eps He) as (d2 & D2 & Q2).
  exists (Rmin (Rmin d d2) (fin - beg)). split; [apply Rmin_glb_lt; [apply Rmin_glb_lt; auto|lra]|]. intros y Y.
  assert (Y1 : Rabs (y - beg) < d) by (eapply Rlt_le_trans; [exact Y|]; eapply Rle_trans; [apply Rmin_l|apply Rmin_l]).
  assert (Y2 : Rabs (y - beg) < d2) by (eapply Rlt_le_trans; [exact Y|]; eapply Rle_trans; [apply Rmin_l|apply Rmin_r]).
  assert (Y3 : Rabs (y - beg) < fin - beg) by (eapply Rlt_le_trans; [exact Y|]; apply Rmin_r). apply Rabs_def2 in Y3.
  rewrite !E_plain. destruct (Rlt_dec beg beg); [lra|]. destruct (Rlt_dec fin beg); [lra|]. destruct (Rlt_dec y beg).
  - replace (F b t beg + (y - beg) * dF b t beg - F b t beg) with ((y - beg) * dF b t beg) by ring. auto.
  - destruct (Rlt_dec fin y); [lra|]. auto.
Qed.
Theorem right_cont_iff : continuity_pt (F b t) fin -> (continuity_pt E fin <-> F b t fin = F b t (fin - 1 / 2 * h)).
Proof.
  intros C. split.
  - intros CE. destruct (Req_dec (F b t fin) (F b t (fin - 1/2 * h))) as [|N]; auto. exfalso.
    set (g := dF b t (fin - 1/2 * h)) in *. set (j := F b t (fin - 1/2 * h) - F b t fin).
    assert (J : 0 < Rabs j) by (apply Rabs_pos_lt; unfold j; lra).
    destruct (cont_elim _ _ (Rabs j / 2) CE ltac:(lra)) as (d & D & Q). destruct (line_small g (Rabs j / 2) ltac:(lra)) as (d2 & D2 & Q2).
    set (z := Rmin d d2 / 2). assert (Z : 0 < z) by (unfold z; assert (0 < Rmin d d2) by (apply Rmin_glb_lt; auto); lra).
    assert (Z1 : z < d) by (unfold z; pose proof (Rmin_l d d2); lra). assert (Z2 : z < d2) by (unfold z; pose proof (Rmin_r d d2); lra).
    specialize (Q (fin + z)). specialize (Q2 z). replace (fin + z - fin) with z in Q by ring. rewrite (Rabs_pos_eq z) in Q, Q2 by lra.
    specialize (Q Z1). specialize (Q2 Z2). rewrite !E_plain in Q. destruct (Rlt_dec (fin + z) beg); [lra|]. destruct (Rlt_dec fin (fin + z)); [|lra].
    destruct (Rlt_dec fin beg); [lra|]. destruct (Rlt_dec fin fin); [lra|]. fold g in Q.
    replace (F b t (fin - 1/2 * h) + (fin + z - fin) * g - F b t fin) with (j + z * g) in Q by (unfold j; ring).
    pose proof (Rabs_triang (j + z * g) (- (z * g))). replace (j + z * g + - (z * g)) with j in H by ring. rewrite Rabs_Ropp in H. lra.
  - intros EQ. apply cont_intro. intros eps He. destruct (cont_elim _ _ eps C He) as (d & D & Q). destruct (line_small (dF b t (fin - 1/2 * h)) eps He) as (d2 & D2 & Q2).
    exists (Rmin (Rmin d d2) (fin - beg)). split; [apply Rmin_glb_lt; [apply Rmin_glb_lt; auto|lra]|]. intros y Y.
    assert (Y1 : Rabs (y - fin) < d) by (eapply Rlt_le_trans; [exact Y|]; eapply Rle_trans; [apply Rmin_l|apply Rmin_l]).
    assert (Y2 : Rabs (y - fin) < d2) by (eapply Rlt_le_trans; [exact Y|]; eapply Rle_trans; [apply Rmin_l|apply Rmin_r]).
    assert (Y3 : Rabs (y - fin) < fin - beg) by (eapply Rlt_le_trans; [exact Y|]; apply Rmin_r). apply Rabs_def2 in Y3.
    rewrite !E_plain. destruct (Rlt_dec fin beg); [lra|]. destruct (Rlt_dec fin fin); [lra|]. destruct (Rlt_dec y beg); [lra|]. destruct (Rlt_dec fin y); [|auto].
    rewrite <- EQ. replace (F b t fin + (y - fin) * dF b t (fin - 1/2 * h) - F b t fin) with ((y - fin) * dF b t (fin - 1/2 * h)) by ring. auto.
Qed.
End Ends.
Definition plain_build : ebuild := mk_ebuild (mk_build true false false) false false false false.
Definition tbeam_build : ebuild := mk_ebuild (mk_build true false false) false false false true.
Theorem right_jump : exists F dF fbegin fend fstep, (forall x, derivable_pt_lim (F 0%nat 0%nat) x (dF 0%nat 0%nat x)) /\ fbegin 0%nat 0%nat < fend 0%nat 0%nat /\
  0 < fstep 0%nat 0%nat /\
  ~ continuity_pt (Eu plain_build F dF F dF fbegin fend fstep 0 0) (fend 0%nat 0%nat).
Proof.
  exists (fun _ _ x => x), (fun _ _ _ => 1), (fun _ _ => 0), (fun _ _ => 2), (fun _ _ => 1). split; [intros; apply derivable_pt_lim_id|]. split; [lra|]. split; [lra|].
  intros C. pose proof (right_cont_iff plain_build (fun _ _ x => x) (fun _ _ _ => 1) (fun _ _ x => x) (fun _ _ _ => 1) (fun _ _ => 0) (fun _ _ => 2) (fun _ _ => 1) 0 0) as Q. cbv beta in Q. 
  destruct Q as [Q _]; [lra|split; auto| |specialize (Q C); lra].
  apply derivable_continuous_pt. apply derivable_pt_id.
Qed.
