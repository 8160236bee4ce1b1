(** The ADP force routine: whole runs. *)
From Coq Require Import Reals ZArith List Bool Lia Lra.
From Verif Require Import Vec NbrModel NbrProof NbrProof2 NbrProof3 LoopUtil PairModel PairProof PairSpec PairProof2 PairProof3 ForceLoop BondProof EamModel EamProof EamSpec EamProof2 EamProof3 EamProof4 AdpModel AdpSpec AdpProof AdpProof2.
Import ListNotations.
Local Open Scope R_scope.

Lemma use_inside : forall bld F dF FA dFA fbegin fend fstep b t x, fbegin b t <= x <= fend b t -> (APOT bld = true -> RESCALE bld = false -> 1/10 <= x) ->
  use bld F dF FA dFA fbegin fend fstep b t x = (F b t x, dF b t x).
Proof.
  intros bld F dF FA dFA fbegin fend fstep b t x I A. unfold use, embed, cl. destruct (RESCALE bld).
  - destruct (Rlt_dec (fend b t) x); [lra|]. destruct (Rlt_dec x (fbegin b t)); [lra|]. auto.
  - destruct (Rlt_dec (fend b t) x); [lra|]. destruct (Rlt_dec x (fbegin b t)); [lra|].
    destruct (APOT bld); auto. specialize (A eq_refl eq_refl). destruct (Rlt_dec x (1/10)); [lra|]. auto.
Qed.

(** ** dummy constraints *)
Section Dummy.
Variable bld0 : ebuild.
Notation bld := (one_band bld0).
Variables dF : nat -> nat -> R -> R.
Variables fbegin fend : nat -> nat -> R.
Variable dummy_0 : nat -> R.
Variables ntypes natoms : nat.
Lemma dummies_spec : forall s, (0 < ntypes)%nat -> let s' := dummies bld0 dF fbegin fend dummy_0 ntypes natoms s in
  others s s' /\ (NOPUNISH bld = true -> s' = s) /\
  (NOPUNISH bld = false ->
   (forall g, (g < ntypes)%nat -> dum s' g = gauge bld dF fbegin fend dummy_0 ntypes 0 g /\
      dum s' (ntypes + g)%nat = if (negb (RESCALE bld) && Nat.eqb g 0)%bool then mean natoms s 0 else 0) /\
   err (dv s') = err (dv s) + rsumf (fun k => sq (dum s' k)) (seq 0 (2 * ntypes))).
Proof.
  intros s NT. cbv zeta. unfold dummies. destruct (NOPUNISH bld) eqn:NP.
  { split; [apply others_refl|]. split; auto. discriminate. }
  destruct (dummy_types_spec bld dF fbegin fend dummy_0 ntypes s) as (O & D & R).
  set (t := for_up 0 ntypes _ s) in *. clearbody t.
  assert (D' : forall g, (g < ntypes)%nat -> dum t g = gauge bld dF fbegin fend dummy_0 ntypes 0 g /\ dum t (ntypes + g)%nat = 0).
  { intros g Hg. assert (B0 : (0 < nbands bld)%nat) by (unfold nbands, one_band; simpl; lia). pose proof (D 0%nat g B0 Hg) as Q. replace (2 * 0 * ntypes + g)%nat with g in Q by lia.
    replace ((2 * 0 + 1) * ntypes + g)%nat with (ntypes + g)%nat in Q by lia. auto. }
  assert (R' : err (dv t) = err (dv s) + rsumf (fun g => sq (gauge bld dF fbegin fend dummy_0 ntypes 0 g)) (seq 0 ntypes)).
  { rewrite R. f_equal. apply rsumf_ext. intros g _. change (nbands bld) with 1%nat. unfold rsumf; cbn [seq map]; unfold Vec.rsum; cbn [fold_right]. ring. }
  clear D R.
  assert (SP : forall f : nat -> R, rsumf f (seq 0 (2 * ntypes)) = rsumf f (seq 0 ntypes) + rsumf (fun g => f (ntypes + g)%nat) (seq 0 ntypes)).
  { intros f. replace (2 * ntypes)%nat with (ntypes + ntypes)%nat by lia. rewrite seq_app, rsumf_app. f_equal. rewrite <- (rsumf_map f (fun g => ntypes + g)%nat). f_equal.
    clear. cbn [Nat.add]. generalize ntypes at 1 3. intros k. revert k. induction ntypes as [|m IH]; intros k; cbn [seq map]; auto. f_equal; [lia|]. rewrite (IH (S k)), <- (seq_shift m 0), map_map. apply map_ext. intros; lia. }
  destruct (RESCALE bld) eqn:RS; cbn [negb andb].
  - split; [auto|]. split; [discriminate|]. intros _. split; [auto|]. rewrite R', SP. f_equal.
    rewrite (rsumf_ext (fun k => sq (dum t k)) (fun g => sq (gauge bld dF fbegin fend dummy_0 ntypes 0 g))).
    + rewrite (rsumf_zero (fun g => sq (dum t (ntypes + g)%nat))); [ring|]. intros g Hg. apply in_seq in Hg. rewrite (proj2 (D' g ltac:(lia))). unfold sq; ring.
    + intros g Hg. apply in_seq in Hg. rewrite (proj1 (D' g ltac:(lia))). auto.
  - unfold mean_constraint, add_err, set_dum, with_dv, mean. cbn [dv rho gradF lim rsum dum frc en str err]. rewrite setf_eq.
    assert (RT : rsum t = rsum s) by (apply O). rewrite RT.
    split; [destruct O as (O1 & O2 & O3 & O4 & O5 & O6 & O7); repeat split; auto|]. split; [discriminate|]. intros _. split.
    + intros g Hg. split; [rewrite setf_neq by lia; apply D'; auto|]. destruct (Nat.eqb_spec g 0) as [->|N].
      * replace (ntypes + 0)%nat with ntypes by lia. apply setf_eq.
      * rewrite setf_neq by lia. apply D'. auto.
    + rewrite R', SP. rewrite (rsumf_ext (fun k => sq (setf (dum t) ntypes (DUMMY_WEIGHT * (rsum s 0%nat / INR natoms - 1)) k)) (fun g => sq (gauge bld dF fbegin fend dummy_0 ntypes 0 g))).
      * rewrite (rsumf_ext (fun g => sq (setf (dum t) ntypes (DUMMY_WEIGHT * (rsum s 0%nat / INR natoms - 1)) (ntypes + g)%nat)) (fun g => if Nat.eqb g 0 then sq (DUMMY_WEIGHT * (rsum s 0%nat / INR natoms - 1)) else 0)).
        -- rewrite (pick (fun _ => sq (DUMMY_WEIGHT * (rsum s 0%nat / INR natoms - 1))) 0%nat (seq 0 ntypes)) by (try apply seq_NoDup; apply in_seq; lia). ring.
        -- intros g Hg. apply in_seq in Hg. destruct (Nat.eqb_spec g 0) as [->|N].
           ++ replace (ntypes + 0)%nat with ntypes by lia. rewrite setf_eq. auto.
           ++ rewrite setf_neq by lia. rewrite (proj2 (D' g ltac:(lia))). unfold sq; ring.
      * intros g Hg. apply in_seq in Hg. rewrite setf_neq by lia. rewrite (proj1 (D' g ltac:(lia))). auto.
Qed.
End Dummy.

Section Run.
Variable bld0 : ebuild.
Notation bld := (one_band bld0).
Variables phi dphi : nat -> nat -> R -> R.
Variable in_range : nat -> nat -> R -> bool.
Variables dens ddens : nat -> nat -> R -> R.
Variable reach : nat -> nat -> R -> bool.
Variables F dF FA dFA : nat -> nat -> R -> R.
Variables fbegin fend fstep : nat -> nat -> R.
Variables u du : nat -> nat -> R -> R.
Variable u_range : nat -> nat -> R -> bool.
Variables w dw : nat -> nat -> R -> R.
Variable w_range : nat -> nat -> R -> bool.
Variables eweight sweight : R.
Variables limit_0 dummy_0 : nat -> R.
Variable punish : R.
Variables ntypes natoms : nat.
Variable cs : nat -> conf.
Variable nconf : nat.
Notation calc := (fun s => es (AdpModel.calc_forces bld0 phi dphi in_range dens ddens reach F dF FA dFA fbegin fend fstep u du u_range w dw w_range eweight sweight limit_0 dummy_0 punish ntypes natoms cs nconf s)).
Notation lo ci := (cnfstart (cs ci)).
Notation hi ci := (cnfstart (cs ci) + inconf (cs ci))%nat.
Hypothesis CONT : forall ci, cnfstart (cs (S ci)) = (cnfstart (cs ci) + inconf (cs ci))%nat.
Hypothesis NT : (0 < ntypes)%nat.
Notation frcf ci := (afrc bld0 dphi in_range dens ddens reach F dF FA dFA fbegin fend fstep u du u_range w dw w_range (cs ci)).
Notation enf ci := (aen bld0 phi in_range dens reach F dF FA dFA fbegin fend fstep u u_range w w_range (cs ci)).
Notation strf ci := (astr bld0 dphi in_range dens ddens reach F dF FA dFA fbegin fend fstep u du u_range w dw w_range (cs ci)).
Notation limf ci := (alim bld0 dens reach fbegin fend limit_0 ci (cs ci)).
Definition conf_error_a (ci : nat) (s : est) : R :=
  let c := cs ci in
  rsumf (fun a => if (uf c && (negb (CONTRIB (base bld)) || contrib c a))%bool then conf_weight c * sqv (frc (dv s) a) else 0) (seq (cnfstart c) (inconf c)) +
  conf_weight c * eweight * sq (en (dv s) ci) +
  (if (STRESS (base bld) && uf c && us c)%bool then rsumf (fun k => conf_weight c * sweight * sq (str (dv s) ci k)) (seq 0 6) else 0) +
  conf_weight c * sq (lim s ci).
Definition inv_a (n : nat) (s0 s : est) : Prop :=
  (forall ci a, (ci < n)%nat -> (lo ci <= a < hi ci)%nat -> frc (dv s) a = frcf ci a) /\
  (forall ci, (ci < n)%nat -> en (dv s) ci = enf ci) /\
  (forall ci k, (ci < n)%nat -> (k < 6)%nat -> STRESS (base bld) = true -> str (dv s) ci k = strf ci k) /\
  (forall ci, (ci < n)%nat -> lim s ci = limf ci) /\
  rsum s 0%nat = rsumf (fun ci => rsumf (seen bld dens reach fbegin fend (cs ci) 0%nat) (seq (lo ci) (inconf (cs ci)))) (seq 0 n) /\
  dum s = dum s0 /\
  err (dv s) = rsumf (fun ci => conf_error_a ci s) (seq 0 n).
Lemma aerror_ext : forall ci s s', (forall a, (lo ci <= a < hi ci)%nat -> frc (dv s) a = frc (dv s') a) -> en (dv s) ci = en (dv s') ci ->
  (STRESS (base bld) = true -> forall k, (k < 6)%nat -> str (dv s) ci k = str (dv s') ci k) -> lim s ci = lim s' ci -> conf_error_a ci s = conf_error_a ci s'.
Proof.
  intros ci s s' A B C D. unfold conf_error_a. rewrite B, D. f_equal. f_equal; [f_equal|].
  - apply rsumf_ext. intros a Ha. apply in_seq in Ha. rewrite A by lia. auto.
  - destruct (STRESS (base bld) && uf (cs ci) && us (cs ci))%bool eqn:ON; auto. apply rsumf_ext. intros k K. apply in_seq in K.
    rewrite C; auto; [|lia]. destruct (STRESS (base bld)); auto.
Qed.

Section Lists.
Hypothesis ORD : forall ci, (ci < nconf)%nat -> ordered (cs ci).
Hypothesis TYP : forall ci i e, (ci < nconf)%nat -> (lo ci <= i < hi ci)%nat -> In e (nb (cs ci) i) -> n_type e = typ (cs ci) (n_nr e).
Theorem adp_run : forall s, let s' := calc s in
  (forall ci a, (ci < nconf)%nat -> (lo ci <= a < hi ci)%nat -> frc (dv s') a = frcf ci a) /\
  (forall ci, (ci < nconf)%nat -> en (dv s') ci = enf ci) /\
  (forall ci k, (ci < nconf)%nat -> (k < 6)%nat -> STRESS (base bld) = true -> str (dv s') ci k = strf ci k) /\
  (forall ci, (ci < nconf)%nat -> lim s' ci = limf ci) /\
  rsum s' 0%nat = rsumf (fun ci => rsumf (seen bld dens reach fbegin fend (cs ci) 0%nat) (seq (lo ci) (inconf (cs ci)))) (seq 0 nconf) /\
  (NOPUNISH bld = false -> forall g, (g < ntypes)%nat ->
     dum s' g = gauge bld dF fbegin fend dummy_0 ntypes 0 g /\
     dum s' (ntypes + g)%nat = if (negb (RESCALE bld) && Nat.eqb g 0)%bool then mean natoms s' 0 else 0) /\
  err (dv s') = rsumf (fun ci => conf_error_a ci s') (seq 0 nconf) + punish +
    (if NOPUNISH bld then 0 else rsumf (fun k => sq (dum s' k)) (seq 0 (2 * ntypes))).
Proof.
  intros s. cbv zeta. unfold AdpModel.calc_forces. cbn [es].
  set (s0 := mk_ast _ _ _ _). set (t := for_up 0 nconf _ s0).
  assert (I : inv_a nconf (es s0) (es t)).
  { unfold t. apply (for_up_inv (fun n t => inv_a n (es s0) (es t))); [lia| |].
    - split; [intros; lia|]. split; [intros; lia|]. split; [intros; lia|]. split; [intros; lia|]. split; [auto|]. split; auto.
    - clear t. intros n t Hn (A & B & C & D & G & M & R).
      destruct (adp_config bld0 phi dphi in_range dens ddens reach F dF FA dFA fbegin fend fstep u du u_range w dw w_range eweight sweight limit_0 n (cs n) (ORD n ltac:(lia)) (fun i e => TYP n i e ltac:(lia)) t)
        as (F1 & F2 & E1 & E2 & S1 & S2 & L1 & L2 & U & M' & R').
      set (t' := es (AdpModel.config_body _ _ _ _ _ _ _ _ _ _ _ _ _ _ _ _ _ _ _ _ _ _ _ n (cs n) t)) in *. clearbody t'.
      assert (FK : forall ci a, (ci < n)%nat -> (lo ci <= a < hi ci)%nat -> frc (dv t') a = frc (dv (es t)) a).
      { intros ci a H Ha. apply F1. left. pose proof (starts cs CONT ci n H). lia. }
      split; [|split; [|split; [|split; [|split; [|split]]]]].
      + intros ci a H Ha. destruct (Nat.eq_dec ci n) as [->|N]; [auto|]. rewrite (FK ci) by (auto; lia). apply A; auto; lia.
      + intros ci H. destruct (Nat.eq_dec ci n) as [->|N]; [auto|]. rewrite E2 by auto. apply B; lia.
      + intros ci k H K ON. destruct (Nat.eq_dec ci n) as [->|N]; [auto|]. rewrite S2 by auto. apply C; auto; lia.
      + intros ci H. destruct (Nat.eq_dec ci n) as [->|N]; [auto|]. rewrite L2 by auto. apply D; auto; lia.
      + rewrite U, G by auto. rewrite seq_S, rsumf_snoc. auto.
      + congruence.
      + rewrite seq_S, rsumf_snoc, R', R. rewrite (rsumf_ext (fun ci => conf_error_a ci t') (fun ci => conf_error_a ci (es t))).
        * simpl (0 + n)%nat. unfold conf_error_a at 3. rewrite E1, L1.
          assert (Q1 : rsumf (ascore bld0 dphi in_range dens ddens reach F dF FA dFA fbegin fend fstep u du u_range w dw w_range (cs n)) (seq (lo n) (inconf (cs n))) =
            rsumf (fun a => if (uf (cs n) && (negb (CONTRIB (base bld)) || contrib (cs n) a))%bool then conf_weight (cs n) * sqv (frc (dv t') a) else 0) (seq (lo n) (inconf (cs n)))).
          { apply rsumf_ext. intros a Ha. apply in_seq in Ha. unfold ascore, scored. rewrite F2 by lia. auto. }
          assert (Q2 : (if stress_on (base bld) (cs n) then rsumf (fun k => conf_weight (cs n) * sweight * sq (strf n k)) (seq 0 6) else 0) =
            (if (STRESS (base bld) && uf (cs n) && us (cs n))%bool then rsumf (fun k => conf_weight (cs n) * sweight * sq (str (dv t') n k)) (seq 0 6) else 0)).
          { unfold stress_on. destruct (STRESS (base bld) && uf (cs n) && us (cs n))%bool eqn:ON; auto. apply rsumf_ext. intros k K. apply in_seq in K. rewrite S1; auto; [lia|]. destruct (STRESS (base bld)); auto. }
          rewrite Q1, Q2. ring.
        * intros ci Hci. apply in_seq in Hci. apply aerror_ext; intros; [apply (FK ci); auto; lia|apply E2; lia|apply S2; lia|apply L2; lia]. }
  clearbody t. destruct I as (A & B & C & D & G & _ & R).
  destruct (dummies_spec bld0 dF fbegin fend dummy_0 ntypes natoms (add_err (es t) punish) NT) as ((O1 & O2 & O3 & _ & _ & O6 & O7) & K1 & K2).
  set (v := dummies bld0 dF fbegin fend dummy_0 ntypes natoms (add_err (es t) punish)) in *. clearbody v.
  cbn [add_err with_dv dv frc en str err lim rsum] in O1, O2, O3, O6, O7, K2.
  rewrite O1, O2, O3, O6, O7. split; [auto|]. split; [auto|]. split; [auto|]. split; [auto|]. split; [auto|]. split.
  - intros NP g Hg. destruct (K2 NP) as [K3 _]. destruct (K3 g Hg) as [-> ->]. split; auto. unfold mean. cbn [rsum add_err with_dv]. rewrite O7. auto.
  - assert (CE : forall ci, conf_error_a ci v = conf_error_a ci (es t)) by (intros; apply aerror_ext; intros; congruence).
    rewrite (rsumf_ext (fun ci => conf_error_a ci v) (fun ci => conf_error_a ci (es t))) by auto.
    destruct (NOPUNISH bld).
    + rewrite (K1 eq_refl). cbn [add_err with_dv dv err]. rewrite R. ring.
    + destruct (K2 eq_refl) as [_ ->]. rewrite R. ring.
Qed.
End Lists.

(** the returned number is the sum of squares of the weighted deviations *)
Theorem adp_error :
  (forall ci i e, (ci < nconf)%nat -> (lo ci <= i < hi ci)%nat -> In e (nb (cs ci) i) -> (i <= n_nr e < hi ci)%nat) ->
  (forall ci i e, (ci < nconf)%nat -> (lo ci <= i < hi ci)%nat -> In e (nb (cs ci) i) -> n_type e = typ (cs ci) (n_nr e)) ->
  forall s, let s' := calc s in
  err (dv s') = rsumf (fun ci => 
     rsumf (fun a => if (uf (cs ci) && (negb (CONTRIB (base bld0)) || contrib (cs ci) a))%bool
                     then conf_weight (cs ci) * sqv (frc (dv s') a) else 0) (seq (lo ci) (inconf (cs ci))) +
     conf_weight (cs ci) * eweight * sq (en (dv s') ci) +
     (if (STRESS (base bld0) && uf (cs ci) && us (cs ci))%bool
      then rsumf (fun k => conf_weight (cs ci) * sweight * sq (str (dv s') ci k)) (seq 0 6) else 0) +
     conf_weight (cs ci) * sq (lim s' ci)) (seq 0 nconf) + punish +
  (if NOPUNISH bld0 then 0 else rsumf (fun k => sq (dum s' k)) (seq 0 (2 * ntypes))).
Proof.
  intros O T s. assert (ORD : forall ci, (ci < nconf)%nat -> ordered (cs ci)) by (intros ci H i e; apply O; auto).
  destruct (adp_run ORD T s) as (_ & _ & _ & _ & _ & _ & R). exact R.
Qed.

Section Geo.
Variable pos : nat -> vec.
Variable bx : nat -> box.
Variable rcut : nat -> nat -> R.
Hypothesis GEO : forall ci, (ci < nconf)%nat -> geometry (cs ci) pos (bx ci) rcut.
Variable L : nat -> nat -> list (nat * image).
Hypothesis HL : forall ci a, (ci < nconf)%nat -> (lo ci <= a < hi ci)%nat -> all_neighbors (cs ci) pos (bx ci) rcut a (L ci a).
Hypothesis PS : forall s t r, phi s t r = phi t s r.
Hypothesis DS : forall s t r, dphi s t r = dphi t s r.
Hypothesis IS : forall s t r, in_range s t r = in_range t s r.
Hypothesis US : forall s t r, u s t r = u t s r.
Hypothesis dUS : forall s t r, du s t r = du t s r.
Hypothesis URS : forall s t r, u_range s t r = u_range t s r.
Hypothesis WS : forall s t r, w s t r = w t s r.
Hypothesis dWS : forall s t r, dw s t r = dw t s r.
Hypothesis WRS : forall s t r, w_range s t r = w_range t s r.
Notation Eu := (Eu bld F dF FA dFA fbegin fend fstep).
Notation dEu := (dEu bld F dF FA dFA fbegin fend fstep).
Definition fscale_a (ci a : nat) : R := if FWEIGHT (base bld0) then / (FORCE_EPS + absforce (cs ci) a) else 1.

Theorem adp_textbook : forall s, let s' := calc s in forall ci, (ci < nconf)%nat ->
  (uf (cs ci) = true -> forall a, (lo ci <= a < hi ci)%nat ->
     frc (dv s') a = vscale (fscale_a ci a) (vsub (vadd (vadd (pair_force (cs ci) pos (bx ci) dphi in_range (L ci) a)
       (embed_force (cs ci) pos (bx ci) 1 dens ddens reach dEu (L ci) a)) (adp_force (cs ci) pos (bx ci) u du u_range w dw w_range (L ci) a)) (force_0 (cs ci) a))) /\
  (uf (cs ci) = false -> forall a, (lo ci <= a < hi ci)%nat -> frc (dv s') a = v0) /\
  en (dv s') ci = (pair_energy (cs ci) pos (bx ci) phi in_range (L ci) + embed_energy (cs ci) pos (bx ci) 1 dens reach Eu (L ci) +
     adp_energy (cs ci) pos (bx ci) u u_range w w_range (L ci)) / INR (inconf (cs ci)) - energy_0 (cs ci) /\
  (STRESS (base bld0) = true -> forall k, (k < 6)%nat -> str (dv s') ci k =
     if (uf (cs ci) && us (cs ci))%bool
     then (pair_virial (cs ci) pos (bx ci) dphi in_range (L ci) k + embed_virial (cs ci) pos (bx ci) 1 dens ddens reach dEu (L ci) k +
           adp_virial (cs ci) pos (bx ci) u du u_range w dw w_range (L ci) k + own_virial (cs ci) pos (bx ci) w dw w_range (L ci) k) / conf_vol (cs ci) - stress_0 (cs ci) k else 0).
Proof.
  intros s s' ci H.
  assert (ORD : forall ci, (ci < nconf)%nat -> ordered (cs ci)) by (intros c' H'; apply (geo_ordered (cs c') pos (bx c') rcut); auto).
  assert (TYP : forall ci i e, (ci < nconf)%nat -> (lo ci <= i < hi ci)%nat -> In e (nb (cs ci) i) -> n_type e = typ (cs ci) (n_nr e)).
  { intros c' i e H'. apply (geo_typ (cs c') pos (bx c') rcut (GEO c' H') (L c') (fun a => HL c' a H')). }
  destruct (adp_run ORD TYP s) as (Q1 & Q2 & Q3 & _).
  fold s' in Q1, Q2, Q3. clearbody s'. split; [|split; [|split]].
  - intros UF a Ha. rewrite (Q1 ci a H Ha).
    rewrite (adp_frc bld0 dphi in_range dens ddens reach F dF FA dFA fbegin fend fstep u du u_range w dw w_range DS IS US dUS URS WS dWS WRS (cs ci) pos (bx ci) rcut (GEO ci H) (L ci) (fun a => HL ci a H) a Ha UF).
    unfold scl, fscale_a, full_force. set (p := vadd _ _). clearbody p. change (base bld) with (base bld0). destruct (FWEIGHT (base bld0)); vring.
  - intros UF a Ha. rewrite (Q1 ci a H Ha). unfold afrc. rewrite UF. auto.
  - rewrite (Q2 ci H). apply (adp_en bld0 phi in_range dens reach F dF FA dFA fbegin fend fstep u u_range w w_range PS IS US URS WS WRS (cs ci) pos (bx ci) rcut (GEO ci H) (L ci) (fun a => HL ci a H)).
  - intros ON k K. rewrite (Q3 ci k H K ON).
    rewrite (adp_str bld0 dphi in_range dens ddens reach F dF FA dFA fbegin fend fstep u du u_range w dw w_range DS IS US dUS URS WS dWS WRS (cs ci) pos (bx ci) rcut (GEO ci H) (L ci) (fun a => HL ci a H) k).
    unfold stress_on. change (base bld) with (base bld0). rewrite ON. auto.
Qed.

Theorem adp_sum_zero : forall s, let s' := calc s in forall ci, (ci < nconf)%nat ->
  uf (cs ci) = true -> FWEIGHT (base bld0) = false ->
  vsum (fun a => vadd (frc (dv s') a) (force_0 (cs ci) a)) (seq (lo ci) (inconf (cs ci))) = v0.
Proof.
  intros s s' ci H UF W.
  rewrite <- (adp_newton bld0 dphi in_range dens ddens reach F dF FA dFA fbegin fend fstep u du u_range w dw w_range DS IS US dUS URS WS dWS WRS (cs ci) pos (bx ci) rcut (GEO ci H) (L ci) (fun a => HL ci a H)).
  apply vsum_ext. intros a Ha. apply in_seq in Ha. destruct (adp_textbook s ci H) as (Q & _). fold s' in Q. rewrite (Q UF a) by lia.
  unfold fscale_a, full_force. rewrite W. set (p := vadd (vadd _ _) _). clearbody p. vring.
Qed.

(** all densities in the tables *)
Hypothesis INT : forall ci a, (ci < nconf)%nat -> (lo ci <= a < hi ci)%nat ->
  let x := density (cs ci) pos (bx ci) dens reach (L ci) 0 a in
  fbegin 0%nat (typ (cs ci) a) <= x <= fend 0%nat (typ (cs ci) a) /\ (APOT bld0 = true -> RESCALE bld0 = false -> 1/10 <= x).
Theorem adp_textbook_in : forall s, let s' := calc s in forall ci, (ci < nconf)%nat ->
  (uf (cs ci) = true -> forall a, (lo ci <= a < hi ci)%nat ->
     frc (dv s') a = vscale (fscale_a ci a) (vsub (vadd (vadd (pair_force (cs ci) pos (bx ci) dphi in_range (L ci) a)
       (embed_force (cs ci) pos (bx ci) 1 dens ddens reach dF (L ci) a)) (adp_force (cs ci) pos (bx ci) u du u_range w dw w_range (L ci) a)) (force_0 (cs ci) a))) /\
  (uf (cs ci) = false -> forall a, (lo ci <= a < hi ci)%nat -> frc (dv s') a = v0) /\
  en (dv s') ci = (pair_energy (cs ci) pos (bx ci) phi in_range (L ci) + embed_energy (cs ci) pos (bx ci) 1 dens reach F (L ci) +
     adp_energy (cs ci) pos (bx ci) u u_range w w_range (L ci)) / INR (inconf (cs ci)) - energy_0 (cs ci) /\
  (STRESS (base bld0) = true ->
   (forall a v, (lo ci <= a < hi ci)%nat -> In v (L ci a) -> fst v = a -> w_range (typ (cs ci) a) (typ (cs ci) a) (dist pos (bx ci) a v) = false) ->
   forall k, (k < 6)%nat -> str (dv s') ci k =
     if (uf (cs ci) && us (cs ci))%bool
     then (pair_virial (cs ci) pos (bx ci) dphi in_range (L ci) k + embed_virial (cs ci) pos (bx ci) 1 dens ddens reach dF (L ci) k +
           adp_virial (cs ci) pos (bx ci) u du u_range w dw w_range (L ci) k) / conf_vol (cs ci) - stress_0 (cs ci) k else 0).
Proof.
  intros s s' ci H. destruct (adp_textbook s ci H) as (Q1 & Q2 & Q3 & Q4). fold s' in Q1, Q2, Q3, Q4. clearbody s'.
  assert (UI : forall a, (lo ci <= a < hi ci)%nat -> let x := density (cs ci) pos (bx ci) dens reach (L ci) 0 a in use bld F dF FA dFA fbegin fend fstep 0 (typ (cs ci) a) x = (F 0%nat (typ (cs ci) a) x, dF 0%nat (typ (cs ci) a) x)).
  { intros a Ha x. destruct (INT ci a H Ha) as [I1 I2]. apply use_inside; auto. }
  assert (SL : forall a, (lo ci <= a < hi ci)%nat -> slope (cs ci) pos (bx ci) dens reach dEu (L ci) 0 a = slope (cs ci) pos (bx ci) dens reach dF (L ci) 0 a).
  { intros a Ha. unfold slope, EamProof3.dEu. rewrite UI by auto. auto. }
  assert (BD : forall a v, (lo ci <= a < hi ci)%nat -> In v (L ci a) -> embed_bond (cs ci) pos (bx ci) 1 dens ddens reach dEu (L ci) a v = embed_bond (cs ci) pos (bx ci) 1 dens ddens reach dF (L ci) a v).
  { intros a [j n] Ha Hv. apply (proj2 (HL ci a H Ha)) in Hv. destruct Hv as [Hj _]. unfold embed_bond. f_equal. f_equal. apply rsumf_ext. intros b Hb. apply in_seq in Hb. assert (b = 0)%nat as -> by lia. cbn [fst]. rewrite !SL by lia. auto. }
  split; [|split; [auto|split]].
  - intros UF a Ha. rewrite (Q1 UF a Ha). f_equal. f_equal. f_equal. f_equal. apply vsum_ext. auto.
  - rewrite Q3. f_equal. f_equal. f_equal. f_equal. unfold embed_energy. apply rsumf_ext. intros a Ha. apply in_seq in Ha. apply rsumf_ext. intros b Hb. apply in_seq in Hb. assert (b = 0)%nat as -> by lia.
    unfold EamProof3.Eu. rewrite UI by lia. auto.
  - intros ON OWN k K. rewrite (Q4 ON k K). destruct (uf (cs ci) && us (cs ci))%bool; auto.
    rewrite (own_none w dw w_range (cs ci) pos (bx ci) (L ci) OWN k). f_equal. f_equal. rewrite Rplus_0_r. f_equal. f_equal. unfold embed_virial. f_equal. f_equal.
    apply rsumf_ext. intros a Ha. apply in_seq in Ha. apply rsumf_ext. intros v Hv. rewrite BD by (auto; lia). auto.
Qed.
End Geo.
End Run.
