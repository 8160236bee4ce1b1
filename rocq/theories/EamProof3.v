(** The EAM force routine computes the textbook model. *)
From Coq Require Import Reals ZArith List Bool Lia Lra.
From Verif Require Import Vec NbrModel NbrProof NbrProof2 NbrProof3 LoopUtil PairModel PairProof PairSpec PairProof2 PairProof3 ForceLoop BondProof EamModel EamProof EamSpec EamProof2.
Import ListNotations.
Local Open Scope R_scope.

Lemma vsum_add : forall {A} (f g : A -> vec) l, vsum (fun x => vadd (f x) (g x)) l = vadd (vsum f l) (vsum g l).
Proof. intros. unfold vsum, vadd. cbn [vx vy vz]. rewrite !rsumf_plus. auto. Qed.
Lemma vsum_ext : forall {A} (f g : A -> vec) l, (forall x, In x l -> f x = g x) -> vsum f l = vsum g l.
Proof. intros A f g l H. unfold vsum. f_equal; apply rsumf_ext; intros x X; rewrite H; auto. Qed.

Section Run.
Variable bld : ebuild.
Variables phi dphi : nat -> nat -> R -> R.
Variable in_range : nat -> nat -> R -> bool.
Variables dens ddens : nat -> nat -> R -> R.
Variable reach : nat -> nat -> R -> bool.
Variables F dF FA dFA : nat -> nat -> R -> R.
Variables fbegin fend fstep : nat -> nat -> R.
Notation nbd := (nbands bld).
(** what the routine uses as embedding function *)
Definition use (b t : nat) (x : R) : R * R := embed bld F dF FA dFA fbegin fend fstep b t (cl bld fbegin fend b t x).
Definition Eu (b t : nat) (x : R) : R := fst (use b t x).
Definition dEu (b t : nat) (x : R) : R := snd (use b t x).
(** in TBEAM builds the second band must not reach farther than the first *)
Definition bands_nested : Prop := TBEAM bld = true -> forall s t r,
  (reach 1 s r || reach 1 t r)%bool = true -> (reach 0 s r || reach 0 t r)%bool = true.

Section Geo.
Variables (c : conf) (pos : nat -> vec) (bx : box) (rcut : nat -> nat -> R).
Hypothesis GEO : geometry c pos bx rcut.
Notation lo := (cnfstart c).
Notation hi := (cnfstart c + inconf c)%nat.
Variable L : nat -> list (nat * image).
Hypothesis HL : forall a, (lo <= a < hi)%nat -> all_neighbors c pos bx rcut a (L a).
Notation ent i v := (entry pos (typ c) bx i (fst v) (snd v)).
Notation rho b a := (density c pos bx dens reach L b a).
Notation slp := (slope c pos bx dens reach dEu L).
Notation ebond := (embed_bond c pos bx nbd dens ddens reach dEu L).

Lemma geo_typ : forall i e, (lo <= i < hi)%nat -> In e (nb c i) -> n_type e = typ c (n_nr e).
Proof. intros i e Hi He. destruct (nb_entry c pos bx rcut GEO L HL i e Hi He) as (v & _ & _ & -> & _). auto. Qed.

Lemma ent_r : forall i v, n_r (ent i v) = dist pos bx i v.
Proof. intros i [j n]. unfold dist, dvec, entry. simpl. rewrite shift_displacement. auto. Qed.
Lemma ent_dr : forall i v, n_dist_r (ent i v) = vscale (/ dist pos bx i v) (dvec pos bx i v).
Proof. intros i [j n]. unfold dist, dvec, entry. simpl. rewrite shift_displacement. unfold unscale, Rdiv. vring. Qed.
Lemma full_density : forall b a, (lo <= a < hi)%nat -> full dens reach c b a = rho b a.
Proof.
  intros b a Ha. unfold full, gotd, density. replace (hi - lo)%nat with (inconf c) by lia.
  apply (gen_density c pos bx rcut GEO L HL (dA dens reach b) (dB dens reach c b) (fun a v => if reach b (typ c (fst v)) (dist pos bx a v) then dens b (typ c (fst v)) (dist pos bx a v) else 0)).
  - intros i v. unfold dA. rewrite ent_r. auto.
  - intros i j n N. unfold dB. rewrite ent_r, (dist_sym pos bx i j n). cbn [fst snd] in *.
    destruct (Nat.eqb_spec (n_nr (entry pos (typ c) bx i j n)) i) as [E|]; [exfalso; apply N; auto|]. auto.
  - intros i e E. unfold dB. rewrite E, Nat.eqb_refl. auto.
  - auto.
Qed.
Lemma gF_slope : forall b a, (lo <= a < hi)%nat -> gF bld dens reach F dF FA dFA fbegin fend fstep c b a = slp b a.
Proof. intros b a Ha. unfold gF, slope, dEu, use, seen. rewrite full_density; auto. Qed.
Lemma eF_energy : forall b a, (lo <= a < hi)%nat -> eF bld dens reach F dF FA dFA fbegin fend fstep c b a = Eu b (typ c a) (rho b a).
Proof. intros b a Ha. unfold eF, Eu, use, seen. rewrite full_density; auto. Qed.

Notation X3 := (T3 bld ddens reach c slp).
Lemma band_sym : forall i e b, band_force ddens reach slp c i e b = 
  dtrans ddens reach b (n_type e) (n_r e) * slp b i + dtrans ddens reach b (typ c i) (n_r e) * slp b (n_nr e).
Proof. intros i e b. unfold band_force, dtrans. destruct (Nat.eqb_spec (typ c i) (n_type e)) as [->|]; auto. Qed.
Hypothesis NEST : bands_nested.
Lemma X3_entry : forall i v, X3 i (ent i v) = vscale (weight i v) (ebond i v).
Proof.
  intros i v. assert (T : n_type (ent i v) = typ c (fst v)) by auto. assert (NN : n_nr (ent i v) = fst v) by auto.
  unfold T3, f3, wt, weight. rewrite !band_sym, ent_dr, T, ent_r, NN. unfold embed_bond.
  assert (S : rsumf (fun k => dtrans ddens reach k (typ c (fst v)) (dist pos bx i v) * slp k i + dtrans ddens reach k (typ c i) (dist pos bx i v) * slp k (fst v)) (seq 0 nbd) =
    if (reach 0 (typ c (fst v)) (dist pos bx i v) || reach 0 (typ c i) (dist pos bx i v))%bool then
      dtrans ddens reach 0 (typ c (fst v)) (dist pos bx i v) * slp 0%nat i + dtrans ddens reach 0 (typ c i) (dist pos bx i v) * slp 0%nat (fst v) +
      (if (TBEAM bld && (reach 1 (typ c (fst v)) (dist pos bx i v) || reach 1 (typ c i) (dist pos bx i v)))%bool 
       then dtrans ddens reach 1 (typ c (fst v)) (dist pos bx i v) * slp 1%nat i + dtrans ddens reach 1 (typ c i) (dist pos bx i v) * slp 1%nat (fst v) else 0) else 0).
  { set (r := dist pos bx i v) in *. clearbody r. set (tj := typ c (fst v)) in *. clearbody tj. set (ti := typ c i). clearbody ti.
    unfold nbands. assert (N := NEST). unfold bands_nested in N. unfold dtrans. destruct (TBEAM bld); cbn [andb].
    - specialize (N eq_refl tj ti r). unfold rsumf; cbn [seq map]; unfold Vec.rsum; cbn [fold_right].
      destruct (reach 1 tj r), (reach 1 ti r), (reach 0 tj r), (reach 0 ti r); cbn [orb] in *; try (specialize (N eq_refl); discriminate); ring.
    - unfold rsumf; cbn [seq map]; unfold Vec.rsum; cbn [fold_right]. destruct (reach 0 tj r), (reach 0 ti r); cbn [orb]; ring. }
  rewrite S. destruct (reach 0 (typ c (fst v)) (dist pos bx i v) || reach 0 (typ c i) (dist pos bx i v))%bool; destruct (Nat.eqb (fst v) i); unfold Rdiv; vring.
Qed.
Lemma ebond_sym : forall i j n, ebond i (j, n) = vscale (-1) (ebond j (i, neg n)).
Proof.
  intros i j n. unfold embed_bond. cbn [fst snd]. rewrite <- (dist_sym pos bx i j n). 
  replace (dvec pos bx j (i, neg n)) with (vscale (-1) (dvec pos bx i (j, n))) by (unfold dvec; cbn [fst snd]; rewrite (displacement_neg pos bx i j n); vring).
  rewrite (rsumf_ext (fun k => dtrans ddens reach k (typ c i) _ * slp k j + dtrans ddens reach k (typ c j) _ * slp k i)
    (fun k => dtrans ddens reach k (typ c j) (dist pos bx i (j, n)) * slp k i + dtrans ddens reach k (typ c i) (dist pos bx i (j, n)) * slp k j)) by (intros; ring).
  vring.
Qed.
Lemma X3_use : (forall a, (lo <= a < hi)%nat -> gown (T3 bld ddens reach c (gF bld dens reach F dF FA dFA fbegin fend fstep c)) c a = gown X3 c a) /\
  (forall a, ggot (T3 bld ddens reach c (gF bld dens reach F dF FA dFA fbegin fend fstep c)) c hi a = ggot X3 c hi a) /\
  (forall k, gstr (T3 bld ddens reach c (gF bld dens reach F dF FA dFA fbegin fend fstep c)) c k hi = gstr X3 c k hi).
Proof.
  apply loop_ext. intros i e Hi He. apply (T3_ext bld ddens reach c (geo_ordered c pos bx rcut GEO)); auto. intros; apply gF_slope; auto.
Qed.

Hypothesis PS : forall s t r, phi s t r = phi t s r.
Hypothesis DS : forall s t r, dphi s t r = dphi t s r.
Hypothesis IS : forall s t r, in_range s t r = in_range t s r.

Definition eam_force (a : nat) : vec :=
  vadd (pair_force c pos bx dphi in_range L a) (embed_force c pos bx nbd dens ddens reach dEu L a).
Lemma eam_frc : forall a, (lo <= a < hi)%nat -> uf c = true ->
  frc_f bld dphi in_range dens ddens reach F dF FA dFA fbegin fend fstep c a = scl (base bld) c a (vsub (eam_force a) (force_0 c a)).
Proof.
  intros a Ha U. unfold frc_f. rewrite U. f_equal. destruct X3_use as (O & G & _). rewrite (O a Ha), (G a).
  pose proof (gen_force c pos bx rcut GEO L HL (T dphi in_range c) (bond_force c pos bx dphi in_range) (entry_T dphi in_range c pos bx) (bf_sym dphi in_range DS IS c pos bx) a Ha) as Q1.
  pose proof (gen_force c pos bx rcut GEO L HL X3 ebond X3_entry ebond_sym a Ha) as Q2.
  assert (PT : forall i e, pT dphi in_range c i e = T dphi in_range c i e) by (intros; unfold pT; rewrite U; auto).
  unfold eam_force, pair_force, embed_force. rewrite <- Q1, <- Q2. unfold gown, ggot. replace (hi - lo)%nat with (inconf c) by lia.
  rewrite (vsumf_ext (pT dphi in_range c a) (T dphi in_range c a)) by auto.
  rewrite (vsumf_ext (fun k => vsumf (gto (pT dphi in_range c) a k) (nb c k)) (fun k => vsumf (fun e => if Nat.eqb (n_nr e) a then T dphi in_range c k e else v0) (nb c k))).
  - unfold gto. set (x1 := vsumf (T dphi in_range c a) _). set (x2 := vsumf _ (seq lo (inconf c))). set (x3 := vsumf (X3 a) _). set (x4 := vsumf (fun k => vsumf (fun e => if Nat.eqb (n_nr e) a then X3 k e else v0) _) _).
    clearbody x1 x2 x3 x4. vring.
  - intros k _. apply vsumf_ext. intros e _. unfold gto. rewrite PT. auto.
Qed.
Lemma eam_en : en_f bld phi in_range dens reach F dF FA dFA fbegin fend fstep c =
  (pair_energy c pos bx phi in_range L + embed_energy c pos bx nbd dens reach Eu L) / INR (inconf c) - energy_0 c.
Proof.
  unfold en_f. f_equal. f_equal. f_equal.
  - unfold gen, pair_energy. replace (hi - lo)%nat with (inconf c) by lia.
    apply (gen_energy c pos bx rcut GEO L HL (P phi in_range c) (bond_energy c pos bx phi in_range) (entry_P phi in_range c pos bx) (be_sym phi in_range PS IS c pos bx)).
  - unfold upto, embed_energy. replace (hi - lo)%nat with (inconf c) by lia. apply rsumf_ext. intros a Ha. apply in_seq in Ha. apply rsumf_ext. intros b _. apply eF_energy. lia.
Qed.
Lemma eam_str : forall k, str_f bld dphi in_range dens ddens reach F dF FA dFA fbegin fend fstep c k =
  if stress_on (base bld) c then (pair_virial c pos bx dphi in_range L k + embed_virial c pos bx nbd dens ddens reach dEu L k) / conf_vol c - stress_0 c k else 0.
Proof.
  intros k. unfold str_f. destruct (stress_on (base bld) c) eqn:ON; auto.
  assert (U : uf c = true) by (unfold stress_on in ON; destruct (uf c); auto; destruct (STRESS (base bld)); discriminate).
  f_equal. f_equal. destruct X3_use as (_ & _ & Q). rewrite Q.
  pose proof (gen_virial c pos bx rcut GEO L HL (T dphi in_range c) (bond_force c pos bx dphi in_range) (entry_T dphi in_range c pos bx) (bf_sym dphi in_range DS IS c pos bx) k) as Q1.
  pose proof (gen_virial c pos bx rcut GEO L HL X3 ebond X3_entry ebond_sym k) as Q2.
  unfold pair_virial, embed_virial. rewrite <- Q1, <- Q2. unfold gstr. replace (hi - lo)%nat with (inconf c) by lia.
  rewrite (rsumf_ext (fun j => rsumf (fun e => stress_of (n_dist e) (pT dphi in_range c j e) k) (nb c j)) (fun j => rsumf (fun e => stress_of (n_dist e) (T dphi in_range c j e) k) (nb c j))); [ring|].
  intros j _. apply rsumf_ext. intros e _. unfold pT. rewrite U. auto.
Qed.
Lemma eam_newton : vsum eam_force (seq lo (inconf c)) = v0.
Proof.
  unfold eam_force. rewrite vsum_add.
  pose proof (gen_newton c pos bx rcut GEO L HL ebond ebond_sym) as Q2.
  unfold embed_force. rewrite Q2. 
  rewrite (newton dphi in_range DS IS c pos bx rcut GEO L HL). vring.
Qed.
End Geo.

(** ** all configurations *)
Variables eweight sweight : R.
Variables limit_0 dummy_0 : nat -> R.
Variable punish : R.
Variables ntypes natoms : nat.
Variable cs : nat -> conf.
Variable nconf : nat.
Notation calc := (EamModel.calc_forces bld phi dphi in_range dens ddens reach F dF FA dFA fbegin fend fstep eweight sweight limit_0 dummy_0 punish ntypes natoms cs nconf).
Notation lo ci := (cnfstart (cs ci)).
Notation hi ci := (cnfstart (cs ci) + inconf (cs ci))%nat.
Hypothesis CONT : forall ci, cnfstart (cs (S ci)) = (cnfstart (cs ci) + inconf (cs ci))%nat.
Hypothesis ORD : forall ci, (ci < nconf)%nat -> ordered (cs ci).
Hypothesis TYP : forall ci i e, (ci < nconf)%nat -> (lo ci <= i < hi ci)%nat -> In e (nb (cs ci) i) -> n_type e = typ (cs ci) (n_nr e).
Hypothesis NT : (0 < ntypes)%nat.
Notation frcf ci := (frc_f bld dphi in_range dens ddens reach F dF FA dFA fbegin fend fstep (cs ci)).
Notation enf ci := (en_f bld phi in_range dens reach F dF FA dFA fbegin fend fstep (cs ci)).
Notation strf ci := (str_f bld dphi in_range dens ddens reach F dF FA dFA fbegin fend fstep (cs ci)).
Notation limf ci := (lim_f bld dens reach fbegin fend limit_0 ci (cs ci)).

Definition conf_error_e (ci : nat) (s : est) : R :=
  let c := cs ci in
  rsumf (fun a => if (uf c && (negb (CONTRIB (base bld)) || contrib c a))%bool then conf_weight c * sqv (frc (dv s) a) else 0) (seq (cnfstart c) (inconf c)) +
  conf_weight c * eweight * sq (en (dv s) ci) +
  (if (STRESS (base bld) && uf c && us c)%bool then rsumf (fun k => conf_weight c * sweight * sq (str (dv s) ci k)) (seq 0 6) else 0) +
  (if RESCALE bld then conf_weight c * sq (lim s ci) else 0).

Definition inv_e (n : nat) (s0 s : est) : Prop :=
  (forall ci a, (ci < n)%nat -> (lo ci <= a < hi ci)%nat -> frc (dv s) a = frcf ci a) /\
  (forall ci, (ci < n)%nat -> en (dv s) ci = enf ci) /\
  (forall ci k, (ci < n)%nat -> (k < 6)%nat -> STRESS (base bld) = true -> str (dv s) ci k = strf ci k) /\
  (forall ci, (ci < n)%nat -> RESCALE bld = true -> lim s ci = limf ci) /\
  (forall b, (b < nbd)%nat -> rsum s b = rsumf (fun ci => rsumf (seen bld dens reach fbegin fend (cs ci) b) (seq (lo ci) (inconf (cs ci)))) (seq 0 n)) /\
  dum s = dum s0 /\
  err (dv s) = rsumf (fun ci => conf_error_e ci s) (seq 0 n).

Lemma conf_error_ext : forall ci s s', (forall a, (lo ci <= a < hi ci)%nat -> frc (dv s) a = frc (dv s') a) -> en (dv s) ci = en (dv s') ci ->
  (STRESS (base bld) = true -> forall k, (k < 6)%nat -> str (dv s) ci k = str (dv s') ci k) -> (RESCALE bld = true -> lim s ci = lim s' ci) -> conf_error_e ci s = conf_error_e ci s'.
Proof.
  intros ci s s' A B C D. unfold conf_error_e. rewrite B. f_equal; [f_equal; [f_equal|]|].
  - apply rsumf_ext. intros a Ha. apply in_seq in Ha. rewrite A by lia. auto.
  - destruct (STRESS (base bld) && uf (cs ci) && us (cs ci))%bool eqn:ON; auto. apply rsumf_ext. intros k K. apply in_seq in K.
    rewrite C; auto; [|lia]. destruct (STRESS (base bld)); auto.
  - destruct (RESCALE bld); auto. rewrite D; auto.
Qed.

Theorem eam_run : forall s, let s' := calc s in
  (forall ci a, (ci < nconf)%nat -> (lo ci <= a < hi ci)%nat -> frc (dv s') a = frcf ci a) /\
  (forall ci, (ci < nconf)%nat -> en (dv s') ci = enf ci) /\
  (forall ci k, (ci < nconf)%nat -> (k < 6)%nat -> STRESS (base bld) = true -> str (dv s') ci k = strf ci k) /\
  (forall ci, (ci < nconf)%nat -> RESCALE bld = true -> lim s' ci = limf ci) /\
  (forall b, (b < nbd)%nat -> rsum s' b = rsumf (fun ci => rsumf (seen bld dens reach fbegin fend (cs ci) b) (seq (lo ci) (inconf (cs ci)))) (seq 0 nconf)) /\
  (NOPUNISH bld = false -> forall b g, (b < nbd)%nat -> (g < ntypes)%nat ->
     dum s' (2 * b * ntypes + g)%nat = gauge bld dF fbegin fend dummy_0 ntypes b g /\
     dum s' ((2 * b + 1) * ntypes + g)%nat = if (negb (RESCALE bld) && Nat.eqb g 0)%bool then if Rlt_dec 0 (rsum s' b) then mean natoms s' b else 0 else 0) /\
  err (dv s') = rsumf (fun ci => conf_error_e ci s') (seq 0 nconf) + punish +
    (if NOPUNISH bld then 0 else rsumf (fun k => sq (dum s' k)) (seq 0 (2 * nbd * ntypes))).
Proof.
  intros s. cbv zeta. unfold EamModel.calc_forces.
  set (s0 := mk_est _ _ _ _ _ _). set (t := for_up 0 nconf _ s0).
  assert (I : inv_e nconf s0 t).
  { unfold t. apply (for_up_inv (fun n => inv_e n s0)); [lia| |].
    - split; [intros; lia|]. split; [intros; lia|]. split; [intros; lia|]. split; [intros; lia|]. split; [auto|]. split; auto.
    - clear t. intros n t Hn (A & B & C & D & G & M & R).
      destruct (eam_config bld phi dphi in_range dens ddens reach F dF FA dFA fbegin fend fstep eweight sweight limit_0 n (cs n) (ORD n ltac:(lia)) (fun i e => TYP n i e ltac:(lia)) t)
        as (F1 & F2 & E1 & E2 & S1 & S2 & L1 & L2 & U & M' & R').
      set (t' := EamModel.config_body _ _ _ _ _ _ _ _ _ _ _ _ _ _ _ _ _ n (cs n) t) in *. clearbody t'.
      assert (FK : forall ci a, (ci < n)%nat -> (lo ci <= a < hi ci)%nat -> frc (dv t') a = frc (dv t) a).
      { intros ci a H Ha. apply F1. left. pose proof (starts cs CONT ci n H). lia. }
      split; [|split; [|split; [|split; [|split; [|split]]]]].
      + intros ci a H Ha. destruct (Nat.eq_dec ci n) as [->|N]; [auto|]. rewrite (FK ci) by (auto; lia). apply A; auto; lia.
      + intros ci H. destruct (Nat.eq_dec ci n) as [->|N]; [auto|]. rewrite E2 by auto. apply B; lia.
      + intros ci k H K ON. destruct (Nat.eq_dec ci n) as [->|N]; [auto|]. rewrite S2 by auto. apply C; auto; lia.
      + intros ci H RS. destruct (Nat.eq_dec ci n) as [->|N]; [auto|]. rewrite L2 by auto. apply D; auto; lia.
      + intros b Hb. rewrite U, G by auto. rewrite seq_S, rsumf_snoc. auto.
      + congruence.
      + rewrite seq_S, rsumf_snoc, R', R. rewrite (rsumf_ext (fun ci => conf_error_e ci t') (fun ci => conf_error_e ci t)).
        * simpl (0 + n)%nat. unfold conf_error_e at 3. rewrite E1.
          assert (Q1 : rsumf (score_f bld dphi in_range dens ddens reach F dF FA dFA fbegin fend fstep (cs n)) (seq (lo n) (inconf (cs n))) =
            rsumf (fun a => if (uf (cs n) && (negb (CONTRIB (base bld)) || contrib (cs n) a))%bool then conf_weight (cs n) * sqv (frc (dv t') a) else 0) (seq (lo n) (inconf (cs n)))).
          { apply rsumf_ext. intros a Ha. apply in_seq in Ha. unfold score_f, scored. rewrite F2 by lia. auto. }
          assert (Q2 : (if stress_on (base bld) (cs n) then rsumf (fun k => conf_weight (cs n) * sweight * sq (strf n k)) (seq 0 6) else 0) =
            (if (STRESS (base bld) && uf (cs n) && us (cs n))%bool then rsumf (fun k => conf_weight (cs n) * sweight * sq (str (dv t') n k)) (seq 0 6) else 0)).
          { unfold stress_on. destruct (STRESS (base bld) && uf (cs n) && us (cs n))%bool eqn:ON; auto. apply rsumf_ext. intros k K. apply in_seq in K. rewrite S1; auto; [lia|]. destruct (STRESS (base bld)); auto. }
          assert (Q3 : (if RESCALE bld then conf_weight (cs n) * sq (limf n) else 0) = (if RESCALE bld then conf_weight (cs n) * sq (lim t' n) else 0)).
          { destruct (RESCALE bld); auto. rewrite L1; auto. }
          rewrite Q1, Q2, Q3. ring.
        * intros ci Hci. apply in_seq in Hci. apply conf_error_ext; intros; [apply (FK ci); auto; lia|apply E2; lia|apply S2; lia|apply L2; lia]. }
  clearbody t. destruct I as (A & B & C & D & G & _ & R).
  destruct (dummy_spec bld dF fbegin fend dummy_0 ntypes natoms (add_err t punish) NT) as ((O1 & O2 & O3 & _ & _ & O6 & O7) & K1 & K2).
  set (u := dummy bld dF fbegin fend dummy_0 ntypes natoms (add_err t punish)) in *. clearbody u.
  cbn [add_err with_dv dv frc en str err lim rsum] in O1, O2, O3, O6, O7, K2.
  rewrite O1, O2, O3, O6, O7. split; [auto|]. split; [auto|]. split; [auto|]. split; [auto|]. split; [auto|]. split.
  - intros NP b g Hb Hg. destruct (K2 NP) as [K3 _]. destruct (K3 b g Hb Hg) as [-> ->]. split; auto. unfold mean. cbn [rsum add_err with_dv]. rewrite O7. auto.
  - assert (CE : forall ci, conf_error_e ci u = conf_error_e ci t) by (intros; apply conf_error_ext; intros; congruence).
    rewrite (rsumf_ext (fun ci => conf_error_e ci u) (fun ci => conf_error_e ci t)) by auto.
    destruct (NOPUNISH bld).
    + rewrite (K1 eq_refl). cbn [add_err with_dv dv err]. rewrite R. ring.
    + destruct (K2 eq_refl) as [_ ->]. rewrite R. ring.
Qed.

End Run.
