(** Angular potentials with charges: the loops of a configuration. *)
From Coq Require Import Reals ZArith List Bool Lia Lra Permutation.
From Verif Require Import Vec NbrModel NbrProof NbrProof2 LoopUtil PairModel PairProof PairSpec PairProof2 PairProof3
  ForceLoop BondProof GradProof ThreeSpec ThreeProof ThreeProof2 ThreeProof3 ThreeProof4 AddProof AddProof2 BoProof SwModel SwProof AngSpec AngModel AngProof
  ElSpec ElModel ElProof ElProof3 AeModel AeProof.
Import ListNotations.
Local Open Scope R_scope.

Lemma ae_vsumf_add : forall {A} (f g : A -> vec) l, vsumf (fun x => vadd (f x) (g x)) l = vadd (vsumf f l) (vsumf g l).
Proof. intros A f g l. apply vec_eq; unfold vsumf; cbn [vx vy vz vadd]; apply rsumf_plus. Qed.

Section Charges.
Variable bld : build.
Variable charge : nat -> R.
Variables fel gel : R -> R.
Variables dp_cut self_coef : R.
Variables (c : conf) (pos : nat -> vec) (b : box) (rcut : nat -> nat -> R) (ci : nat).
Notation lo := (cnfstart c).
Notation hi := (cnfstart c + inconf c)%nat.
Notation ent i v := (entry pos (typ c) b i (fst v) (snd v)).
Notation son := (STRESS bld && us c)%bool.
Notation cp := (coulomb_pair c pos b charge fel dp_cut).
Notation cb := (coulomb_bond c pos b charge gel dp_cut).
Notation mono := (ae_monopole bld charge fel gel dp_cut ci c).
Hypothesis FG : full_geometry c pos b rcut.
Variable L : nat -> list (nat * image).
Hypothesis HL : forall a, (lo <= a < hi)%nat -> all_neighbors c pos b rcut a (L a).

Lemma cb_sym : forall i j n, cb i (j, n) = vscale (-1) (cb j (i, neg n)).
Proof.
  intros i j n. unfold coulomb_bond, within. cbn [fst]. rewrite (dist_sym pos b i j n). destruct (Rlt_dec _ _); [|vring].
  unfold dvec. cbn [fst snd]. rewrite (displacement_neg pos b i j n). set (x := displacement pos b i j n). vring.
Qed.
(** half of the bond from both ends *)
Lemma both_ends : forall (X : nat -> nat * image -> R) a, (lo <= a < hi)%nat -> (forall i j n, X i (j, n) = - X j (i, neg n)) ->
  rsumf (fun i => rsumf (fun v => (if Nat.eqb a i then 1/2 * X i v else 0) - (if Nat.eqb (fst v) a then 1/2 * X i v else 0)) (L i)) (seq lo (inconf c)) = rsumf (X a) (L a).
Proof.
  intros X a Ha ODD. destruct (half_exists c pos b rcut FG) as (q & GEO).
  pose proof (kap_sum (with_nb c q) pos b rcut GEO L HL a Ha (fun i v => -(1/2) * X i v)) as K. cbn [with_nb cnfstart inconf] in K.
  transitivity (rsumf (fun v => - (1 / 2) * X (fst v) (a, neg (snd v)) - - (1 / 2) * X a v) (L a)).
  - rewrite <- K. apply rsumf_ext. intros i _. apply rsumf_ext. intros v _. unfold kap. rewrite (Nat.eqb_sym a i). destruct (Nat.eqb (fst v) a), (Nat.eqb i a); ring.
  - apply rsumf_ext. intros [j n] _. cbn [fst snd]. rewrite (ODD a j n). field.
Qed.
Definition cF' (i a : nat) : vec :=
  if uf c then vsub (if Nat.eqb a i then vscale (1/2) (vsum (cb i) (L i)) else v0) (vsum (fun v => if Nat.eqb (fst v) a then vscale (1/2) (cb i v) else v0) (L i)) else v0.
Definition cE' (i : nat) : R := 1/2 * rsumf (cp i) (L i).
Definition cS' (i k : nat) : R := if (Nat.ltb k 6 && son && uf c)%bool then - (1/2 * rsumf (fun v => stress_of (dvec pos b i v) (cb i v) k) (L i)) else 0.
Lemma mono_fold : forall i, (lo <= i < hi)%nat -> adds ci (fun s => fold_left (mono i) (nb c i) s) (cF' i) (cE' i) (cS' i).
Proof.
  intros i Hi. destruct (nb_full c pos b rcut FG) as (B & NB & HB & NO).
  pose proof (all_neighbors_perm c pos b rcut _ _ _ (HB i Hi) (HL i Hi)) as PM. rewrite (NB i Hi).
  pose proof (adds_fold ci (fun s v => mono i s (ent i v)) _ _ _ (B i) (fun v Hv => mono_adds bld charge fel gel dp_cut c pos b ci i v (NO i v Hi Hv))) as A.
  apply (adds_ext ci _ _ _ _ _ _ _ _ A).
  - intros s. generalize (B i) s. clear. intros l. induction l as [|v l IH]; intros s; simpl; auto.
  - intros a. unfold cF'. destruct (uf c); [|apply vsumf_zero; auto].
    assert (Q : forall h : vec -> R, (forall x y, h (vsub x y) = h x - h y) -> (forall k x, h (vscale k x) = k * h x) -> h v0 = 0 ->
      rsumf (fun v => h (vsub (if Nat.eqb a i then vscale (1/2) (cb i v) else v0) (if Nat.eqb (fst v) a then vscale (1/2) (cb i v) else v0))) (B i) =
      (if Nat.eqb a i then 1/2 * rsumf (fun v => h (cb i v)) (L i) else 0) - rsumf (fun v => h (if Nat.eqb (fst v) a then vscale (1/2) (cb i v) else v0)) (L i)).
    { intros h H1 H2 H3. rewrite (rsumf_perm _ _ _ PM), (rsumf_ext _ (fun v => (if Nat.eqb a i then 1/2 * h (cb i v) else 0) - h (if Nat.eqb (fst v) a then vscale (1/2) (cb i v) else v0))).
      - rewrite rsumf_minus, rsumf_if, rsumf_scale. auto.
      - intros v _. rewrite H1. f_equal. destruct (Nat.eqb a i); auto. }
    apply vec_eq; unfold vsumf; cbn [vx vy vz].
    + rewrite (Q vx); auto. destruct (Nat.eqb a i); reflexivity.
    + rewrite (Q vy); auto. destruct (Nat.eqb a i); reflexivity.
    + rewrite (Q vz); auto. destruct (Nat.eqb a i); reflexivity.
  - unfold cE'. rewrite rsumf_scale, (rsumf_perm _ _ _ PM). auto.
  - intros k. unfold cS'. destruct (Nat.ltb k 6 && son && uf c)%bool; [|apply rsumf_zero; auto].
    rewrite (rsumf_perm _ _ _ PM), (rsumf_ext _ (fun v => - (1/2) * stress_of (dvec pos b i v) (cb i v) k)); [|intros; ring]. rewrite rsumf_scale. ring.
Qed.
Lemma cF_sum : forall a, vsumf (fun i => cF' i a) (seq lo (inconf c)) =
  if inside c a then (if uf c then coulomb_force c pos b charge gel dp_cut L a else v0) else v0.
Proof.
  intros a. unfold cF'. destruct (uf c).
  2: { rewrite vsumf_zero by auto. destruct (inside c a); auto. }
  destruct (inside c a) eqn:I.
  - apply inside_true in I.
    assert (Q : forall h : vec -> R, (forall x y, h (vsub x y) = h x - h y) -> (forall k x, h (vscale k x) = k * h x) -> h v0 = 0 ->
      (forall l f, h (@vsum (nat * image) f l) = rsumf (fun v => h (f v)) l) ->
      rsumf (fun i => h (vsub (if Nat.eqb a i then vscale (1/2) (vsum (cb i) (L i)) else v0) (vsum (fun v => if Nat.eqb (fst v) a then vscale (1/2) (cb i v) else v0) (L i)))) (seq lo (inconf c)) =
      h (vsum (cb a) (L a))).
    { intros h H1 H2 H3 H4. rewrite H4, <- (both_ends (fun i v => h (cb i v)) a I).
      - apply rsumf_ext. intros i _. rewrite H1, H4, rsumf_minus, rsumf_if, rsumf_scale. f_equal.
        + destruct (Nat.eqb a i); auto. rewrite H2, H4. auto.
        + apply rsumf_ext. intros v _. destruct (Nat.eqb (fst v) a); auto.
      - intros i j n. rewrite cb_sym, H2. ring. }
    unfold coulomb_force. apply vec_eq; unfold vsumf; cbn [vx vy vz]; [apply (Q vx)|apply (Q vy)|apply (Q vz)]; auto.
  - apply vsumf_zero. intros i Hi. apply in_seq in Hi.
    assert (NI : ~ (lo <= a < hi)%nat) by (intros X; apply inside_true in X; congruence).
    destruct (Nat.eqb_spec a i); [lia|].
    assert (Z : vsum (fun v => if Nat.eqb (fst v) a then vscale (1/2) (cb i v) else v0) (L i) = v0).
    { change v0 with (vsum (fun _ : nat * image => v0) []) at 2. rewrite (EamProof3.vsum_ext _ (fun _ => v0)).
      - apply vec_eq; unfold vsum; cbn [vx vy vz]; rewrite rsumf_zero; auto.
      - intros [j n0] V. apply (HL i ltac:(lia)) in V. cbn [fst]. destruct (Nat.eqb_spec j a); [lia|auto]. }
    rewrite Z. vring.
Qed.
Lemma cE_sum : rsumf cE' (seq lo (inconf c)) = coulomb_energy c pos b charge fel dp_cut L.
Proof. unfold cE', coulomb_energy. apply rsumf_scale. Qed.
Lemma cS_sum : forall k, rsumf (fun i => cS' i k) (seq lo (inconf c)) = if (Nat.ltb k 6 && son && uf c)%bool then coulomb_virial c pos b charge gel dp_cut L k else 0.
Proof.
  intros k. unfold cS', coulomb_virial. destruct (Nat.ltb k 6 && son && uf c)%bool; [|apply rsumf_zero; auto].
  rewrite (rsumf_ext _ (fun i => - (1/2) * rsumf (fun v => stress_of (dvec pos b i v) (cb i v) k) (L i))) by (intros; ring). rewrite rsumf_scale. ring.
Qed.

(** ** self energies, added between the scoring of the forces *)
Lemma self_adds : adds ci (for_up lo hi (ae_self charge self_coef ci c)) (fun _ => v0) (- charge_self c charge self_coef) (fun _ => 0).
Proof.
  eapply adds_ext; [apply (adds_up ci (ae_self charge self_coef ci c) (fun _ _ => v0) (fun i => - (self_coef * (charge (typ c i) * charge (typ c i)))) (fun _ _ => 0))| | | |].
  - intros i Hi. unfold ae_self. set (q := charge (typ c i)). destruct (nz_cases q) as [[-> Z]|[-> _]].
    + eapply adds_ext; [apply adds_id|auto|auto| |auto]. rewrite Z. ring.
    + constructor; intros; unfold add_en; cbn [frc en str err]; auto; [vring| |].
      * unfold setf. destruct (Nat.eqb_spec d ci) as [->|]; ring.
      * destruct (Nat.eqb d ci); ring.
  - auto.
  - intros a. apply vsumf_zero. auto.
  - unfold charge_self. rewrite (rsumf_ext _ (fun i => -1 * (self_coef * (charge (typ c i) * charge (typ c i))))) by (intros; ring). rewrite rsumf_scale. ring.
  - intros k. apply rsumf_zero. auto.
Qed.
Lemma third_split : forall n s, for_up lo (lo + n) (ae_third bld charge self_coef ci c) s =
  for_up lo (lo + n) (score_atom bld c) (for_up lo (lo + n) (ae_self charge self_coef ci c) s).
Proof.
  assert (O : forall i k s, ae_self charge self_coef ci c i (score_atom bld c k s) = score_atom bld c k (ae_self charge self_coef ci c i s)).
  { intros i k s. unfold ae_self, score_atom, add_en. destruct (uf c); [|auto]. destruct (nz (charge (typ c i))); reflexivity. }
  assert (O' : forall i n s, ae_self charge self_coef ci c i (for_up lo (lo + n) (score_atom bld c) s) = for_up lo (lo + n) (score_atom bld c) (ae_self charge self_coef ci c i s)).
  { intros i n. induction n; intros s.
    - unfold for_up. rewrite Nat.add_0_r, Nat.sub_diag. reflexivity.
    - rewrite <- plus_n_Sm. rewrite !for_up_S by lia. rewrite O, IHn. auto. }
  intros n. induction n; intros s.
  - unfold for_up. rewrite Nat.add_0_r, Nat.sub_diag. reflexivity.
  - rewrite <- plus_n_Sm. rewrite !for_up_S by lia. rewrite IHn. unfold ae_third. rewrite O'. auto.
Qed.
End Charges.

Section Loops.
Variable bld : build.
Variables phi dphi : nat -> nat -> R -> R.
Variable in0 : nat -> nat -> R -> bool.
Variables f df : nat -> nat -> R -> R.
Variable in1 : nat -> nat -> R -> bool.
Variables g dg : nat -> R -> R.
Variable charge : nat -> R.
Variables fel gel : R -> R.
Variables dp_cut self_coef : R.
Hypothesis DS : forall s t r, dphi s t r = dphi t s r.
Hypothesis IS : forall s t r, in0 s t r = in0 t s r.
Variables (c : conf) (pos : nat -> vec) (b : box) (rcut : nat -> nat -> R) (ci : nat).
Notation lo := (cnfstart c).
Notation hi := (cnfstart c + inconf c)%nat.
Notation son := (STRESS bld && us c)%bool.
Hypothesis FG : full_geometry c pos b rcut.
Variable L : nat -> list (nat * image).
Hypothesis HL : forall a, (lo <= a < hi)%nat -> all_neighbors c pos b rcut a (L a).
Notation h := (ang f in1 g).
Notation h1 := (ang1 f df in1 g).
Notation hc := (angc f in1 dg).
Definition ae_loops (s : dev) : dev :=
  for_up lo hi (ae_self charge self_coef ci c) (for_up lo hi (ae_atom bld phi dphi in0 f df in1 g dg charge fel gel dp_cut ci c) s).
Theorem ae_loops_adds : adds ci ae_loops
  (fun a => if inside c a then (if uf c then vadd (vadd (pair_force c pos b dphi in0 L a) (three_force c pos b h1 hc L a)) (coulomb_force c pos b charge gel dp_cut L a) else v0) else v0)
  (pair_energy c pos b phi in0 L + three_energy c pos b h L + coulomb_energy c pos b charge fel dp_cut L - charge_self c charge self_coef)
  (fun k => if (Nat.ltb k 6 && son && uf c)%bool then pair_virial c pos b dphi in0 L k + three_virial c pos b h1 hc L k + coulomb_virial c pos b charge gel dp_cut L k else 0).
Proof.
  set (at0 := AngModel.atom_body bld phi dphi in0 f df in1 g dg ci c).
  assert (PA : forall i, (lo <= i < hi)%nat -> adds ci (at0 i) (cF (at0 i)) (cE ci (at0 i)) (cS ci (at0 i)) /\
    adds ci (ae_atom bld phi dphi in0 f df in1 g dg charge fel gel dp_cut ci c i) (fun a => vadd (cF (at0 i) a) (cF' charge gel dp_cut c pos b L i a))
      (cE ci (at0 i) + cE' charge fel dp_cut c pos b L i) (fun k => cS ci (at0 i) k + cS' bld charge gel dp_cut c pos b L i k)).
  { intros i Hi. apply (atom_parts bld phi dphi in0 f df in1 g dg charge fel gel dp_cut c pos b rcut ci FG i Hi).
    apply (mono_fold bld charge fel gel dp_cut c pos b rcut ci FG L HL i Hi). }
  pose proof (adds_up ci at0 _ _ _ lo (inconf c) (fun i Hi => proj1 (PA i Hi))) as A1.
  pose proof (adds_up ci _ _ _ _ lo (inconf c) (fun i Hi => proj2 (PA i Hi))) as A2.
  pose proof (ang_atoms_adds bld phi dphi in0 f df in1 g dg DS IS c pos b rcut ci FG L HL) as A3.
  destruct (adds_unique _ _ _ _ _ A1) as (X1 & X2 & X3). destruct (adds_unique _ _ _ _ _ A3) as (Y1 & Y2 & Y3).
  pose proof (adds_comp ci _ _ _ _ _ _ _ _ A2 (self_adds charge self_coef c ci)) as A4.
  eapply adds_ext; [exact A4|intros; reflexivity| | |].
  - intros a. cbv beta. rewrite ae_vsumf_add, X1.
    rewrite (cF_sum charge gel dp_cut c pos b rcut FG L HL a). fold at0 in Y1. rewrite <- Y1. destruct (inside c a), (uf c); vring.
  - rewrite rsumf_plus, X2, cE_sum. fold at0 in Y2. rewrite <- Y2. ring.
  - intros k. cbv beta. rewrite rsumf_plus, X3, cS_sum. fold at0 in Y3. rewrite <- Y3. destruct (Nat.ltb k 6 && son && uf c)%bool; ring.
Qed.
End Loops.

(** ** The frame: forces are scored if used, stresses always *)
Definition all_used (c : conf) : conf :=
  mk_conf (cnfstart c) (inconf c) true true (conf_weight c) (conf_vol c) (nb c) (typ c) (contrib c) (absforce c) (force_0 c) (energy_0 c) (stress_0 c).
Section Frame.
Variables (bld : build) (eweight sweight : R).
Section Config.
Variables (ci : nat) (c : conf) (atoms : dev -> dev) (F : nat -> vec) (E : R) (ST : nat -> R).
Hypothesis AD : adds ci atoms F E ST.
Notation lo := (cnfstart c).
Notation hi := (cnfstart c + inconf c)%nat.
Hypothesis OUT : forall a, (a < lo)%nat \/ (hi <= a)%nat -> F a = v0.
Definition hconfig (s : dev) : dev :=
  score_stress_all bld sweight ci c (score_energy eweight ci c
    (for_up lo hi (score_atom bld c) (atoms (for_up lo hi (reset_atom c) (reset_conf bld (fun _ => 0) ci c s))))).
Definition hF (a : nat) : vec :=
  let f := vadd (if uf c then vscale (-1) (force_0 c a) else v0) (F a) in if uf c then scl bld c a f else f.
Definition hE : R := E / INR (inconf c) - energy_0 c.
Definition hS (k : nat) : R := ST k / conf_vol c - stress_0 c k.
Definition hX : R := rsumf (fun a => if scored bld c a then conf_weight c * sqv (hF a) else 0) (seq lo (inconf c)) +
  conf_weight c * eweight * sq hE + (if STRESS bld then rsumf (fun k => conf_weight c * sweight * sq (hS k)) (seq 0 6) else 0).
Theorem hconfig_closed : forall s,
  (forall a, (a < lo)%nat \/ (hi <= a)%nat -> frc (hconfig s) a = frc s a) /\
  (forall a, (lo <= a < hi)%nat -> frc (hconfig s) a = hF a) /\
  en (hconfig s) ci = hE /\ (forall d, d <> ci -> en (hconfig s) d = en s d) /\
  (forall k, (k < 6)%nat -> STRESS bld = true -> str (hconfig s) ci k = hS k) /\
  (forall d k, d <> ci -> str (hconfig s) d k = str s d k) /\
  err (hconfig s) = err s + hX.
Proof.
  intros s. unfold hconfig. set (s1 := reset_conf bld (fun _ => 0) ci c s).
  destruct (reset_spec c s1) as (A1 & A2 & A3 & A4). set (s2 := for_up lo hi (reset_atom c) s1) in *.
  destruct AD as [B1 B2 B3 B4]. set (s3 := atoms s2).
  destruct (score_loop bld c s3) as (C1 & C2 & C3 & C4). set (s4 := for_up lo hi (score_atom bld c) s3) in *.
  assert (TL : score_stress_all bld sweight ci c (score_energy eweight ci c s4) = score_stress bld sweight ci (all_used c) (score_energy eweight ci (all_used c) s4)).
  { unfold score_stress_all, score_stress. cbn [all_used uf us]. rewrite !andb_true_r. reflexivity. }
  rewrite TL.
  destruct (tail_spec bld eweight sweight ci (all_used c) s4) as (D1 & D2 & D3 & D4 & D5).
  set (s5 := score_stress bld sweight ci (all_used c) (score_energy eweight ci (all_used c) s4)) in *.
  assert (ON : stress_on bld (all_used c) = STRESS bld) by (unfold stress_on; cbn [all_used uf us]; rewrite !andb_true_r; auto).
  rewrite ON in *. cbn [all_used inconf energy_0 conf_weight conf_vol stress_0] in D2, D4, D5.
  assert (FR : forall a, (lo <= a < hi)%nat -> frc s5 a = hF a).
  { intros a Ha. rewrite D1, C1. unfold s3. rewrite B1, A1. destruct (Nat.leb_spec lo a), (Nat.ltb_spec a hi); try lia. cbn [andb]. unfold hF. destruct (uf c); auto. }
  assert (EN : en s5 ci = hE).
  { rewrite D2, C2. unfold s3. rewrite B2, A2, Nat.eqb_refl. unfold s1, reset_conf, hE. cbn [en]. rewrite setf_eq. unfold Rdiv. ring. }
  assert (STR : forall k, (k < 6)%nat -> STRESS bld = true -> str s5 ci k = hS k).
  { intros k K SO. rewrite D4, Nat.eqb_refl, C3. unfold s3. rewrite B3, Nat.eqb_refl, A3. unfold s1, reset_conf, hS. cbn [str]. rewrite SO, setf_eq.
    destruct (Nat.ltb_spec k 6); [|lia]. cbn [andb]. unfold Rdiv; ring. }
  split; [|split; [auto|split; [auto|split; [|split; [auto|split]]]]].
  - intros a Ha. rewrite D1, C1. unfold s3. rewrite B1, A1, (OUT a Ha). unfold s1, reset_conf. cbn [frc].
    destruct (Nat.leb_spec lo a), (Nat.ltb_spec a hi); try lia; cbn [andb]; vring.
  - intros d D. rewrite D3, C2 by auto. unfold s3. rewrite B2, A2. unfold s1, reset_conf. cbn [en]. rewrite setf_neq by auto. destruct (Nat.eqb_spec d ci); [contradiction|ring].
  - intros d k D. rewrite D4. destruct (Nat.eqb_spec d ci); [contradiction|]. cbn [andb]. rewrite C3. unfold s3. rewrite B3, A3. destruct (Nat.eqb_spec d ci); [contradiction|].
    unfold s1, reset_conf. cbn [str]. destruct (STRESS bld); rewrite ?setf_neq by auto; ring.
  - rewrite D5, EN, C4. unfold s3. rewrite B4, A4. change (err s1) with (err s). unfold hX. rewrite !Rplus_assoc. f_equal. f_equal; [|f_equal].
    + apply rsumf_ext. intros a Ha. apply in_seq in Ha. destruct (scored bld c a); auto. rewrite <- (FR a) by lia. rewrite D1. auto.
    + destruct (STRESS bld) eqn:SO; auto. apply rsumf_ext. intros k K. apply in_seq in K. rewrite STR; auto; lia.
Qed.
End Config.
Variables (punish : R) (cs : nat -> conf) (nconf : nat).
Hypothesis CONT : forall ci, cnfstart (cs (S ci)) = (cnfstart (cs ci) + inconf (cs ci))%nat.
Variable atoms : nat -> dev -> dev.
Variables (F : nat -> nat -> vec) (E : nat -> R) (ST : nat -> nat -> R).
Hypothesis AD : forall ci, (ci < nconf)%nat -> adds ci (atoms ci) (F ci) (E ci) (ST ci).
Hypothesis OUT : forall ci a, (ci < nconf)%nat -> (a < cnfstart (cs ci))%nat \/ (cnfstart (cs ci) + inconf (cs ci) <= a)%nat -> F ci a = v0.
Definition hroutine (s : dev) : dev :=
  let s := for_up 0 nconf (fun ci => hconfig ci (cs ci) (atoms ci)) (mk_dev (frc s) (en s) (str s) 0) in
  mk_dev (frc s) (en s) (str s) (err s + punish).
Theorem hroutine_closed : forall s, let s' := hroutine s in
  (forall ci a, (ci < nconf)%nat -> (cnfstart (cs ci) <= a < cnfstart (cs ci) + inconf (cs ci))%nat -> frc s' a = hF (cs ci) (F ci) a) /\
  (forall ci, (ci < nconf)%nat -> en s' ci = hE (cs ci) (E ci)) /\
  (forall ci k, (ci < nconf)%nat -> (k < 6)%nat -> STRESS bld = true -> str s' ci k = hS (cs ci) (ST ci) k) /\
  err s' = rsumf (fun ci => hX (cs ci) (F ci) (E ci) (ST ci)) (seq 0 nconf) + punish.
Proof.
  intros s. unfold hroutine. cbv zeta. cbn [frc en str err].
  destruct (all_confs (fun ci => hconfig ci (cs ci) (atoms ci)) cs nconf CONT
    (fun ci => hF (cs ci) (F ci)) (fun ci => hE (cs ci) (E ci)) (fun ci => hS (cs ci) (ST ci)) (fun ci => hX (cs ci) (F ci) (E ci) (ST ci)) (STRESS bld)
    (fun ci t Hc => hconfig_closed ci (cs ci) (atoms ci) (F ci) (E ci) (ST ci) (AD ci Hc) (fun a => OUT ci a Hc) t) (mk_dev (frc s) (en s) (str s) 0)) as (A & B & C & D).
  split; [auto|]. split; [auto|]. split; [auto|]. rewrite D. cbn [err]. ring.
Qed.
End Frame.
