(** The electrostatic force routine: values, error sum, dipoles. *)
From Coq Require Import Reals ZArith List Bool Lia Lra.
From Verif Require Import Vec NbrModel NbrProof NbrProof2 LoopUtil PairModel PairProof PairSpec PairProof2 PairProof3 BondProof EamProof3 ForceLoop
  AddProof AddProof2 BoProof FuncModel ElSpec ElModel ElProof ElProof2 ElProof3 ElProof4 ElProof5.
Import ListNotations.
Local Open Scope R_scope.

(** only the dipoles of the configuration matter *)
Section Same.
Variables (c : conf) (pos : nat -> vec) (bx : box) (rcut : nat -> nat -> R).
Notation lo := (cnfstart c).
Notation hi := (cnfstart c + inconf c)%nat.
Variable L : nat -> list (nat * image).
Hypothesis HL : forall a, (lo <= a < hi)%nat -> all_neighbors c pos bx rcut a (L a).
Variables charge alpha : nat -> R.
Variables dpb dpc : nat -> nat -> R.
Variables gel ggel : R -> R.
Variables dp_cut : R.
Lemma in_L : forall a v, (lo <= a < hi)%nat -> In v (L a) -> (lo <= fst v < hi)%nat.
Proof. intros a [j n] Ha V. destruct (HL a Ha) as [_ IFF]. apply IFF in V. cbn [fst]. lia. Qed.
Section Two.
Variables p p' : nat -> vec.
Hypothesis E : forall a, (lo <= a < hi)%nat -> p a = p' a.
Lemma mom_same : forall a, (lo <= a < hi)%nat -> mom c alpha p a = mom c alpha p' a.
Proof. intros a Ha. unfold mom. rewrite E; auto. Qed.
Lemma bond_same : forall a v, (lo <= a < hi)%nat -> In v (L a) ->
  dip_bond c pos bx charge gel ggel dp_cut alpha dpb dpc p a v = dip_bond c pos bx charge gel ggel dp_cut alpha dpb dpc p' a v.
Proof. intros a v Ha V. unfold dip_bond, mixed_bond, dipole_bond, lever. cbv zeta. rewrite (mom_same a Ha), (mom_same (fst v) (in_L a v Ha V)). auto. Qed.
Lemma pair_same : forall a v, (lo <= a < hi)%nat -> In v (L a) ->
  dip_pair c pos bx charge gel dp_cut alpha dpb dpc p a v = dip_pair c pos bx charge gel dp_cut alpha dpb dpc p' a v.
Proof. intros a v Ha V. unfold dip_pair, mixed_pair, dipole_pair, lever. cbv zeta. rewrite (mom_same a Ha), (mom_same (fst v) (in_L a v Ha V)). auto. Qed.
Lemma force_same : forall a, (lo <= a < hi)%nat ->
  dip_force c pos bx charge gel ggel dp_cut L alpha dpb dpc p a = dip_force c pos bx charge gel ggel dp_cut L alpha dpb dpc p' a.
Proof. intros a Ha. unfold dip_force. apply vsum_ext. intros v V. apply bond_same; auto. Qed.
Lemma energy_same : dip_energy c pos bx charge gel dp_cut L alpha dpb dpc p = dip_energy c pos bx charge gel dp_cut L alpha dpb dpc p'.
Proof.
  unfold dip_energy. f_equal. apply rsumf_ext. intros a Ha. apply in_seq in Ha. apply rsumf_ext. intros v V. apply pair_same; auto; lia.
Qed.
Lemma self_same : dip_self c alpha p = dip_self c alpha p'.
Proof. unfold dip_self. apply rsumf_ext. intros a Ha. apply in_seq in Ha. rewrite E by lia. auto. Qed.
Lemma virial_same : forall k, dip_virial c pos bx charge gel ggel dp_cut L alpha dpb dpc p k = dip_virial c pos bx charge gel ggel dp_cut L alpha dpb dpc p' k.
Proof.
  intros k. unfold dip_virial. do 2 f_equal. apply rsumf_ext. intros a Ha. apply in_seq in Ha. apply rsumf_ext. intros v V. rewrite (bond_same a v); auto; lia.
Qed.
End Two.
Variable dp_mix : R.
Notation IT := (iterate c pos bx charge gel dp_cut L alpha dpb dpc dp_mix).
Notation SM := (step_moment c pos bx charge gel dp_cut L alpha dpb dpc dp_mix).
Notation SC := (step_change c pos bx charge gel dp_cut L alpha dpb dpc dp_mix).
Lemma iterate_same : forall e e', (forall a, (lo <= a < hi)%nat -> alpha (typ c a) <> 0 -> e a = e' a) -> forall k a, (lo <= a < hi)%nat -> alpha (typ c a) <> 0 ->
  fst (IT e k) a = fst (IT e' k) a /\ snd (IT e k) a = snd (IT e' k) a /\ SM e k a = SM e' k a.
Proof.
  intros e e' EE. induction k; intros a Ha NZ.
  - cbn [iterate fst snd]. split; [auto|]. split; [auto|]. unfold step_moment, moment_of, mixed. cbn [iterate fst]. rewrite EE; auto.
  - assert (A : fst (IT e (S k)) a = fst (IT e' (S k)) a).
    { cbn [iterate fst]. apply (field_ext alpha gel dp_cut c pos bx rcut L HL); auto. intros b Hb NB. apply (IHk b Hb NB). }
    assert (B : snd (IT e (S k)) a = snd (IT e' (S k)) a) by (cbn [iterate snd]; apply IHk; auto).
    split; [auto|]. split; [auto|]. unfold step_moment, moment_of, mixed. rewrite A, B. auto.
Qed.
Lemma change_same : forall e e', (forall a, (lo <= a < hi)%nat -> alpha (typ c a) <> 0 -> e a = e' a) -> forall k, SC e k = SC e' k.
Proof.
  intros e e' EE k. unfold step_change. do 2 f_equal. apply rsumf_ext. intros a Ha. apply in_seq in Ha. unfold zero. destruct (Req_EM_T (alpha (typ c a)) 0) as [|NZ]; auto.
  destruct (iterate_same e e' EE k a ltac:(lia) NZ) as (-> & _ & _). destruct (iterate_same e e' EE (S k) a ltac:(lia) NZ) as (-> & _ & _). auto.
Qed.
End Same.

Section Routine.
Variable bld : build.
Variable DIPOLE : bool.
Variables phi dphi : nat -> nat -> R -> R.
Variable in_range : nat -> nat -> R -> bool.
Variables charge alpha : nat -> R.
Variables dpb dpc : nat -> nat -> R.
Variables fel gel ggel : R -> R.
Variables dp_cut dp_tol dp_mix self_coef eweight sweight punish : R.
Variables (cs : nat -> conf) (nconf : nat).
Hypothesis CONT : forall ci, cnfstart (cs (S ci)) = (cnfstart (cs ci) + inconf (cs ci))%nat.
Hypothesis PS : forall s t r, phi s t r = phi t s r.
Hypothesis DS : forall s t r, dphi s t r = dphi t s r.
Hypothesis IS : forall s t r, in_range s t r = in_range t s r.
Hypothesis BS : forall s t, dpb s t = dpb t s.
Hypothesis CS : forall s t, dpc s t = dpc t s.
Variables (pos : nat -> vec) (bx : nat -> box) (rcut : nat -> nat -> R).
Hypothesis GEO : forall ci, (ci < nconf)%nat -> geometry (cs ci) pos (bx ci) rcut.
Variable L : nat -> nat -> list (nat * image).
Hypothesis HL : forall ci a, (ci < nconf)%nat -> (cnfstart (cs ci) <= a < cnfstart (cs ci) + inconf (cs ci))%nat ->
  all_neighbors (cs ci) pos (bx ci) rcut a (L ci a).
Notation lo ci := (cnfstart (cs ci)).
Notation hi ci := (cnfstart (cs ci) + inconf (cs ci))%nat.
Notation calc := (calc_forces bld DIPOLE phi dphi in_range charge alpha dpb dpc fel gel ggel dp_cut dp_tol dp_mix self_coef eweight sweight punish cs nconf).
Notation DI n d := (dips DIPOLE charge alpha dpb dpc gel dp_cut dp_tol dp_mix cs n d).
Notation NX := (next DIPOLE charge alpha dpb dpc gel dp_cut dp_tol dp_mix).
Notation EF ci p := (eforce (cs ci) pos (bx ci) (L ci) DIPOLE dphi in_range charge alpha dpb dpc gel ggel dp_cut p).
Notation EE ci p := (eenergy (cs ci) pos (bx ci) (L ci) DIPOLE phi in_range charge alpha dpb dpc fel gel dp_cut self_coef p).
Notation EV ci p := (evirial (cs ci) pos (bx ci) (L ci) DIPOLE dphi in_range charge alpha dpb dpc gel ggel dp_cut p).

Lemma later : forall ci ck, (ci < ck)%nat -> (hi ci <= lo ck)%nat.
Proof. intros ci ck H. induction H; [rewrite CONT; lia|]. rewrite CONT. lia. Qed.
Lemma next_frame : forall ci d, (ci < nconf)%nat -> same_out (cs ci) d (NX (cs ci) d).
Proof.
  intros ci d H. unfold next. destruct DIPOLE; [|intros a _; auto].
  destruct (dipoles_spec charge alpha dpb dpc gel dp_cut dp_tol dp_mix (cs ci) pos (bx ci) rcut (GEO ci H) (L ci) (fun a => HL ci a H) BS CS d) as (k & _ & _ & X & _). exact X.
Qed.
Lemma dips_after : forall n ci d a, (ci < n)%nat -> (n <= nconf)%nat -> (lo ci <= a < hi ci)%nat ->
  p_ind (DI n d) a = p_ind (DI (S ci) d) a /\ E_ind (DI n d) a = E_ind (DI (S ci) d) a.
Proof.
  intros n ci d a H. induction H; intros Hn Ha; auto. rewrite dips_S. destruct (IHle ltac:(lia) Ha) as [<- <-].
  destruct (next_frame m (DI m d) ltac:(lia) a) as (_ & _ & A & _ & B); auto. apply rng_false. pose proof (later ci m ltac:(lia)). lia.
Qed.
Lemma dips_before : forall n ci d a, (n <= ci)%nat -> (ci < nconf)%nat -> (lo ci <= a < hi ci)%nat ->
  p_ind (DI n d) a = p_ind d a /\ E_ind (DI n d) a = E_ind d a.
Proof.
  induction n; intros ci d a H Hn Ha; auto. rewrite dips_S. destruct (IHn ci d a ltac:(lia) Hn Ha) as [<- <-].
  destruct (next_frame n (DI n d) ltac:(lia) a) as (_ & _ & A & _ & B); auto. apply rng_false. pose proof (later n ci ltac:(lia)). lia.
Qed.

(** the dipoles *)
Theorem el_dipoles : DIPOLE = true -> forall s, let s' := calc s in forall ci, (ci < nconf)%nat -> let c := cs ci in
  exists k, (k <= 51)%nat /\
  (forall j, (j < k)%nat -> ~ stops c pos (bx ci) charge gel dp_cut (L ci) alpha dpb dpc dp_tol dp_mix (E_ind (edp s)) j) /\
  stops c pos (bx ci) charge gel dp_cut (L ci) alpha dpb dpc dp_tol dp_mix (E_ind (edp s)) k /\
  forall a, (cnfstart c <= a < cnfstart c + inconf c)%nat -> alpha (typ c a) <> 0 ->
  (given_up c pos (bx ci) charge gel dp_cut (L ci) alpha dpb dpc dp_mix (E_ind (edp s)) k ->
     p_ind (edp s') a = moment_of c pos (bx ci) charge gel dp_cut (L ci) alpha dpb dpc (fun _ => v0) a /\
     E_ind (edp s') a = static_field c pos (bx ci) charge gel dp_cut (L ci) a) /\
  (~ given_up c pos (bx ci) charge gel dp_cut (L ci) alpha dpb dpc dp_mix (E_ind (edp s)) k ->
     p_ind (edp s') a = step_moment c pos (bx ci) charge gel dp_cut (L ci) alpha dpb dpc dp_mix (E_ind (edp s)) k a /\
     E_ind (edp s') a = dipole_field c pos (bx ci) gel dp_cut (L ci) alpha (p_ind (edp s')) a).
Proof.
  intros DD s s' ci H c. set (d := DI ci (edp s)).
  destruct (dipoles_spec charge alpha dpb dpc gel dp_cut dp_tol dp_mix c pos (bx ci) rcut (GEO ci H) (L ci) (fun a => HL ci a H) BS CS d) as (k & K1 & K2 & K3 & K4 & K5 & K6 & K7 & _).
  assert (EQ : forall a, (cnfstart c <= a < cnfstart c + inconf c)%nat -> alpha (typ c a) <> 0 -> E_ind d a = E_ind (edp s) a).
  { intros a Ha _. apply (dips_before ci ci (edp s) a); auto. }
  pose proof (change_same c pos (bx ci) rcut (L ci) (fun a => HL ci a H) charge alpha dpb dpc gel dp_cut dp_mix _ _ EQ) as CH.
  assert (ED : forall a, (cnfstart c <= a < cnfstart c + inconf c)%nat ->
    p_ind (edp s') a = p_ind (dipoles charge alpha dpb dpc gel dp_cut dp_tol dp_mix c d) a /\ E_ind (edp s') a = E_ind (dipoles charge alpha dpb dpc gel dp_cut dp_tol dp_mix c d) a).
  { intros a Ha. unfold s'. rewrite el_calc_eq. cbn [edp]. destruct (dips_after nconf ci (edp s) a H ltac:(lia) Ha) as [-> ->]. rewrite dips_S. fold d. unfold next. rewrite DD. auto. }
  assert (GU : forall j, given_up c pos (bx ci) charge gel dp_cut (L ci) alpha dpb dpc dp_mix (E_ind d) j <-> given_up c pos (bx ci) charge gel dp_cut (L ci) alpha dpb dpc dp_mix (E_ind (edp s)) j).
  { intros j. unfold given_up. rewrite CH. tauto. }
  assert (STO : forall j, stops c pos (bx ci) charge gel dp_cut (L ci) alpha dpb dpc dp_tol dp_mix (E_ind d) j <-> stops c pos (bx ci) charge gel dp_cut (L ci) alpha dpb dpc dp_tol dp_mix (E_ind (edp s)) j).
  { intros j. unfold stops. rewrite CH, GU. tauto. }
  exists k. split; [auto|]. split; [intros j J; rewrite <- STO; auto|]. split; [apply STO; auto|].
  intros a Ha NZ. destruct (ED a Ha) as [-> ->]. split.
  - intros G. apply GU in G. exact (K6 G a Ha NZ).
  - intros G. rewrite <- GU in G. destruct (K7 G a Ha NZ) as [-> ->]. split.
    + apply (iterate_same c pos (bx ci) rcut (L ci) (fun a => HL ci a H) charge alpha dpb dpc gel dp_cut dp_mix _ _ EQ k a Ha NZ).
    + apply (field_ext alpha gel dp_cut c pos (bx ci) rcut (L ci) (fun a => HL ci a H)); auto. intros b Hb NB. destruct (ED b Hb) as [-> _]. destruct (K7 G b Hb NB) as [-> _]. auto.
Qed.
(** dipoles of atoms that cannot be polarised are not touched *)
Theorem el_unpolar : forall s, let s' := calc s in forall ci a, (ci < nconf)%nat -> (lo ci <= a < hi ci)%nat -> alpha (typ (cs ci) a) = 0 -> p_ind (edp s') a = p_ind (edp s) a.
Proof.
  intros s s' ci a H Ha Z. unfold s'. rewrite el_calc_eq. cbn [edp]. destruct (dips_after nconf ci (edp s) a H ltac:(lia) Ha) as [-> _]. rewrite dips_S.
  destruct (dips_before ci ci (edp s) a ltac:(lia) H Ha) as [<- _]. set (d := DI ci (edp s)). clearbody d. unfold next. destruct DIPOLE; auto.
  destruct (dipoles_spec charge alpha dpb dpc gel dp_cut dp_tol dp_mix (cs ci) pos (bx ci) rcut (GEO ci H) (L ci) (fun a => HL ci a H) BS CS d) as (k & _ & _ & _ & _ & _ & _ & _ & K). apply K; auto.
Qed.

Section Charged.
Hypothesis AC : forall ci, (ci < nconf)%nat -> DIPOLE = true -> all_charged charge alpha (cs ci).
Definition rF (s : elst) (ci : nat) := eF (cs ci) pos (bx ci) (L ci) DIPOLE dphi in_range charge alpha dpb dpc gel ggel dp_cut (p_ind (DI (S ci) (edp s))).
Definition rE (s : elst) (ci : nat) := EE ci (p_ind (DI (S ci) (edp s))).
Definition rS (s : elst) (ci : nat) := eS (cs ci) pos (bx ci) (L ci) bld DIPOLE dphi in_range charge alpha dpb dpc gel ggel dp_cut (p_ind (DI (S ci) (edp s))).
Notation loop s ci := (eloops bld DIPOLE phi dphi in_range charge alpha dpb dpc fel gel ggel dp_cut self_coef (p_ind (DI (S ci) (edp s))) ci (cs ci)).
Lemma r_adds : forall s ci, (ci < nconf)%nat -> adds ci (loop s ci) (rF s ci) (rE s ci) (rS s ci).
Proof. intros s ci H. apply (eloops_adds (cs ci) pos (bx ci) rcut (GEO ci H) (L ci) (fun a => HL ci a H)); auto. Qed.
Lemma r_out : forall s ci a, (ci < nconf)%nat -> (a < lo ci)%nat \/ (hi ci <= a)%nat -> rF s ci a = v0.
Proof. intros s ci a _ O. unfold rF, eF, inr. destruct (Nat.leb_spec (lo ci) a), (Nat.ltb_spec a (hi ci)); cbn [andb]; auto; lia. Qed.
Lemma final_p : forall s ci a, (ci < nconf)%nat -> (lo ci <= a < hi ci)%nat -> p_ind (DI (S ci) (edp s)) a = p_ind (edp (calc s)) a.
Proof. intros s ci a H Ha. rewrite el_calc_eq. cbn [edp]. destruct (dips_after nconf ci (edp s) a H ltac:(lia) Ha) as [-> _]. auto. Qed.

Theorem el_values : forall s, let s' := calc s in let v := edv s' in let p := p_ind (edp s') in forall ci, (ci < nconf)%nat ->
  (uf (cs ci) = true -> forall a, (lo ci <= a < hi ci)%nat -> frc v a = vscale (fscale bld cs ci a) (vsub (EF ci p a) (force_0 (cs ci) a))) /\
  (uf (cs ci) = false -> forall a, (lo ci <= a < hi ci)%nat -> frc v a = v0) /\
  en v ci = EE ci p / INR (inconf (cs ci)) - energy_0 (cs ci) /\
  (STRESS bld = true -> forall k, (k < 6)%nat -> str v ci k =
     if (uf (cs ci) && us (cs ci))%bool then EV ci p k / conf_vol (cs ci) - stress_0 (cs ci) k else 0).
Proof.
  intros s s' v p ci H. unfold v, p.
  assert (FP : forall a, (lo ci <= a < hi ci)%nat -> p_ind (DI (S ci) (edp s)) a = p_ind (edp s') a) by (intros a Ha; apply final_p; auto).
  assert (Q1 : forall a, (lo ci <= a < hi ci)%nat -> EF ci (p_ind (DI (S ci) (edp s))) a = EF ci (p_ind (edp s')) a).
  { intros a Ha. unfold eforce. destruct DIPOLE; auto. f_equal. apply (force_same (cs ci) pos (bx ci) rcut (L ci) (fun a => HL ci a H)); auto. }
  assert (Q2 : EE ci (p_ind (DI (S ci) (edp s))) = EE ci (p_ind (edp s'))).
  { unfold eenergy. destruct DIPOLE; auto. rewrite (energy_same (cs ci) pos (bx ci) rcut (L ci) (fun a => HL ci a H) charge alpha dpb dpc gel dp_cut _ _ FP), (self_same (cs ci) alpha _ _ FP). auto. }
  assert (Q3 : forall k, EV ci (p_ind (DI (S ci) (edp s))) k = EV ci (p_ind (edp s')) k).
  { intros k. unfold evirial. destruct DIPOLE; auto. rewrite (virial_same (cs ci) pos (bx ci) rcut (L ci) (fun a => HL ci a H) charge alpha dpb dpc gel ggel dp_cut _ _ FP). auto. }
  assert (ES : edv s' = AddProof2.groutine bld eweight sweight (fun _ => 0) punish cs nconf (fun c => c) (fun ci => loop s ci) (edv s)) by (unfold s'; rewrite el_calc_eq; auto).
  destruct (groutine_closed bld eweight sweight (fun _ => 0) punish cs nconf (fun c => c) (fun c => conj eq_refl eq_refl) CONT
    (fun ci => loop s ci) (rF s) (rE s) (rS s) (r_adds s) (r_out s) (edv s)) as (A & B & C & _). rewrite <- ES in A, B, C.
  assert (RF : forall a, (lo ci <= a < hi ci)%nat -> rF s ci a = if uf (cs ci) then EF ci (p_ind (edp s')) a else v0).
  { intros a Ha. unfold rF, eF, inr. destruct (Nat.leb_spec (lo ci) a), (Nat.ltb_spec a (hi ci)); try lia. cbn [andb]. rewrite Q1; auto. }
  split; [|split; [|split]].
  - intros U a Ha. rewrite (A ci a H Ha). unfold gF. rewrite RF, U by auto. unfold scl, fscale.
    set (w := EF ci (p_ind (edp s')) a). clearbody w. destruct (FWEIGHT bld); vring.
  - intros U a Ha. rewrite (A ci a H Ha). unfold gF. rewrite RF, U by auto. vring.
  - rewrite (B ci H). unfold gE, rE. rewrite Q2. f_equal. f_equal. ring.
  - intros ON k K. rewrite (C ci k H K ON). unfold gS, rS, eS, stress_on. rewrite ON, Q3. destruct (Nat.ltb_spec k 6); [|lia].
    destruct (us (cs ci)), (uf (cs ci)); cbn [andb]; auto; try ring.
Qed.
Theorem el_error : forall s, let v := edv (calc s) in
  err v = rsumf (fun ci => 
     rsumf (fun a => if (uf (cs ci) && (negb (CONTRIB bld) || contrib (cs ci) a))%bool
                     then conf_weight (cs ci) * sqv (frc v a) else 0) (seq (cnfstart (cs ci)) (inconf (cs ci))) +
     conf_weight (cs ci) * eweight * sq (en v ci) +
     (if (STRESS bld && uf (cs ci) && us (cs ci))%bool
      then rsumf (fun k => conf_weight (cs ci) * sweight * sq (str v ci k)) (seq 0 6) else 0)) (seq 0 nconf) + punish.
Proof.
  intros s v. unfold v. rewrite el_calc_eq. cbn [edv].
  exact (groutine_error bld eweight sweight (fun _ => 0) punish cs nconf (fun c => c) (fun c => conj eq_refl eq_refl) CONT
    (fun ci => loop s ci) (rF s) (rE s) (rS s) (r_adds s) (r_out s) (edv s)).
Qed.
Theorem el_sum_zero : forall s, let v := edv (calc s) in forall ci, (ci < nconf)%nat -> uf (cs ci) = true -> FWEIGHT bld = false ->
  vsum (fun a => vadd (frc v a) (force_0 (cs ci) a)) (seq (lo ci) (inconf (cs ci))) = v0.
Proof.
  intros s v ci H U W. set (p := p_ind (edp (calc s))).
  assert (Q : forall a, In a (seq (lo ci) (inconf (cs ci))) -> vadd (frc v a) (force_0 (cs ci) a) = EF ci p a).
  { intros a Ha. apply in_seq in Ha. destruct (el_values s ci H) as (F & _). fold v in F. rewrite (F U a) by lia. unfold fscale. rewrite W. fold p. vring. }
  pose proof (newton dphi in_range DS IS (cs ci) pos (bx ci) rcut (GEO ci H) (L ci) (fun a => HL ci a H)) as N1.
  pose proof (gen_newton (cs ci) pos (bx ci) rcut (GEO ci H) (L ci) (fun a => HL ci a H) _ (CB_neg (cs ci) pos (bx ci) charge gel dp_cut)) as N2.
  pose proof (gen_newton (cs ci) pos (bx ci) rcut (GEO ci H) (L ci) (fun a => HL ci a H) _ (XB_neg (cs ci) pos (bx ci) charge alpha dpb dpc BS CS gel ggel dp_cut p)) as N3.
  apply by_sprod. intros u. rewrite sprod_sum, sprod_0.
  set (P1 := pair_force (cs ci) pos (bx ci) dphi in_range (L ci)) in *. set (P2 := fun a => vsum (coulomb_bond (cs ci) pos (bx ci) charge gel dp_cut a) (L ci a)) in *.
  set (P3 := fun a => vsum (dip_bond (cs ci) pos (bx ci) charge gel ggel dp_cut alpha dpb dpc p a) (L ci a)) in *.
  rewrite (rsumf_ext _ (fun a => (sprod u (P1 a) + sprod u (P2 a)) + (if DIPOLE then sprod u (P3 a) else 0))).
  - rewrite !rsumf_plus, <- !sprod_sum, N1, N2. destruct DIPOLE; [rewrite <- sprod_sum, N3, sprod_0; ring|]. rewrite (rsumf_zero _ _ (fun _ _ => eq_refl)), sprod_0. ring.
  - intros a Ha. rewrite Q by auto. unfold eforce. rewrite !sprod_add. destruct DIPOLE; [reflexivity|]. rewrite sprod_0. reflexivity.
Qed.
End Charged.
End Routine.
