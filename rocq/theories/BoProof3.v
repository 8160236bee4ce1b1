(** Force routines of bond-order form: values, error sum, Newton's third law, cells. *)
From Coq Require Import Reals ZArith List Bool Lia Lra Permutation.
From Verif Require Import Vec NbrModel NbrProof NbrProof2 NbrProof3 LoopUtil PairModel PairProof PairSpec PairProof2 PairProof3
  ForceLoop BondProof GradProof CellSpec CellProof CellProof2 ThreeSpec ThreeProof ThreeProof2 ThreeProof3 ThreeProof4 ThreeProof5 AddProof AddProof2
  SwModel SwSpec SwProof SwProof3 BoSpec BoProof BoProof2 TersModel.
Import ListNotations.
Local Open Scope R_scope.

Section Routine.
Variable bld : build.
Variables P P' bo bo' : nat -> nat -> R -> R.
Variables q q1 q2 qc : nat -> nat -> nat -> R -> R -> R -> R.
Variables phi dphi : nat -> nat -> R -> R.
Variable inr : nat -> nat -> R -> bool.
Hypothesis DS : forall s t r, dphi s t r = dphi t s r.
Hypothesis IS : forall s t r, inr s t r = inr t s r.
(** the loops over the neighbours of an atom *)
Variable body : nat -> conf -> nat -> dev -> neigh * list neigh -> dev.
Variable pbody : nat -> conf -> nat -> dev -> neigh -> dev.
Notation ent c pos b i v := (entry pos (typ c) b i (fst v) (snd v)).
Notation atom := (fun ci c i s => fold_left (body ci c i) (picks [] (nb c i)) (fold_left (pbody ci c i) (nb c i) s)).
Hypothesis BB : forall c pos b ci B i v, (forall w, In w (B i) -> dvec pos b i w <> v0) -> In v (B i) ->
  adds ci (fun s => body ci c i s (ent c pos b i v, map (fun w => ent c pos b i w) (others B i v)))
    (oF c pos b P P' bo bo' q q1 q2 qc B i v) (bo_bond c pos b P bo q B i v)
    (fun k => if (Nat.ltb k 6 && (STRESS bld && us c))%bool then oS c pos b P P' bo bo' q q1 q2 qc B i v k else 0).
Hypothesis PB : forall c pos b ci (B : nat -> list (nat * image)) i v, (forall w, In w (B i) -> dvec pos b i w <> v0) -> In v (B i) ->
  adds ci (fun s => pbody ci c i s (ent c pos b i v))
  (fun a => if (Nat.eqb a i && uf c)%bool then vscale (wself (1/2) i v) (bond_force c pos b dphi inr i v) else v0)
  (1/2 * (wself (1/2) i v * bond_energy c pos b phi inr i v))
  (fun k => if (Nat.ltb k 6 && (STRESS bld && us c) && uf c)%bool then - (1/2 * (wself (1/2) i v * stress_of (dvec pos b i v) (bond_force c pos b dphi inr i v) k)) else 0).
Section Run.
Variables (eweight sweight punish : R) (cs : nat -> conf) (nconf : nat).
Hypothesis CONT : forall ci, cnfstart (cs (S ci)) = (cnfstart (cs ci) + inconf (cs ci))%nat.
Variables (pos : nat -> vec) (bx : nat -> box) (rcut : nat -> nat -> R).
Hypothesis FG : forall ci, (ci < nconf)%nat -> full_geometry (cs ci) pos (bx ci) rcut.
Variable L : nat -> nat -> list (nat * image).
Hypothesis HL : forall ci a, (ci < nconf)%nat -> (cnfstart (cs ci) <= a < cnfstart (cs ci) + inconf (cs ci))%nat ->
  all_neighbors (cs ci) pos (bx ci) rcut a (L ci a).
Notation lo ci := (cnfstart (cs ci)).
Notation hi ci := (cnfstart (cs ci) + inconf (cs ci))%nat.
Notation calc := (frame bld eweight sweight punish atom cs nconf).
Notation pf ci := (pair_force (cs ci) pos (bx ci) dphi inr (L ci)).
Notation tf ci := (bo_force (cs ci) pos (bx ci) P P' bo bo' q q1 q2 qc (L ci)).
Notation PE ci := (pair_energy (cs ci) pos (bx ci) phi inr (L ci)).
Notation TE ci := (bo_energy (cs ci) pos (bx ci) P bo q (L ci)).
Notation SE ci := (self_energy (cs ci) pos (bx ci) (L ci) phi inr).
Notation PV ci := (pair_virial (cs ci) pos (bx ci) dphi inr (L ci)).
Notation TV ci := (bo_virial (cs ci) pos (bx ci) P P' bo bo' q q1 q2 qc (L ci)).
Notation SV ci := (self_virial (cs ci) pos (bx ci) (L ci) dphi inr).
Notation loop ci := (for_up (cnfstart (cs ci%nat)) (cnfstart (cs ci%nat) + inconf (cs ci%nat)) (atom ci%nat (cs ci%nat))).

Lemma bo_calc_eq : forall s, calc s = groutine bld eweight sweight (fun _ => 0) punish cs nconf (fun c => c) (fun ci => loop ci) s.
Proof. intros s. reflexivity. Qed.
Definition bF (ci a : nat) : vec := if inside (cs ci) a then vadd (if uf (cs ci) then pf ci a else v0) (tf ci a) else v0.
Definition bE (ci : nat) : R := PE ci - (1 - 1/2) * SE ci + TE ci.
Definition bS (ci k : nat) : R := if (Nat.ltb k 6 && (STRESS bld && us (cs ci)))%bool then (if uf (cs ci) then PV ci k - (1 - 1/2) * SV ci k else 0) + TV ci k else 0.
Lemma bo_adds : forall ci, (ci < nconf)%nat -> adds ci (loop ci) (bF ci) (bE ci) (bS ci).
Proof.
  intros ci H. pose proof (FG ci H) as G. destruct (nb_full (cs ci) pos (bx ci) rcut G) as (B & NB & HB & NO).
  exact (bond_order_adds (cs ci) pos (bx ci) rcut ci G P P' bo bo' q q1 q2 qc B NB HB (STRESS bld && us (cs ci))%bool (body ci (cs ci))
    (fun i v Hi Hv => BB (cs ci) pos (bx ci) ci B i v (fun w Hw => NO i w Hi Hw) Hv) (L ci) (fun a => HL ci a H) phi dphi inr DS IS (1/2) (uf (cs ci)) (pbody ci (cs ci))
    (fun i v Hi Hv => PB (cs ci) pos (bx ci) ci B i v (fun w Hw => NO i w Hi Hw) Hv)).
Qed.
Lemma bo_out : forall ci a, (ci < nconf)%nat -> (a < lo ci)%nat \/ (hi ci <= a)%nat -> bF ci a = v0.
Proof.
  intros ci a _ O. unfold bF. destruct (inside (cs ci) a) eqn:I; auto. unfold inside in I. apply andb_true_iff in I. rewrite Nat.leb_le, Nat.ltb_lt in I. lia.
Qed.
Lemma bF_in : forall ci a, (lo ci <= a < hi ci)%nat -> bF ci a = vadd (if uf (cs ci) then pf ci a else v0) (tf ci a).
Proof. intros ci a H. unfold bF. apply inside_true in H. rewrite H. auto. Qed.
Theorem bo_values : forall s, let s' := calc s in forall ci, (ci < nconf)%nat ->
  (uf (cs ci) = true -> forall a, (lo ci <= a < hi ci)%nat ->
     frc s' a = vscale (fscale bld cs ci a) (vsub (vadd (pf ci a) (tf ci a)) (force_0 (cs ci) a))) /\
  (uf (cs ci) = false -> forall a, (lo ci <= a < hi ci)%nat -> frc s' a = tf ci a) /\
  en s' ci = (PE ci - 1/2 * SE ci + TE ci) / INR (inconf (cs ci)) - energy_0 (cs ci) /\
  (STRESS bld = true -> forall k, (k < 6)%nat -> str s' ci k =
     if us (cs ci)
     then if uf (cs ci) then (PV ci k - 1/2 * SV ci k + TV ci k) / conf_vol (cs ci) - stress_0 (cs ci) k else TV ci k
     else 0).
Proof.
  intros s s' ci H. unfold s'. rewrite bo_calc_eq.
  destruct (groutine_closed bld eweight sweight (fun _ => 0) punish cs nconf (fun c => c) (fun c => conj eq_refl eq_refl) CONT
    (fun ci => loop ci) bF bE bS bo_adds bo_out s) as (A & B & C & _).
  split; [|split; [|split]].
  - intros U a Ha. rewrite (A ci a H Ha). unfold gF. rewrite U, bF_in, U by auto. unfold scl, fscale.
    set (p := vadd (pf ci a) (tf ci a)). clearbody p. destruct (FWEIGHT bld); vring.
  - intros U a Ha. rewrite (A ci a H Ha). unfold gF. rewrite U, bF_in, U by auto. vring.
  - rewrite (B ci H). unfold gE, bE. f_equal. f_equal. field.
  - intros ON k K. rewrite (C ci k H K ON). unfold gS, bS, stress_on. rewrite ON. destruct (Nat.ltb_spec k 6); [|lia].
    destruct (us (cs ci)), (uf (cs ci)); cbn [andb]; auto; try ring. f_equal. f_equal. field.
Qed.
Theorem bo_textbook : forall s, let s' := calc s in forall ci, (ci < nconf)%nat ->
  (uf (cs ci) = true -> forall a, (lo ci <= a < hi ci)%nat ->
     frc s' a = vscale (fscale bld cs ci a) (vsub (vadd (pf ci a) (tf ci a)) (force_0 (cs ci) a))) /\
  (no_self (cs ci) (L ci) ->
   en s' ci = (PE ci + TE ci) / INR (inconf (cs ci)) - energy_0 (cs ci) /\
   (STRESS bld = true -> uf (cs ci) = true -> us (cs ci) = true -> forall k, (k < 6)%nat ->
     str s' ci k = (PV ci k + TV ci k) / conf_vol (cs ci) - stress_0 (cs ci) k)).
Proof.
  intros s s' ci H. destruct (bo_values s ci H) as (A & _ & C & D). fold s' in A, C, D. split; [auto|]. intros NS. split.
  - rewrite C, no_self_energy by auto. f_equal. f_equal. ring.
  - intros ON U U2 k K. rewrite (D ON k K), U, U2, no_self_virial by auto. f_equal. f_equal. ring.
Qed.
Theorem bo_sum_zero : forall s, let s' := calc s in forall ci, (ci < nconf)%nat -> uf (cs ci) = true -> FWEIGHT bld = false ->
  vsum (fun a => vadd (frc s' a) (force_0 (cs ci) a)) (seq (lo ci) (inconf (cs ci))) = v0.
Proof.
  intros s s' ci H U W.
  assert (Q : forall a, In a (seq (lo ci) (inconf (cs ci))) -> vadd (frc s' a) (force_0 (cs ci) a) = vadd (pf ci a) (tf ci a)).
  { intros a Ha. apply in_seq in Ha. destruct (bo_values s ci H) as (F & _). fold s' in F. rewrite (F U a) by lia. unfold fscale. rewrite W. vring. }
  pose proof (full_newton (cs ci) pos (bx ci) rcut (FG ci H) (L ci) (fun a => HL ci a H) dphi inr DS IS) as N1.
  pose proof (bo_newton (cs ci) pos (bx ci) rcut P P' bo bo' q q1 q2 qc (L ci) (fun a => HL ci a H)) as N2.
  apply by_sprod. intros u. rewrite sprod_sum, sprod_0. rewrite (rsumf_ext _ (fun a => sprod u (pf ci a) + sprod u (tf ci a))) by (intros a Ha; rewrite Q, sprod_add; auto).
  rewrite rsumf_plus, <- !sprod_sum, N1, N2, sprod_0. ring.
Qed.
Theorem bo_error : forall s, let s' := calc s in
  err s' = rsumf (fun ci => 
     rsumf (fun a => if (uf (cs ci) && (negb (CONTRIB bld) || contrib (cs ci) a))%bool
                     then conf_weight (cs ci) * sqv (frc s' a) else 0) (seq (cnfstart (cs ci)) (inconf (cs ci))) +
     conf_weight (cs ci) * eweight * sq (en s' ci) +
     (if (STRESS bld && uf (cs ci) && us (cs ci))%bool
      then rsumf (fun k => conf_weight (cs ci) * sweight * sq (str s' ci k)) (seq 0 6) else 0)) (seq 0 nconf) + punish.
Proof.
  intros s s'. unfold s'. rewrite bo_calc_eq.
  exact (groutine_error bld eweight sweight (fun _ => 0) punish cs nconf (fun c => c) (fun c => conj eq_refl eq_refl) CONT
    (fun ci => loop ci) bF bE bS bo_adds bo_out s).
Qed.
End Run.

Theorem bo_cell_independent : forall ew1 sw1 ew2 sw2 pu1 pu2 cs1 cs2 n1 n2,
  STRESS bld = true ->
  (forall ci, cnfstart (cs1 (S ci)) = (cnfstart (cs1 ci) + inconf (cs1 ci))%nat) ->
  (forall ci, cnfstart (cs2 (S ci)) = (cnfstart (cs2 ci) + inconf (cs2 ci))%nat) ->
  forall pos1 pos2 bx1 bx2 rcut,
  (forall ci, (ci < n1)%nat -> full_geometry (cs1 ci) pos1 (bx1 ci) rcut) ->
  (forall ci, (ci < n2)%nat -> full_geometry (cs2 ci) pos2 (bx2 ci) rcut) ->
  forall L1 L2,
  (forall ci a, (ci < n1)%nat -> (cnfstart (cs1 ci) <= a < cnfstart (cs1 ci) + inconf (cs1 ci))%nat -> all_neighbors (cs1 ci) pos1 (bx1 ci) rcut a (L1 ci a)) ->
  (forall ci a, (ci < n2)%nat -> (cnfstart (cs2 ci) <= a < cnfstart (cs2 ci) + inconf (cs2 ci))%nat -> all_neighbors (cs2 ci) pos2 (bx2 ci) rcut a (L2 ci a)) ->
  forall x y m tau s1 s2, (x < n1)%nat -> (y < n2)%nat -> (0 < inconf (cs1 x))%nat -> conf_vol (cs1 x) <> 0 ->
  same_crystal (cs1 x) (cs2 y) pos1 pos2 (bx1 x) (bx2 y) m tau ->
  no_self (cs1 x) (L1 x) -> no_self (cs2 y) (L2 y) ->
  uf (cs1 x) = true -> us (cs1 x) = true -> uf (cs2 y) = true -> us (cs2 y) = true ->
  let r1 := frame bld ew1 sw1 pu1 atom cs1 n1 s1 in
  let r2 := frame bld ew2 sw2 pu2 atom cs2 n2 s2 in
  en r1 x + energy_0 (cs1 x) = en r2 y + energy_0 (cs2 y) /\
  forall k, (k < 6)%nat -> str r1 x k + stress_0 (cs1 x) k = str r2 y k + stress_0 (cs2 y) k.
Proof.
  intros ew1 sw1 ew2 sw2 pu1 pu2 cs1 cs2 n1 n2 ST C1 C2 pos1 pos2 bx1 bx2 rcut G1 G2 L1 L2 HL1 HL2
    x y m tau s1 s2 Hx Hy NE VO SC NS1 NS2 U1 S1 U2 S2 r1 r2.
  destruct (bo_textbook ew1 sw1 pu1 cs1 n1 C1 pos1 bx1 rcut G1 L1 HL1 s1 x Hx) as (_ & Q1). destruct (Q1 NS1) as (E1 & T1).
  destruct (bo_textbook ew2 sw2 pu2 cs2 n2 C2 pos2 bx2 rcut G2 L2 HL2 s2 y Hy) as (_ & Q2). destruct (Q2 NS2) as (E2 & T2).
  fold r1 in E1, T1. fold r2 in E2, T2. clearbody r1 r2. clear Q1 Q2.
  pose proof (sc_m _ _ _ _ _ _ _ _ SC) as MP. assert (MR : INR m <> 0) by (apply not_0_INR; lia).
  assert (NR : INR (inconf (cs1 x)) <> 0) by (apply not_0_INR; lia).
  assert (H1 : forall a, (cnfstart (cs1 x) <= a < cnfstart (cs1 x) + inconf (cs1 x))%nat -> all_neighbors (cs1 x) pos1 (bx1 x) rcut a (L1 x a)) by (intros; apply HL1; auto).
  assert (H2 : forall a, (cnfstart (cs2 y) <= a < cnfstart (cs2 y) + inconf (cs2 y))%nat -> all_neighbors (cs2 y) pos2 (bx2 y) rcut a (L2 y a)) by (intros; apply HL2; auto).
  split.
  - rewrite E1, E2, (sc_number _ _ _ _ _ _ _ _ SC), mult_INR.
    rewrite (same_energy _ _ _ _ _ _ _ _ SC rcut _ _ (L1 x) (L2 y) H1 H2), (same_bo_energy _ _ _ _ _ _ _ _ SC rcut (L1 x) (L2 y) H1 H2). field. auto.
  - intros k K. rewrite (T1 ST U1 S1 k K), (T2 ST U2 S2 k K), (sc_volume _ _ _ _ _ _ _ _ SC).
    rewrite (same_virial _ _ _ _ _ _ _ _ SC rcut _ _ (L1 x) (L2 y) H1 H2), (same_bo_virial _ _ _ _ _ _ _ _ SC rcut (L1 x) (L2 y) H1 H2). field. auto.
Qed.

(** ** A repulsive pair term only: cells with self images *)
Section Self.
Hypothesis POS : forall r, r < 2 -> inr 0%nat 0%nat r = true /\ 0 < phi 0%nat 0%nat r.
Hypothesis NON : forall r, inr 0%nat 0%nat r = true -> 0 <= phi 0%nat 0%nat r.
Hypothesis NOP : forall r, P 0%nat 0%nat r = 0.
Variables (ew sw : R).
Notation run cs := (frame bld ew sw 0 atom cs 1).
Notation EB c pos b := (bond_energy c pos b phi inr).
Lemma rep_bond' : forall c pos b i v, (forall a, typ c a = 0%nat) -> 0 <= EB c pos b i v /\ (dist pos b i v < 2 -> 0 < EB c pos b i v).
Proof.
  intros c pos b i v T. unfold bond_energy, active. rewrite !T. split.
  - destruct (inr 0%nat 0%nat (dist pos b i v)) eqn:I; [auto|lra].
  - intros D. destruct (POS _ D) as [-> Q]. auto.
Qed.
Lemma no_bonds : forall c pos b L, (forall a, typ c a = 0%nat) -> bo_energy c pos b P bo q L = 0.
Proof. intros c pos b L T. unfold bo_energy. apply rsumf_zero. intros a _. apply rsumf_zero. intros v _. unfold bo_bond. rewrite !T, NOP. ring. Qed.
Variable L1 : nat -> list (nat * image).
Hypothesis HL1 : forall a, (0 <= a < 0 + 1)%nat -> all_neighbors (one 0) origin cube (fun _ _ => 1) a (L1 a).
Notation PE1 := (pair_energy (one 0) origin cube phi inr L1).
Lemma PE1_pos' : 0 < PE1.
Proof.
  unfold pair_energy. apply Rmult_lt_0_compat; [lra|].
  apply (sum_pos _ _ 0%nat); [|simpl; auto|].
  - intros a _. apply rsumf_nonneg. intros v _. apply rep_bond'. auto.
  - apply (sum_pos _ _ (0%nat, (0, 0, 1)%Z)); [|apply (in_L1 L1 HL1)|].
    + intros v _. apply rep_bond'. auto.
    + apply rep_bond'; auto. rewrite near1. lra.
Qed.
Lemma one_self' : self_energy (one 0) origin cube L1 phi inr = PE1.
Proof.
  unfold self_energy, pair_energy. f_equal. apply rsumf_ext. intros a Ha. apply rsumf_ext. intros [j m] V.
  assert (A : a = 0%nat) by (apply in_seq in Ha; simpl in Ha; lia). subst a. apply (HL1 0%nat ltac:(lia)) in V. destruct V as [J _].
  change (cnfstart (one 0)) with 0%nat in J. change (inconf (one 0)) with 1%nat in J. cbn [fst]. replace j with 0%nat by lia. auto.
Qed.
Lemma one_energy' : en (run one zero_dev) 0%nat = PE1 / 2.
Proof.
  destruct (bo_values ew sw 0 one 1) with (pos := origin) (bx := fun _ : nat => cube) (rcut := fun _ _ : nat => 1) (L := fun _ : nat => L1) (s := zero_dev) (ci := 0%nat) as (_ & _ & E & _).
  - intros ci. apply single_cont.
  - intros ci H. replace ci with 0%nat by lia. apply one_full.
  - intros ci a H Ha. replace ci with 0%nat in * by lia. apply HL1. exact Ha.
  - lia.
  - rewrite E, one_self', no_bonds by auto. change (INR (inconf (one 0))) with 1. change (energy_0 (one 0)) with 0. field.
Qed.
Theorem self_half : en (run one zero_dev) 0%nat <> (PE1 + bo_energy (one 0) origin cube P bo q L1) / INR (inconf (one 0)) - energy_0 (one 0).
Proof. rewrite one_energy', no_bonds by auto. change (INR (inconf (one 0))) with 1. change (energy_0 (one 0)) with 0. pose proof PE1_pos'. lra. Qed.
Variable L2 : nat -> list (nat * image).
Hypothesis HL2 : forall a, (0 <= a < 0 + 2)%nat -> all_neighbors (two_atoms 0) pair_pos two_box (fun _ _ => 1) a (L2 a).
Notation PE2 := (pair_energy (two_atoms 0) pair_pos two_box phi inr L2).
Notation SE2 := (self_energy (two_atoms 0) pair_pos two_box L2 phi inr).
Lemma two_energy' : en (run two_atoms zero_dev) 0%nat = (PE2 - 1/2 * SE2) / 2.
Proof.
  destruct (bo_values ew sw 0 two_atoms 1) with (pos := pair_pos) (bx := fun _ : nat => two_box) (rcut := fun _ _ : nat => 1) (L := fun _ : nat => L2) (s := zero_dev) (ci := 0%nat) as (_ & _ & E & _).
  - intros ci. apply single_cont.
  - intros ci H. replace ci with 0%nat by lia. apply two_full.
  - intros ci a H Ha. replace ci with 0%nat in * by lia. apply HL2. exact Ha.
  - lia.
  - rewrite E, no_bonds by auto. change (INR (inconf (two_atoms 0))) with (1 + 1). change (energy_0 (two_atoms 0)) with 0. field.
Qed.
Lemma two_once' : PE2 = 2 * PE1.
Proof. rewrite (same_energy _ _ _ _ _ _ _ _ two_same (fun _ _ => 1) phi inr L1 L2); [simpl; ring|exact HL1|exact HL2]. Qed.
Lemma SE2_less' : SE2 < PE2.
Proof.
  assert (0 < PE2 - SE2); [|lra]. unfold pair_energy, self_energy.
  set (E := bond_energy (two_atoms 0) pair_pos two_box phi inr).
  assert (Q : rsumf (fun a => rsumf (E a) (L2 a)) (seq (cnfstart (two_atoms 0)) (inconf (two_atoms 0))) =
    rsumf (fun a => rsumf (fun v => if Nat.eqb (fst v) a then E a v else 0) (L2 a)) (seq (cnfstart (two_atoms 0)) (inconf (two_atoms 0))) +
    rsumf (fun a => rsumf (fun v => if Nat.eqb (fst v) a then 0 else E a v) (L2 a)) (seq (cnfstart (two_atoms 0)) (inconf (two_atoms 0)))).
  { rewrite <- rsumf_plus. apply rsumf_ext. intros a _. rewrite <- rsumf_plus. apply rsumf_ext. intros v _. destruct (Nat.eqb (fst v) a); ring. }
  rewrite Q. clear Q.
  assert (0 < rsumf (fun a => rsumf (fun v => if Nat.eqb (fst v) a then 0 else E a v) (L2 a)) (seq (cnfstart (two_atoms 0)) (inconf (two_atoms 0)))); [|lra].
  apply (sum_pos _ _ 0%nat).
  - intros a _. apply rsumf_nonneg. intros v _. destruct (Nat.eqb (fst v) a); [lra|apply rep_bond'; auto].
  - simpl. auto.
  - apply (sum_pos _ _ (1%nat, (0, 0, 0)%Z)); [|apply (in_L2 L2 HL2)|].
    + intros v _. match goal with |- 0 <= (if ?x then _ else _) => destruct x end; [lra|apply rep_bond'; auto].
    + cbn [fst Nat.eqb]. apply rep_bond'; auto. unfold dist, dvec. cbn [fst snd]. rewrite two_displacement. cbn [Nat.eqb]. unfold norm, sprod; simpl.
      match goal with |- sqrt ?x < 2 => replace x with 1 by ring end. rewrite sqrt_1. lra.
Qed.
Theorem self_cells : en (run one zero_dev) 0%nat < en (run two_atoms zero_dev) 0%nat.
Proof. rewrite one_energy', two_energy'. pose proof two_once'. pose proof SE2_less'. lra. Qed.
End Self.
End Routine.
