(** The angular force routine: values, error sum, gradient, independence of the cell. *)
From Coq Require Import Reals ZArith List Bool Lia Lra Permutation.
From Verif Require Import Vec NbrModel NbrProof NbrProof2 NbrProof3 LoopUtil PairModel PairProof PairSpec PairProof2 PairProof3
  ForceLoop BondProof GradProof CellSpec CellProof CellProof2 ThreeSpec ThreeProof ThreeProof2 ThreeProof3 ThreeProof4 ThreeProof5 AddProof AddProof2
  SwModel SwProof SwProof3 SwProof4 AngSpec AngModel AngProof.
Import ListNotations.
Local Open Scope R_scope.

(** what the scoring part sees: it does not look at the flags *)
Definition all_used (c : conf) : conf :=
  mk_conf (cnfstart c) (inconf c) true true (conf_weight c) (conf_vol c) (nb c) (typ c) (contrib c) (absforce c) (force_0 c) (energy_0 c) (stress_0 c).

Section Routine.
Variable bld : build.
Variables phi dphi : nat -> nat -> R -> R.
Variable in0 : nat -> nat -> R -> bool.
Variables f df : nat -> nat -> R -> R.
Variable in1 : nat -> nat -> R -> bool.
Variables g dg : nat -> R -> R.
Variables (eweight sweight punish : R) (cs : nat -> conf) (nconf : nat).
Hypothesis CONT : forall ci, cnfstart (cs (S ci)) = (cnfstart (cs ci) + inconf (cs ci))%nat.
Hypothesis DS : forall s t r, dphi s t r = dphi t s r.
Hypothesis IS : forall s t r, in0 s t r = in0 t s r.
Variables (pos : nat -> vec) (bx : nat -> box) (rcut : nat -> nat -> R).
Hypothesis FG : forall ci, (ci < nconf)%nat -> full_geometry (cs ci) pos (bx ci) rcut.
Variable L : nat -> nat -> list (nat * image).
Hypothesis HL : forall ci a, (ci < nconf)%nat -> (cnfstart (cs ci) <= a < cnfstart (cs ci) + inconf (cs ci))%nat ->
  all_neighbors (cs ci) pos (bx ci) rcut a (L ci a).
Notation lo ci := (cnfstart (cs ci)).
Notation hi ci := (cnfstart (cs ci) + inconf (cs ci))%nat.
Notation calc := (AngModel.calc_forces bld phi dphi in0 f df in1 g dg eweight sweight punish cs nconf).
Notation h := (ang f in1 g).
Notation h1 := (ang1 f df in1 g).
Notation hc := (angc f in1 dg).
Notation pf ci := (pair_force (cs ci) pos (bx ci) dphi in0 (L ci)).
Notation tf ci := (three_force (cs ci) pos (bx ci) h1 hc (L ci)).
Notation PE ci := (pair_energy (cs ci) pos (bx ci) phi in0 (L ci)).
Notation TE ci := (three_energy (cs ci) pos (bx ci) h (L ci)).
Notation PV ci := (pair_virial (cs ci) pos (bx ci) dphi in0 (L ci)).
Notation TV ci := (three_virial (cs ci) pos (bx ci) h1 hc (L ci)).
Notation loop ci := (for_up (lo ci) (hi ci) (AngModel.atom_body bld phi dphi in0 f df in1 g dg ci (cs ci))).

Lemma ang_calc_eq : forall s, calc s = groutine bld eweight sweight (fun _ => 0) punish cs nconf all_used (fun ci => loop ci) s.
Proof.
  intros s. unfold AngModel.calc_forces, groutine.
  assert (E : forall (b1 b2 : nat -> dev -> dev) lo hi t, (forall i t, b1 i t = b2 i t) -> for_up lo hi b1 t = for_up lo hi b2 t).
  { intros b1 b2 l1 h2 t Q. unfold for_up. revert t. induction (seq l1 (h2 - l1)); intros t; simpl; auto. rewrite Q. auto. }
  rewrite (E _ (fun ci => gconfig bld eweight sweight (fun _ => 0) ci (cs ci) (all_used (cs ci)) (loop ci))); [reflexivity|].
  intros i t. unfold AngModel.config_body, gconfig, score_stress_all, score_stress. cbn [all_used uf us]. rewrite !andb_true_r. reflexivity.
Qed.
Definition aF (ci a : nat) : vec := if inside (cs ci) a then (if uf (cs ci) then vadd (pf ci a) (tf ci a) else v0) else v0.
Definition aE (ci : nat) : R := PE ci + TE ci.
Definition aS (ci k : nat) : R := if (Nat.ltb k 6 && (STRESS bld && us (cs ci)) && uf (cs ci))%bool then PV ci k + TV ci k else 0.
Lemma ang_adds : forall ci, (ci < nconf)%nat -> adds ci (loop ci) (aF ci) (aE ci) (aS ci).
Proof. intros ci H. exact (ang_atoms_adds bld phi dphi in0 f df in1 g dg DS IS (cs ci) pos (bx ci) rcut ci (FG ci H) (L ci) (fun a => HL ci a H)). Qed.
Lemma ang_out : forall ci a, (ci < nconf)%nat -> (a < lo ci)%nat \/ (hi ci <= a)%nat -> aF ci a = v0.
Proof.
  intros ci a _ O. unfold aF. destruct (inside (cs ci) a) eqn:I; auto. unfold inside in I. apply andb_true_iff in I. rewrite Nat.leb_le, Nat.ltb_lt in I. lia.
Qed.
Theorem ang_values : forall s, let s' := calc s in forall ci, (ci < nconf)%nat ->
  (uf (cs ci) = true -> forall a, (lo ci <= a < hi ci)%nat ->
     frc s' a = vscale (fscale bld cs ci a) (vsub (vadd (pf ci a) (tf ci a)) (force_0 (cs ci) a))) /\
  (uf (cs ci) = false -> forall a, (lo ci <= a < hi ci)%nat -> frc s' a = v0) /\
  en s' ci = (PE ci + TE ci) / INR (inconf (cs ci)) - energy_0 (cs ci) /\
  (STRESS bld = true -> forall k, (k < 6)%nat -> str s' ci k =
     (if (uf (cs ci) && us (cs ci))%bool then (PV ci k + TV ci k) / conf_vol (cs ci) else 0) - stress_0 (cs ci) k).
Proof.
  intros s s' ci H. unfold s'. rewrite ang_calc_eq.
  destruct (groutine_closed bld eweight sweight (fun _ => 0) punish cs nconf all_used (fun c => conj eq_refl eq_refl) CONT
    (fun ci => loop ci) aF aE aS ang_adds ang_out s) as (A & B & C & _).
  split; [|split; [|split]].
  - intros U a Ha. rewrite (A ci a H Ha). unfold gF, aF. rewrite U. cbn [all_used uf]. apply inside_true in Ha. rewrite Ha. unfold scl, fscale.
    set (p := vadd (pf ci a) (tf ci a)). clearbody p. cbn [all_used absforce]. destruct (FWEIGHT bld); vring.
  - intros U a Ha. rewrite (A ci a H Ha). unfold gF, aF. rewrite U. cbn [all_used uf]. apply inside_true in Ha. rewrite Ha. unfold scl. destruct (FWEIGHT bld); vring.
  - rewrite (B ci H). unfold gE, aE. cbn [all_used energy_0]. f_equal. f_equal. ring.
  - intros ON k K. rewrite (C ci k H K ON). unfold gS, aS, stress_on. cbn [all_used uf us conf_vol stress_0]. rewrite ON. destruct (Nat.ltb_spec k 6); [|lia].
    destruct (us (cs ci)), (uf (cs ci)); cbn [andb]; auto; unfold Rdiv; ring.
Qed.
Theorem ang_error : forall s, let s' := calc s in
  err s' = rsumf (fun ci => 
     rsumf (fun a => if (negb (CONTRIB bld) || contrib (cs ci) a)%bool
                     then conf_weight (cs ci) * sqv (frc s' a) else 0) (seq (lo ci) (inconf (cs ci))) +
     conf_weight (cs ci) * eweight * sq (en s' ci) +
     (if STRESS bld then rsumf (fun k => conf_weight (cs ci) * sweight * sq (str s' ci k)) (seq 0 6) else 0)) (seq 0 nconf) + punish.
Proof.
  intros s s'. unfold s'. rewrite ang_calc_eq.
  pose proof (groutine_error bld eweight sweight (fun _ => 0) punish cs nconf all_used (fun c => conj eq_refl eq_refl) CONT
    (fun ci => loop ci) aF aE aS ang_adds ang_out s) as Q. cbv zeta in Q. rewrite Q at 1. f_equal. apply rsumf_ext. intros ci _.
  unfold stress_on, scored. cbn [all_used uf us conf_weight contrib]. rewrite !andb_true_r. auto.
Qed.
Theorem ang_sum_zero : forall s, let s' := calc s in forall ci, (ci < nconf)%nat -> uf (cs ci) = true -> FWEIGHT bld = false ->
  vsum (fun a => vadd (frc s' a) (force_0 (cs ci) a)) (seq (lo ci) (inconf (cs ci))) = v0.
Proof.
  intros s s' ci H U W.
  assert (Q : forall a, In a (seq (lo ci) (inconf (cs ci))) -> vadd (frc s' a) (force_0 (cs ci) a) = vadd (pf ci a) (tf ci a)).
  { intros a Ha. apply in_seq in Ha. destruct (ang_values s ci H) as (F & _). fold s' in F. rewrite (F U a) by lia. unfold fscale. rewrite W. vring. }
  pose proof (full_newton (cs ci) pos (bx ci) rcut (FG ci H) (L ci) (fun a => HL ci a H) dphi in0 DS IS) as N1.
  pose proof (three_newton (cs ci) pos (bx ci) rcut (L ci) (fun a => HL ci a H) h1 hc) as N2.
  pose proof (f_equal vx N1) as X1. pose proof (f_equal vy N1) as Y1. pose proof (f_equal vz N1) as Z1.
  pose proof (f_equal vx N2) as X2. pose proof (f_equal vy N2) as Y2. pose proof (f_equal vz N2) as Z2.
  unfold vsum at 1 in X1. unfold vsum at 1 in Y1. unfold vsum at 1 in Z1. unfold vsum at 1 in X2. unfold vsum at 1 in Y2. unfold vsum at 1 in Z2.
  cbn [vx vy vz v0] in X1, Y1, Z1, X2, Y2, Z2.
  apply vec_eq; unfold vsum; cbn [vx vy vz v0].
  - rewrite (rsumf_ext _ (fun a => vx (pf ci a) + vx (tf ci a))); [|intros a Ha; rewrite Q by auto; auto]. rewrite rsumf_plus, X1, X2. ring.
  - rewrite (rsumf_ext _ (fun a => vy (pf ci a) + vy (tf ci a))); [|intros a Ha; rewrite Q by auto; auto]. rewrite rsumf_plus, Y1, Y2. ring.
  - rewrite (rsumf_ext _ (fun a => vz (pf ci a) + vz (tf ci a))); [|intros a Ha; rewrite Q by auto; auto]. rewrite rsumf_plus, Z1, Z2. ring.
Qed.
End Routine.

Theorem ang_gradient : forall phi dphi in0 f df in1 g dg c pos bx rcut, full_geometry c pos bx rcut ->
  forall L, (forall a, (cnfstart c <= a < cnfstart c + inconf c)%nat -> all_neighbors c pos bx rcut a (L a)) ->
  (forall s t r, dphi s t r = dphi t s r) -> (forall s t r, in0 s t r = in0 t s r) ->
  (forall i v, (cnfstart c <= i < cnfstart c + inconf c)%nat -> In v (L i) ->
     derivable_pt_lim (off in0 phi (typ c i) (typ c (fst v))) (dist pos bx i v) (off in0 dphi (typ c i) (typ c (fst v)) (dist pos bx i v)) /\
     derivable_pt_lim (off in1 f (typ c i) (typ c (fst v))) (dist pos bx i v) (off in1 df (typ c i) (typ c (fst v)) (dist pos bx i v))) ->
  (forall i x, derivable_pt_lim (g i) x (dg i x)) ->
  forall a u, (cnfstart c <= a < cnfstart c + inconf c)%nat ->
  derivable_pt_lim (fun t => pair_energy c (moved pos a u t) bx phi in0 L + three_energy c (moved pos a u t) bx (ang f in1 g) L) 0
    (- sprod u (vadd (pair_force c pos bx dphi in0 L a) (three_force c pos bx (ang1 f df in1 g) (angc f in1 dg) L a))).
Proof.
  intros phi dphi in0 f df in1 g dg c pos bx rcut FG L HL DS IS DD DG a u Ha. destruct (half_exists c pos bx rcut FG) as (q & GEO).
  eapply deriv_eq.
  - apply (derivable_pt_lim_plus (fun t => pair_energy c (moved pos a u t) bx phi in0 L) (fun t => three_energy c (moved pos a u t) bx (ang f in1 g) L)).
    + apply (pair_gradient (with_nb c q) pos bx rcut GEO L HL a u Ha phi dphi in0 DS IS).
      intros i v Hi Hv. apply (DD i v Hi Hv).
    + apply (three_gradient c pos bx rcut FG L HL a u Ha (off in1 f) (off in1 df) (fun i _ _ => g i) (fun i _ _ => dg i)); auto.
      intros i v Hi Hv. apply (DD i v Hi Hv).
  - unfold ang1, angc, ph1, phc, sprod, vadd. cbn [vx vy vz].
    change (pair_force (with_nb c q) pos bx dphi in0 L a) with (pair_force c pos bx dphi in0 L a). ring.
Qed.

Theorem ang_cell_independent : forall bld phi dphi in0 f df in1 g dg ew1 sw1 ew2 sw2 pu1 pu2 cs1 cs2 n1 n2,
  STRESS bld = true ->
  (forall s t r, dphi s t r = dphi t s r) -> (forall s t r, in0 s t r = in0 t s r) ->
  (forall ci, cnfstart (cs1 (S ci)) = (cnfstart (cs1 ci) + inconf (cs1 ci))%nat) ->
  (forall ci, cnfstart (cs2 (S ci)) = (cnfstart (cs2 ci) + inconf (cs2 ci))%nat) ->
  forall pos1 pos2 bx1 bx2 rcut,
  (forall ci, (ci < n1)%nat -> full_geometry (cs1 ci) pos1 (bx1 ci) rcut) ->
  (forall ci, (ci < n2)%nat -> full_geometry (cs2 ci) pos2 (bx2 ci) rcut) ->
  forall x y m tau s1 s2, (x < n1)%nat -> (y < n2)%nat -> (0 < inconf (cs1 x))%nat -> conf_vol (cs1 x) <> 0 ->
  same_crystal (cs1 x) (cs2 y) pos1 pos2 (bx1 x) (bx2 y) m tau ->
  uf (cs1 x) = true -> us (cs1 x) = true -> uf (cs2 y) = true -> us (cs2 y) = true ->
  let r1 := AngModel.calc_forces bld phi dphi in0 f df in1 g dg ew1 sw1 pu1 cs1 n1 s1 in
  let r2 := AngModel.calc_forces bld phi dphi in0 f df in1 g dg ew2 sw2 pu2 cs2 n2 s2 in
  en r1 x + energy_0 (cs1 x) = en r2 y + energy_0 (cs2 y) /\
  forall k, (k < 6)%nat -> str r1 x k + stress_0 (cs1 x) k = str r2 y k + stress_0 (cs2 y) k.
Proof.
  intros bld phi dphi in0 f df in1 g dg ew1 sw1 ew2 sw2 pu1 pu2 cs1 cs2 n1 n2 ST DS IS C1 C2 pos1 pos2 bx1 bx2 rcut G1 G2
    x y m tau s1 s2 Hx Hy NE VO SC U1 S1 U2 S2 r1 r2.
  destruct (full_neighbors_all rcut n1 cs1 pos1 bx1 G1) as (L1 & HL1). destruct (full_neighbors_all rcut n2 cs2 pos2 bx2 G2) as (L2 & HL2).
  destruct (ang_values bld phi dphi in0 f df in1 g dg ew1 sw1 pu1 cs1 n1 C1 DS IS pos1 bx1 rcut G1 L1 HL1 s1 x Hx) as (_ & _ & E1 & T1).
  destruct (ang_values bld phi dphi in0 f df in1 g dg ew2 sw2 pu2 cs2 n2 C2 DS IS pos2 bx2 rcut G2 L2 HL2 s2 y Hy) as (_ & _ & E2 & T2).
  fold r1 in E1, T1. fold r2 in E2, T2. clearbody r1 r2.
  pose proof (sc_m _ _ _ _ _ _ _ _ SC) as MP. assert (MR : INR m <> 0) by (apply not_0_INR; lia).
  assert (NR : INR (inconf (cs1 x)) <> 0) by (apply not_0_INR; lia).
  assert (H1 : forall a, (cnfstart (cs1 x) <= a < cnfstart (cs1 x) + inconf (cs1 x))%nat -> all_neighbors (cs1 x) pos1 (bx1 x) rcut a (L1 x a)) by (intros; apply HL1; auto).
  assert (H2 : forall a, (cnfstart (cs2 y) <= a < cnfstart (cs2 y) + inconf (cs2 y))%nat -> all_neighbors (cs2 y) pos2 (bx2 y) rcut a (L2 y a)) by (intros; apply HL2; auto).
  split.
  - rewrite E1, E2, (sc_number _ _ _ _ _ _ _ _ SC), mult_INR.
    rewrite (same_energy _ _ _ _ _ _ _ _ SC rcut _ _ (L1 x) (L2 y) H1 H2), (same_three_energy _ _ _ _ _ _ _ _ SC rcut (L1 x) (L2 y) H1 H2). field. auto.
  - intros k K. rewrite (T1 ST k K), (T2 ST k K), U1, S1, U2, S2, (sc_volume _ _ _ _ _ _ _ _ SC). cbn [andb].
    rewrite (same_virial _ _ _ _ _ _ _ _ SC rcut _ _ (L1 x) (L2 y) H1 H2), (same_three_virial _ _ _ _ _ _ _ _ SC rcut (L1 x) (L2 y) H1 H2). field. auto.
Qed.

(** a configuration with reference stresses whose forces are not used is scored as if its stress were zero *)
Definition stressed (k : nat) : conf :=
  if Nat.eqb k 0 then mk_conf 0 3 false true 1 1 (listed 3 elbow cube (12/100) (1, 1, 1)%Z) (fun _ => 0%nat) (fun _ => true) (fun _ => 0) (fun _ => v0) 0 (fun _ => 1)
  else mk_conf 3 0 false true 1 1 (listed 3 elbow cube (12/100) (1, 1, 1)%Z) (fun _ => 0%nat) (fun _ => true) (fun _ => 0) (fun _ => v0) 0 (fun _ => 1).
Lemma stressed_full : full_geometry (stressed 0) elbow cube (fun _ _ => 12/100).
Proof. destruct elbow_full as [A B C]. constructor; auto. Qed.
Lemma stressed_cont : forall ci, cnfstart (stressed (S ci)) = (cnfstart (stressed ci) + inconf (stressed ci))%nat.
Proof. intros. destruct ci; simpl; lia. Qed.
Theorem unused_stress : forall bld phi dphi in0 f df in1 g dg s, STRESS bld = true ->
  (forall s t r, dphi s t r = dphi t s r) -> (forall s t r, in0 s t r = in0 t s r) ->
  uf (stressed 0) = false /\
  err (AngModel.calc_forces bld phi dphi in0 f df in1 g dg 0 1 0 stressed 1 s) = 6.
Proof.
  intros bld phi dphi in0 f df in1 g dg s ON DS IS. split; auto.
  assert (FG : forall ci, (ci < 1)%nat -> full_geometry (stressed ci) elbow cube (fun _ _ => 12/100)) by (intros ci H; replace ci with 0%nat by lia; exact stressed_full).
  destruct (full_neighbors_all (fun _ _ => 12/100) 1 stressed elbow (fun _ => cube) FG) as (L & HL).
  destruct (ang_values bld phi dphi in0 f df in1 g dg 0 1 0 stressed 1 stressed_cont DS IS elbow (fun _ => cube) (fun _ _ => 12/100) FG L HL s 0%nat) as (_ & F & _ & T); [lia|].
  pose proof (ang_error bld phi dphi in0 f df in1 g dg 0 1 0 stressed 1 stressed_cont DS IS elbow (fun _ => cube) (fun _ _ => 12/100) FG L HL s) as Q. cbv zeta in Q.
  set (s' := AngModel.calc_forces bld phi dphi in0 f df in1 g dg 0 1 0 stressed 1 s) in *. clearbody s'. rewrite Q, ON.
  specialize (T ON). specialize (F eq_refl). unfold rsumf at 1. cbn [seq map fold_right].
  rewrite (rsumf_zero _ (seq (cnfstart (stressed 0)) (inconf (stressed 0)))).
  - change (conf_weight (stressed 0)) with 1. cbn [seq]. unfold rsumf. cbn [map fold_right]. rewrite !T by lia. change (uf (stressed 0)) with false. cbn [andb].
    change (stress_0 (stressed 0)) with (fun _ : nat => 1). cbv beta. unfold sq, rsum. cbn [fold_right]. ring.
  - intros a Ha. apply in_seq in Ha. rewrite F by lia. destruct (negb (CONTRIB bld) || contrib (stressed 0) a)%bool; auto. unfold sqv, sprod, sq, v0; simpl. ring.
Qed.

(** functions for which [ang_gradient] applies to the atoms at a right angle *)
Definition short (s t : nat) (r : R) : bool := if Rlt_dec r (1/5) then true else false.
Definition sqr2 (s t : nat) (r : R) : R := r * r.
Definition dbl (s t : nat) (r : R) : R := 2 * r.
Lemma off_sqr : forall s t, derivable_pt_lim (off short sqr2 s t) (1/10) (off short dbl s t (1/10)).
Proof.
  intros s t. apply (SwProof2.deriv_local (fun r => r * r)).
  - apply (deriv_eq _ _ (1 * (1/10) + 1/10 * 1)).
    + exact (derivable_pt_lim_mult (fun r => r) (fun r => r) (1/10) 1 1 (derivable_pt_lim_id _) (derivable_pt_lim_id _)).
    + unfold off, short, dbl. destruct (Rlt_dec (1/10) (1/5)); lra.
  - exists (1/10). split; [lra|]. intros y H. apply Rabs_def2 in H. unfold off, short, sqr2. destruct (Rlt_dec y (1/5)); lra.
Qed.
Lemma bent_dist : forall i v, (i < 3)%nat -> In v (elbow_list i) -> dist elbow cube i v = 1/10.
Proof.
  intros i v Hi IN. unfold dist. destruct v as [k z].
  assert (Q : z = (0, 0, 0)%Z /\ ((i = 0 /\ (k = 1 \/ k = 2)) \/ (k = 0 /\ (i = 1 \/ i = 2)))%nat).
  { destruct i as [|[|[|]]]; try lia; simpl in IN; repeat (destruct IN as [IN|IN]); try contradiction; injection IN as <- <-; auto. }
  destruct Q as (-> & Q). rewrite elbow_d. apply norm_tenth. destruct Q as [(-> & [-> | ->])|(-> & [-> | ->])]; unfold sprod; simpl; field.
Qed.
Lemma bent_derivable : forall i v, (i < 3)%nat -> In v (elbow_list i) -> forall s t,
  derivable_pt_lim (off short sqr2 s t) (dist elbow cube i v) (off short dbl s t (dist elbow cube i v)).
Proof. intros i v Hi IN s t. rewrite (bent_dist i v Hi IN). apply off_sqr. Qed.
Theorem unused_stress_refuted : exists cs pos bx rcut,
  (forall ci, cnfstart (cs (S ci)) = (cnfstart (cs ci) + inconf (cs ci))%nat) /\
  full_geometry (cs 0%nat) pos bx rcut /\ uf (cs 0%nat) = false /\
  forall bld phi dphi in0 f df in1 g dg s, STRESS bld = true ->
  (forall s t r, dphi s t r = dphi t s r) -> (forall s t r, in0 s t r = in0 t s r) ->
  err (AngModel.calc_forces bld phi dphi in0 f df in1 g dg 0 1 0 cs 1 s) = 6.
Proof.
  exists stressed, elbow, cube, (fun _ _ => 12/100). split; [exact stressed_cont|]. split; [exact stressed_full|]. split; [reflexivity|].
  intros. apply unused_stress; auto.
Qed.
