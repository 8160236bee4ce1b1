(** The Stillinger-Weber routine: cells of one crystal, self images, configurations without forces. *)
From Coq Require Import Reals ZArith List Bool Lia Lra Permutation.
From Verif Require Import Vec NbrModel NbrProof NbrProof2 NbrProof3 LoopUtil PairIndexModel PairModel PairProof PairSpec PairProof2 PairProof3
  CellSpec CellProof CellProof2 LammpsModel ThreeSpec ThreeProof ThreeProof2 ThreeProof4 ThreeProof5 SwSpec SwModel SwProof SwProof2.
Import ListNotations.
Local Open Scope R_scope.

Theorem sw_cell_independent : forall bld pow0 V lam n ew1 sw1 ew2 sw2 pu1 pu2 cs1 cs2 n1 n2,
  STRESS bld = true -> (forall i j k, lam i j k = lam i k j) ->
  (forall ci, cnfstart (cs1 (S ci)) = (cnfstart (cs1 ci) + inconf (cs1 ci))%nat) ->
  (forall ci, cnfstart (cs2 (S ci)) = (cnfstart (cs2 ci) + inconf (cs2 ci))%nat) ->
  forall pos1 pos2 bx1 bx2 rcut,
  (forall ci, (ci < n1)%nat -> full_geometry (cs1 ci) pos1 (bx1 ci) rcut) ->
  (forall ci, (ci < n2)%nat -> full_geometry (cs2 ci) pos2 (bx2 ci) rcut) ->
  forall L1 L2,
  (forall ci a, (ci < n1)%nat -> (cnfstart (cs1 ci) <= a < cnfstart (cs1 ci) + inconf (cs1 ci))%nat -> all_neighbors (cs1 ci) pos1 (bx1 ci) rcut a (L1 ci a)) ->
  (forall ci a, (ci < n2)%nat -> (cnfstart (cs2 ci) <= a < cnfstart (cs2 ci) + inconf (cs2 ci))%nat -> all_neighbors (cs2 ci) pos2 (bx2 ci) rcut a (L2 ci a)) ->
  forall x y m tau s1 s2, (x < n1)%nat -> (y < n2)%nat -> (0 < inconf (cs1 x))%nat -> conf_vol (cs1 x) <> 0 ->
  same_crystal (cs1 x) (cs2 y) pos1 pos2 (bx1 x) (bx2 y) m tau ->
  no_self (cs1 x) (L1 x) -> no_self (cs2 y) (L2 y) ->
  uf (cs1 x) = true -> us (cs1 x) = true -> uf (cs2 y) = true -> us (cs2 y) = true ->
  let r1 := calc_forces bld pow0 V lam n ew1 sw1 pu1 cs1 n1 s1 in
  let r2 := calc_forces bld pow0 V lam n ew2 sw2 pu2 cs2 n2 s2 in
  en r1 x + energy_0 (cs1 x) = en r2 y + energy_0 (cs2 y) /\
  forall k, (k < 6)%nat -> str r1 x k + stress_0 (cs1 x) k = str r2 y k + stress_0 (cs2 y) k.
Proof.
  intros bld pow0 V lam n ew1 sw1 ew2 sw2 pu1 pu2 cs1 cs2 n1 n2 ST LS C1 C2 pos1 pos2 bx1 bx2 rcut G1 G2 L1 L2 HL1 HL2
    x y m tau s1 s2 Hx Hy NE VO SC NS1 NS2 U1 S1 U2 S2 r1 r2.
  destruct (sw_textbook bld pow0 V lam n ew1 sw1 pu1 cs1 n1 C1 LS pos1 bx1 rcut G1 L1 HL1 s1 x Hx) as (_ & Q1). destruct (Q1 NS1) as (E1 & T1).
  destruct (sw_textbook bld pow0 V lam n ew2 sw2 pu2 cs2 n2 C2 LS pos2 bx2 rcut G2 L2 HL2 s2 y Hy) as (_ & Q2). destruct (Q2 NS2) as (E2 & T2).
  fold r1 in E1, T1. fold r2 in E2, T2. clearbody r1 r2.
  pose proof (sc_m _ _ _ _ _ _ _ _ SC) as MP. assert (MR : INR m <> 0) by (apply not_0_INR; lia).
  assert (NR : INR (inconf (cs1 x)) <> 0) by (apply not_0_INR; lia).
  assert (H1 : forall a, (cnfstart (cs1 x) <= a < cnfstart (cs1 x) + inconf (cs1 x))%nat -> all_neighbors (cs1 x) pos1 (bx1 x) rcut a (L1 x a)) by (intros; apply HL1; auto).
  assert (H2 : forall a, (cnfstart (cs2 y) <= a < cnfstart (cs2 y) + inconf (cs2 y))%nat -> all_neighbors (cs2 y) pos2 (bx2 y) rcut a (L2 y a)) by (intros; apply HL2; auto).
  split.
  - rewrite E1, E2, (sc_number _ _ _ _ _ _ _ _ SC), mult_INR.
    rewrite (same_energy _ _ _ _ _ _ _ _ SC rcut _ _ (L1 x) (L2 y) H1 H2), (same_three_energy _ _ _ _ _ _ _ _ SC rcut (L1 x) (L2 y) H1 H2). field. auto.
  - intros k K. rewrite (T1 ST U1 S1 k K), (T2 ST U2 S2 k K), (sc_volume _ _ _ _ _ _ _ _ SC).
    rewrite (same_virial _ _ _ _ _ _ _ _ SC rcut _ _ (L1 x) (L2 y) H1 H2), (same_three_virial _ _ _ _ _ _ _ _ SC rcut (L1 x) (L2 y) H1 H2). field. auto.
Qed.

(** ** Structures in the unit cube or twice it *)
Definition listed (n : nat) (pos : nat -> vec) (b : box) (rc : R) (sc : image) (i : nat) : list neigh :=
  match init_neighbors 0 n pos (fun _ => 0%nat) b (fun _ _ => rc) sc true i with Neighbors l => l | _ => [] end.
Definition plain (n : nat) (vol : R) (f s : bool) (nbs : nat -> list neigh) : conf :=
  mk_conf 0 n f s 1 vol nbs (fun _ => 0%nat) (fun _ => true) (fun _ => 0) (fun _ => v0) 0 (fun _ => 0).
Lemma listed_ok : forall n pos b rc sc i, (i < n)%nat -> 
  (forall j m, (j < n)%nat -> displacement pos b i j m = v0 -> j = i /\ m = (0, 0, 0)%Z) ->
  init_neighbors 0 n pos (fun _ => 0%nat) b (fun _ _ => rc) sc true i = Neighbors (listed n pos b rc sc i).
Proof.
  intros n pos b rc sc i Hi H. unfold listed.
  pose proof (init_neighbors_spec 0 n pos (fun _ => 0%nat) b (fun _ _ => rc) sc true i) as S. cbv zeta in S.
  destruct (init_neighbors _ _ _ _ _ _ _ _ _) as [| | |l]; [|destruct S|destruct S|auto].
  exfalso. destruct S as (j & m & J & W & (NS & O)). apply NS. destruct (H j m) as [A B]; auto; unfold j_start in J; lia.
Qed.
Lemma plain_geometry : forall n vol f s pos b t rm sc rc, make_box b = Some (t, vol) -> 0 <= rm -> init_box_vectors t rm = Some sc -> rc <= rm ->
  (forall i, (i < n)%nat -> in_cell b (pos i)) ->
  (forall i j m, (i < n)%nat -> (j < n)%nat -> displacement pos b i j m = v0 -> j = i /\ m = (0, 0, 0)%Z) ->
  full_geometry (plain n vol f s (listed n pos b rc sc)) pos b (fun _ _ => rc).
Proof.
  intros n vol f s pos b t rm sc rc MB R0 IB RC IC NO. constructor; cbn [plain cnfstart inconf conf_vol typ nb].
  - exists t, rm, sc. split; [auto|]. split; [auto|]. split; [auto|]. split; [auto|]. intros i Hi. apply listed_ok; [lia|]. intros j m J. apply NO; lia.
  - intros i Hi. apply IC. lia.
  - auto.
Qed.
(** configurations of a run with this one only *)
Definition only (n : nat) (vol : R) (f s : bool) (nbs : nat -> list neigh) (k : nat) : conf :=
  if Nat.eqb k 0 then plain n vol f s nbs else mk_conf n 0 f s 1 vol nbs (fun _ => 0%nat) (fun _ => true) (fun _ => 0) (fun _ => v0) 0 (fun _ => 0).
Lemma single_cont : forall n vol f s nbs ci, cnfstart (only n vol f s nbs (S ci)) = (cnfstart (only n vol f s nbs ci) + inconf (only n vol f s nbs ci))%nat.
Proof. intros. destruct ci; simpl; lia. Qed.

(** a lattice coordinate smaller than 1 is zero *)
Lemma small_zero : forall z e, Rabs (IZR z + e) < 1/2 -> Rabs e < 1/2 -> z = 0%Z.
Proof.
  intros z e H1 H2. apply Rabs_def2 in H1, H2.
  assert (A : IZR (-1) < IZR z) by (simpl; lra). assert (B : IZR z < IZR 1) by (simpl; lra). apply lt_IZR in A, B. lia.
Qed.
Lemma comp_le_norm : forall v, Rabs (vx v) <= norm v /\ Rabs (vy v) <= norm v /\ Rabs (vz v) <= norm v.
Proof.
  intros v. pose proof (norm_nonneg v) as N. pose proof (norm_sqr v) as S. unfold sprod in S.
  assert (forall x, x * x <= norm v * norm v -> Rabs x <= norm v).
  { intros x H. apply Rsqr_le_abs_0 in H. rewrite (Rabs_pos_eq (norm v)) in H; auto. }
  pose proof (Rle_0_sqr (vx v)). pose proof (Rle_0_sqr (vy v)). pose proof (Rle_0_sqr (vz v)). unfold Rsqr in *.
  repeat split; apply H; lra.
Qed.

(** ** One atom in the unit cube, cutoff 1: all neighbours are images of the atom *)
Definition one := only 1 1 true true (listed 1 origin cube 1 (1, 1, 1)%Z).
Lemma one_full : full_geometry (one 0) origin cube (fun _ _ => 1).
Proof.
  apply (plain_geometry 1 1 true true origin cube cube 1 (1, 1, 1)%Z 1); [exact cube_box|lra|exact cube_scale|lra| |].
  - intros i _. exists v0. split; [unfold origin, comb; vring|]. simpl. lra.
  - intros i j [[x y] z] Hi Hj O. rewrite cube_displacement in O. injection O as X Y Z. apply eq_IZR in X, Y, Z. subst. split; [lia|auto].
Qed.
Lemma nil_vec : forall x y z, V3 x y z = v0 -> x = 0 /\ y = 0 /\ z = 0.
Proof. intros. unfold v0 in H. injection H. auto. Qed.

(** the same crystal with two atoms per cell *)
Definition two_atoms := only 2 2 true true (listed 2 pair_pos two_box 1 (1, 1, 1)%Z).
Lemma two_box_made : make_box two_box = Some (mk_box (V3 1 0 0) (V3 0 1 0) (V3 0 0 (1/2)), 2).
Proof.
  unfold make_box, two_box; simpl. destruct (Req_EM_T 0 _) as [E|N]; unfold sprod, vec_prod in *; simpl in *; [exfalso; lra|].
  f_equal. f_equal; [|ring]. f_equal; unfold unscale; apply vec_eq; simpl; field.
Qed.
Lemma two_scale : init_box_vectors (mk_box (V3 1 0 0) (V3 0 1 0) (V3 0 0 (1/2))) 1 = Some (1, 1, 1)%Z.
Proof.
  unfold init_box_vectors; cbn [NbrModel.bx by_ bz]. replace (norm (V3 1 0 0)) with 1 by (symmetry; apply cube_norm). replace (norm (V3 0 1 0)) with 1 by (symmetry; apply cube_norm).
  replace (norm (V3 0 0 (1/2))) with (1/2).
  - rewrite (ceil_unique (1 * 1) 1) by (simpl; lra). rewrite (ceil_unique (1 * (1/2)) 1) by (simpl; lra). reflexivity.
  - unfold norm, sprod; simpl. replace (0 * 0 + 0 * 0 + 1/2 * (1/2)) with ((1/2) * (1/2)) by field. rewrite sqrt_square; lra.
Qed.
Lemma two_displacement : forall i j n, displacement pair_pos two_box i j n =
  let '(x, y, z) := n in V3 (IZR x) (IZR y) (2 * IZR z + (if Nat.eqb j 0 then 0 else 1) - (if Nat.eqb i 0 then 0 else 1)).
Proof. intros i j [[x y] z]. unfold displacement, pair_pos, comb, two_box. destruct (Nat.eqb i 0), (Nat.eqb j 0); apply vec_eq; simpl; ring. Qed.
Lemma two_full : full_geometry (two_atoms 0) pair_pos two_box (fun _ _ => 1).
Proof.
  apply (plain_geometry 2 2 true true pair_pos two_box _ 1 (1, 1, 1)%Z 1 two_box_made); [lra|exact two_scale|lra| |].
  - intros i Hi. assert (i = 0 \/ i = 1)%nat as [-> | ->] by lia; unfold pair_pos; simpl.
    + exists v0. split; [unfold comb; vring|]. simpl. lra.
    + exists (V3 0 0 (1/2)). split; [unfold comb, two_box; apply vec_eq; simpl; field|]. simpl. lra.
  - intros i j [[x y] z] Hi Hj O. rewrite two_displacement in O. apply nil_vec in O. destruct O as (X & Y & Z). apply eq_IZR in X, Y.
    assert (i = 0 \/ i = 1)%nat as [-> | ->] by lia; assert (j = 0 \/ j = 1)%nat as [-> | ->] by lia; cbn [Nat.eqb] in Z.
    + split; auto. assert (IZR z = 0) by lra. apply eq_IZR in H. subst. auto.
    + exfalso. assert (IZR (2 * z + 1) = 0) by (rewrite plus_IZR, mult_IZR; lra). apply eq_IZR in H. lia.
    + exfalso. assert (IZR (2 * z - 1) = 0) by (rewrite minus_IZR, mult_IZR; lra). apply eq_IZR in H. lia.
    + split; auto. assert (IZR z = 0) by lra. apply eq_IZR in H. subst. auto.
Qed.
Lemma two_same : same_crystal (one 0) (two_atoms 0) origin pair_pos cube two_box 2 (tau 1 1 2 (one 0) (two_atoms 0)).
Proof.
  apply (super_same 1 1 2 (one 0) (two_atoms 0) origin pair_pos cube two_box) with (t1 := cube) (t2 := mk_box (V3 1 0 0) (V3 0 1 0) (V3 0 0 (1/2))); [|exact cube_box|exact two_box_made].
  destruct two_super as [A B C D E]. constructor; auto.
Qed.

(** a repulsive pair term without three-body part *)
Definition repulsive (k p : nat) : R := if Nat.eqb k 0 then (if Nat.eqb p 0 then 1 else if Nat.eqb p 5 then 2 else 0) else 0.
Lemma rep_bond : forall c pos b i v, (forall a, typ c a = 0%nat) -> 0 <= bond_energy c pos b (two (par repulsive 1)) (two_in (par repulsive 1)) i v /\
  (dist pos b i v < 2 -> 0 < bond_energy c pos b (two (par repulsive 1)) (two_in (par repulsive 1)) i v).
Proof.
  intros c pos b i v T. unfold bond_energy, active. rewrite !T. set (r := dist pos b i v).
  change (two_in (par repulsive 1) 0 0 r) with (if Rlt_dec r 2 then true else false).
  change (two (par repulsive 1) 0 0 r) with ((1 * Rpower r (- 0) - 0 * Rpower r (- 0)) * exp (0 / (r - 2))).
  assert (P : 0 < (1 * Rpower r (- 0) - 0 * Rpower r (- 0)) * exp (0 / (r - 2))).
  { pose proof (exp_pos (0 / (r - 2))). assert (0 < Rpower r (- 0)) by (apply exp_pos). apply Rmult_lt_0_compat; lra. }
  destruct (Rlt_dec r 2); split; intros; lra.
Qed.
Lemma no_three : forall c pos b par L, three_energy c pos b (three par (fun _ _ _ => 0)) L = 0.
Proof.
  intros. unfold three_energy. apply rsumf_zero. intros a _. rewrite rsumf_zero; [ring|]. intros v _. apply rsumf_zero. intros w _.
  unfold at_, three, bend. ring.
Qed.
Lemma sum_pos : forall {A} (f : A -> R) l x, (forall y, In y l -> 0 <= f y) -> In x l -> 0 < f x -> 0 < rsumf f l.
Proof.
  intros A f l x. induction l as [|y l IH]; intros N X P; [destruct X|]. rewrite rsumf_cons.
  assert (0 <= rsumf f l) by (apply rsumf_nonneg; intros; apply N; right; auto).
  destruct X as [->|X]; [lra|]. pose proof (N y (or_introl eq_refl)). assert (0 < rsumf f l) by (apply IH; auto; intros; apply N; right; auto). lra.
Qed.

Section Witness.
Variables (bld : build) (pow0 : R -> R -> R) (ew sw : R).
Notation P := (par repulsive 1).
Notation run cs := (calc_forces bld pow0 repulsive (fun _ _ _ => 0) 1 ew sw 0 cs 1).
Definition zero_dev : dev := mk_dev (fun _ => v0) (fun _ => 0) (fun _ _ => 0) 0.
Variable L1 : nat -> list (nat * image).
Hypothesis HL1 : forall a, (0 <= a < 0 + 1)%nat -> all_neighbors (one 0) origin cube (fun _ _ => 1) a (L1 a).
Notation PE1 := (pair_energy (one 0) origin cube (two P) (two_in P) L1).
Lemma in_L1 : In (0%nat, (0, 0, 1)%Z) (L1 0%nat).
Proof.
  apply (HL1 0%nat ltac:(lia)). split; [simpl; lia|]. split; [intros [_ K]; discriminate|]. rewrite cube_displacement. unfold norm, sprod; simpl.
  replace (0 * 0 + 0 * 0 + 1 * 1) with 1 by ring. rewrite sqrt_1. lra.
Qed.
Lemma near1 : forall a, dist origin cube a (0%nat, (0, 0, 1)%Z) = 1.
Proof.
  intros. unfold dist, dvec. cbn [fst snd]. rewrite cube_displacement. unfold norm, sprod; simpl.
  replace (0 * 0 + 0 * 0 + 1 * 1) with 1 by ring. apply sqrt_1.
Qed.
Lemma PE1_pos : 0 < PE1.
Proof.
  unfold pair_energy. apply Rmult_lt_0_compat; [lra|].
  apply (sum_pos _ _ 0%nat); [|simpl; auto|].
  - intros a _. apply rsumf_nonneg. intros v _. apply rep_bond. auto.
  - apply (sum_pos _ _ (0%nat, (0, 0, 1)%Z)); [|apply in_L1|].
    + intros v _. apply rep_bond. auto.
    + apply rep_bond; auto. rewrite near1. lra.
Qed.
Lemma one_self : self_energy (one 0) origin cube L1 (two P) (two_in P) = PE1.
Proof.
  unfold self_energy, pair_energy. f_equal. apply rsumf_ext. intros a Ha. apply rsumf_ext. intros [j m] V.
  assert (A : a = 0%nat) by (apply in_seq in Ha; simpl in Ha; lia). subst a. apply (HL1 0%nat ltac:(lia)) in V. destruct V as [J _].
  change (cnfstart (one 0)) with 0%nat in J. change (inconf (one 0)) with 1%nat in J. cbn [fst]. replace j with 0%nat by lia. auto.
Qed.
Lemma one_energy : en (run one zero_dev) 0%nat = PE1 / 2.
Proof.
  destruct (sw_values bld pow0 repulsive (fun _ _ _ => 0) 1 ew sw 0 one 1) with (pos := origin) (bx := fun _ : nat => cube) (rcut := fun _ _ : nat => 1) (L := fun _ : nat => L1) (s := zero_dev) (ci := 0%nat) as (_ & _ & E & _).
  - intros ci. apply single_cont.
  - auto.
  - intros ci H. replace ci with 0%nat by lia. apply one_full.
  - intros ci a H Ha. replace ci with 0%nat in * by lia. apply HL1. exact Ha.
  - lia.
  - rewrite E, one_self, no_three. change (INR (inconf (one 0))) with 1. change (energy_0 (one 0)) with 0. field.
Qed.
Variable L2 : nat -> list (nat * image).
Hypothesis HL2 : forall a, (0 <= a < 0 + 2)%nat -> all_neighbors (two_atoms 0) pair_pos two_box (fun _ _ => 1) a (L2 a).
Notation PE2 := (pair_energy (two_atoms 0) pair_pos two_box (two P) (two_in P) L2).
Notation SE2 := (self_energy (two_atoms 0) pair_pos two_box L2 (two P) (two_in P)).
Lemma two_energy : en (run two_atoms zero_dev) 0%nat = (PE2 - 1/2 * SE2) / 2.
Proof.
  destruct (sw_values bld pow0 repulsive (fun _ _ _ => 0) 1 ew sw 0 two_atoms 1) with (pos := pair_pos) (bx := fun _ : nat => two_box) (rcut := fun _ _ : nat => 1) (L := fun _ : nat => L2) (s := zero_dev) (ci := 0%nat) as (_ & _ & E & _).
  - intros ci. apply single_cont.
  - auto.
  - intros ci H. replace ci with 0%nat by lia. apply two_full.
  - intros ci a H Ha. replace ci with 0%nat in * by lia. apply HL2. exact Ha.
  - lia.
  - rewrite E, no_three. change (INR (inconf (two_atoms 0))) with (1 + 1). change (energy_0 (two_atoms 0)) with 0. field.
Qed.
Lemma two_once : PE2 = 2 * PE1.
Proof.
  rewrite (same_energy _ _ _ _ _ _ _ _ two_same (fun _ _ => 1) (two P) (two_in P) L1 L2); [simpl; ring|exact HL1|exact HL2].
Qed.
Lemma in_L2 : In (1%nat, (0, 0, 0)%Z) (L2 0%nat).
Proof.
  apply (HL2 0%nat ltac:(lia)). split; [simpl; lia|]. split; [intros [K _]; discriminate|]. rewrite two_displacement. cbn [Nat.eqb]. unfold norm, sprod; simpl.
  match goal with |- sqrt ?x <= 1 => replace x with 1 by ring end. rewrite sqrt_1. lra.
Qed.
Lemma SE2_less : SE2 < PE2.
Proof.
  assert (0 < PE2 - SE2); [|lra]. unfold pair_energy, self_energy.
  set (E := bond_energy (two_atoms 0) pair_pos two_box (two P) (two_in P)).
  assert (Q : rsumf (fun a => rsumf (E a) (L2 a)) (seq (cnfstart (two_atoms 0)) (inconf (two_atoms 0))) =
    rsumf (fun a => rsumf (fun v => if Nat.eqb (fst v) a then E a v else 0) (L2 a)) (seq (cnfstart (two_atoms 0)) (inconf (two_atoms 0))) +
    rsumf (fun a => rsumf (fun v => if Nat.eqb (fst v) a then 0 else E a v) (L2 a)) (seq (cnfstart (two_atoms 0)) (inconf (two_atoms 0)))).
  { rewrite <- rsumf_plus. apply rsumf_ext. intros a _. rewrite <- rsumf_plus. apply rsumf_ext. intros v _. destruct (Nat.eqb (fst v) a); ring. }
  rewrite Q. clear Q.
  assert (0 < rsumf (fun a => rsumf (fun v => if Nat.eqb (fst v) a then 0 else E a v) (L2 a)) (seq (cnfstart (two_atoms 0)) (inconf (two_atoms 0)))); [|lra].
  apply (sum_pos _ _ 0%nat).
  - intros a _. apply rsumf_nonneg. intros v _. destruct (Nat.eqb (fst v) a); [lra|apply rep_bond; auto].
  - simpl. auto.
  - apply (sum_pos _ _ (1%nat, (0, 0, 0)%Z)); [|apply in_L2|].
    + intros v _. match goal with |- 0 <= (if ?x then _ else _) => destruct x end; [lra|apply rep_bond; auto].
    + cbn [fst Nat.eqb]. apply rep_bond; auto. unfold dist, dvec. cbn [fst snd]. rewrite two_displacement. cbn [Nat.eqb]. unfold norm, sprod; simpl.
      match goal with |- sqrt ?x < 2 => replace x with 1 by ring end. rewrite sqrt_1. lra.
Qed.
Theorem cells_differ : en (run one zero_dev) 0%nat < en (run two_atoms zero_dev) 0%nat.
Proof. rewrite one_energy, two_energy. pose proof two_once. pose proof SE2_less. lra. Qed.
Theorem one_half : en (run one zero_dev) 0%nat = PE1 / 2 /\ 0 < PE1.
Proof. split; [apply one_energy|apply PE1_pos]. Qed.
End Witness.
