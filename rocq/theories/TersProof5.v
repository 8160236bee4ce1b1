(** The Tersoff routines as a whole; refutations and examples. *)
From Coq Require Import Reals ZArith List Bool Lia Lra.
From Verif Require Import Vec NbrModel NbrProof NbrProof2 NbrProof3 LoopUtil PairIndexModel PairModel PairProof PairSpec PairProof2 PairProof3 LammpsModel
  GradProof CellSpec CellProof CellProof2 ThreeSpec ThreeProof ThreeProof2 ThreeProof3 ThreeProof4 ThreeProof5 AddProof SwModel SwSpec SwProof SwProof2 SwProof3 SwProof4 SwProof5 AngProof2
  BoSpec BoProof BoProof2 BoProof3 TersModel TersSpec TersProof TersProof2 TersProof3 TersProof4.
Import ListNotations.
Local Open Scope R_scope.

Lemma par_of_sym : forall V omega n s t, par_of V omega n s t = par_of V omega n t s.
Proof. intros. unfold par_of. rewrite (col_sym n s t). auto. Qed.
Lemma mod_of_sym : forall V n s t, mod_of V n s t = mod_of V n t s.
Proof. intros. unfold mod_of. rewrite (col_sym n s t). auto. Qed.
Lemma repel'_sym : forall V omega n s t r, repel' (par_of V omega n) s t r = repel' (par_of V omega n) t s r.
Proof. intros. unfold repel', fc, fc'. rewrite (par_of_sym V omega n s t). auto. Qed.
Lemma reach_sym : forall V omega n s t r, reach (par_of V omega n) s t r = reach (par_of V omega n) t s r.
Proof. intros. unfold reach. rewrite (par_of_sym V omega n s t). auto. Qed.
Lemma mrepel'_sym : forall V n s t r, mrepel' (mod_of V n) s t r = mrepel' (mod_of V n) t s r.
Proof. intros. unfold mrepel', mfc, mfc'. rewrite (mod_of_sym V n s t). auto. Qed.
Lemma mreach_sym : forall V n s t r, mreach (mod_of V n) s t r = mreach (mod_of V n) t s r.
Proof. intros. unfold mreach. rewrite (mod_of_sym V n s t). auto. Qed.

Section Standard.
Variables (bld : build) (pow0 : R -> R -> R) (V : nat -> nat -> R) (n : nat) (omega : nat -> R).
Notation pw := (cpow pow0).
Notation par := (par_of V omega n).
Notation inst F := (F bld (attract par) (attract' par) (order pw par) (order' pw par) (around par) around1 (around2 par) (aroundc par) (repel par) (repel' par) (reach par)
  (repel'_sym V omega n) (reach_sym V omega n) (bond_body bld pow0 V n omega) (TersModel.pair_body bld V n)
  (fun c pos b ci B i v D H => bond_body_adds bld pow0 V omega n c pos b ci B i v D H) (fun c pos b ci B i v D H => pair_body_adds bld V omega n c pos b ci B i v D H)).
Definition ters_values := inst (@bo_values).
Definition ters_textbook := inst (@bo_textbook).
Definition ters_sum_zero := inst (@bo_sum_zero).
Definition ters_error := inst (@bo_error).
Definition ters_cell := inst (@bo_cell_independent).
Definition ters_half := inst (@self_half).
Definition ters_cells := inst (@self_cells).
End Standard.
Section Modified.
Variables (bld : build) (pow0 : R -> R -> R) (V : nat -> nat -> R) (n : nat).
Notation pw := (cpow pow0).
Notation par := (mod_of V n).
Notation inst F := (F bld (mattract par) (mattract' par) (morder pw par) (morder' pw par) (maround pw par) (maround1 pw par) (maround2 pw par) (maroundc pw par) (mrepel par) (mrepel' par) (mreach par)
  (mrepel'_sym V n) (mreach_sym V n) (mod_bond_body bld pow0 V n) (mod_pair_body bld V n)
  (fun c pos b ci B i v D H => mod_bond_body_adds bld pow0 V n c pos b ci B i v D H) (fun c pos b ci B i v D H => mod_pair_body_adds bld V n c pos b ci B i v D H)).
Definition mod_values := inst (@bo_values).
Definition mod_textbook := inst (@bo_textbook).
Definition mod_sum_zero := inst (@bo_sum_zero).
Definition mod_error := inst (@bo_error).
Definition mod_cell := inst (@bo_cell_independent).
Definition mod_half := inst (@self_half).
Definition mod_cells := inst (@self_cells).
End Modified.

(** ** Only repulsion: A = 1, R = 1, S = 2 *)
Definition pushing (k p : nat) : R := match p with 0%nat => 1 | 7%nat => 1 | 9%nat => 2 | 10%nat => 1 | _ => 0 end.
Definition no_omega (k : nat) : R := 0.
Lemma pushing_pos : forall r, r < 2 -> reach (par_of pushing no_omega 1) 0 0 r = true /\ 0 < repel (par_of pushing no_omega 1) 0 0 r.
Proof.
  intros r H. split; [unfold reach; change (t_S (par_of pushing no_omega 1 0 0)) with 2; destruct (Rlt_dec r 2); auto; lra|].
  unfold repel. apply Rmult_lt_0_compat; [apply fc_pos; [intros; simpl; lra|exact H]|]. change (t_A (par_of pushing no_omega 1 0 0)) with 1. rewrite Rmult_1_l. apply exp_pos.
Qed.
Lemma pushing_non : forall r, reach (par_of pushing no_omega 1) 0 0 r = true -> 0 <= repel (par_of pushing no_omega 1) 0 0 r.
Proof. intros r H. left. apply pushing_pos. unfold reach in H. change (t_S (par_of pushing no_omega 1 0 0)) with 2 in H. destruct (Rlt_dec r 2); auto; discriminate. Qed.
Lemma pushing_nop : forall r, attract (par_of pushing no_omega 1) 0 0 r = 0.
Proof. intros r. unfold attract. change (t_B (par_of pushing no_omega 1 0 0)) with 0. ring. Qed.
Lemma ters_self_refuted : exists V omega n cs pos bx rcut s,
  (forall ci, cnfstart (cs (S ci)) = (cnfstart (cs ci) + inconf (cs ci))%nat) /\
  full_geometry (cs 0%nat) pos bx rcut /\ uf (cs 0%nat) = true /\
  exists L, (forall a, (cnfstart (cs 0%nat) <= a < cnfstart (cs 0%nat) + inconf (cs 0%nat))%nat -> all_neighbors (cs 0%nat) pos bx rcut a (L a)) /\
  forall bld pow0 ew sw, let P := par_of V omega n in
  en (TersModel.calc_forces bld pow0 V n ew sw 0 omega cs 1 s) 0%nat <>
  (pair_energy (cs 0%nat) pos bx (repel P) (reach P) L + bo_energy (cs 0%nat) pos bx (attract P) (order (cpow pow0) P) (around P) L)
    / INR (inconf (cs 0%nat)) - energy_0 (cs 0%nat).
Proof.
  exists pushing, no_omega, 1%nat, one, origin, cube, (fun _ _ => 1), zero_dev.
  split; [apply single_cont|]. split; [exact one_full|]. split; [auto|].
  destruct (full_neighbors _ _ _ _ one_full) as (L & HL). exists L. split; [exact HL|]. intros bld pow0 ew sw.
  exact (ters_half bld pow0 pushing 1 no_omega pushing_pos pushing_non pushing_nop ew sw L HL).
Qed.
Lemma ters_cells_refuted : exists V omega n cs1 cs2 pos1 pos2 bx1 bx2 rcut m tau s,
  (forall ci, cnfstart (cs1 (S ci)) = (cnfstart (cs1 ci) + inconf (cs1 ci))%nat) /\
  (forall ci, cnfstart (cs2 (S ci)) = (cnfstart (cs2 ci) + inconf (cs2 ci))%nat) /\
  full_geometry (cs1 0%nat) pos1 bx1 rcut /\ full_geometry (cs2 0%nat) pos2 bx2 rcut /\
  same_crystal (cs1 0%nat) (cs2 0%nat) pos1 pos2 bx1 bx2 m tau /\
  energy_0 (cs1 0%nat) = energy_0 (cs2 0%nat) /\
  forall bld pow0 ew sw,
  en (TersModel.calc_forces bld pow0 V n ew sw 0 omega cs1 1 s) 0%nat < en (TersModel.calc_forces bld pow0 V n ew sw 0 omega cs2 1 s) 0%nat.
Proof.
  exists pushing, no_omega, 1%nat, one, two_atoms, origin, pair_pos, cube, two_box, (fun _ _ => 1), 2%nat, (tau 1 1 2 (one 0) (two_atoms 0)), zero_dev.
  split; [apply single_cont|]. split; [apply single_cont|]. split; [exact one_full|]. split; [exact two_full|]. split; [exact two_same|]. split; [auto|].
  intros bld pow0 ew sw.
  destruct (full_neighbors _ _ _ _ one_full) as (L1 & H1). destruct (full_neighbors _ _ _ _ two_full) as (L2 & H2).
  exact (ters_cells bld pow0 pushing 1 no_omega pushing_pos pushing_non pushing_nop ew sw L1 H1 L2 H2).
Qed.
(** the same for the modified form: A = 1, R1 = 1, R2 = 2 *)
Definition mpushing (k p : nat) : R := match p with 0%nat => 1 | 10%nat => 1 | 14%nat => 1 | 15%nat => 2 | _ => 0 end.
Lemma cos_triple : forall y, cos (3 * y) = 4 * (cos y * cos y * cos y) - 3 * cos y.
Proof.
  intros y. replace (3 * y) with (2 * y + y) by ring. rewrite cos_plus, cos_2a, sin_2a. pose proof (sin2_cos2 y) as S. unfold Rsqr in S.
  replace (sin y * sin y) with (1 - cos y * cos y) by lra.
  replace (2 * sin y * cos y * sin y) with (2 * cos y * (sin y * sin y)) by ring. replace (sin y * sin y) with (1 - cos y * cos y) by lra. ring.
Qed.
Lemma mfc_pos : forall par s t x, m_R1 (par s t) < m_R2 (par s t) -> x < m_R2 (par s t) -> 0 < mfc par s t x.
Proof.
  intros par s t x O H. unfold mfc. set (w := par s t) in *. destruct (Rlt_dec x (m_R2 w)); [|lra]. destruct (Rlt_dec x (m_R1 w)); [lra|].
  set (y := PI * (x - m_R1 w) / (m_R2 w - m_R1 w)). pose proof PI_RGT_0 as PP.
  assert (0 <= y < PI).
  { assert (I : 0 < / (m_R2 w - m_R1 w)) by (apply Rinv_0_lt_compat; lra). unfold y, Rdiv. split.
    - apply Rmult_le_pos; [apply Rmult_le_pos; lra|lra].
    - apply Rmult_lt_reg_r with (m_R2 w - m_R1 w); [lra|]. rewrite Rmult_assoc, Rinv_l, Rmult_1_r by lra. apply Rmult_lt_compat_l; lra. }
  assert (A : cos PI < cos y) by (apply cos_decreasing_1; lra). rewrite cos_PI in A. pose proof (COS_bound y) as B. rewrite cos_triple. set (c := cos y) in *.
  replace (1/2 + 9/16 * c - 1/16 * (4 * (c * c * c) - 3 * c)) with ((1 + c) * (1 + c) * (2 - c) / 4) by field.
  assert (0 < (1 + c) * (1 + c)) by (apply Rmult_lt_0_compat; lra). assert (0 < (1 + c) * (1 + c) * (2 - c)) by (apply Rmult_lt_0_compat; lra). lra.
Qed.
Lemma mpushing_pos : forall r, r < 2 -> mreach (mod_of mpushing 1) 0 0 r = true /\ 0 < mrepel (mod_of mpushing 1) 0 0 r.
Proof.
  intros r H. split; [unfold mreach; change (m_R2 (mod_of mpushing 1 0 0)) with 2; destruct (Rlt_dec r 2); auto; lra|].
  unfold mrepel. apply Rmult_lt_0_compat; [apply mfc_pos; simpl; lra|]. change (m_A (mod_of mpushing 1 0 0)) with 1. rewrite Rmult_1_l. apply exp_pos.
Qed.
Lemma mpushing_non : forall r, mreach (mod_of mpushing 1) 0 0 r = true -> 0 <= mrepel (mod_of mpushing 1) 0 0 r.
Proof. intros r H. left. apply mpushing_pos. unfold mreach in H. change (m_R2 (mod_of mpushing 1 0 0)) with 2 in H. destruct (Rlt_dec r 2); auto; discriminate. Qed.
Lemma mpushing_nop : forall r, mattract (mod_of mpushing 1) 0 0 r = 0.
Proof. intros r. unfold mattract. change (m_B (mod_of mpushing 1 0 0)) with 0. ring. Qed.
Lemma mod_self_refuted : exists V n cs pos bx rcut s,
  (forall ci, cnfstart (cs (S ci)) = (cnfstart (cs ci) + inconf (cs ci))%nat) /\
  full_geometry (cs 0%nat) pos bx rcut /\ uf (cs 0%nat) = true /\
  exists L, (forall a, (cnfstart (cs 0%nat) <= a < cnfstart (cs 0%nat) + inconf (cs 0%nat))%nat -> all_neighbors (cs 0%nat) pos bx rcut a (L a)) /\
  forall bld pow0 ew sw, let P := mod_of V n in
  en (mod_calc_forces bld pow0 V n ew sw 0 cs 1 s) 0%nat <>
  (pair_energy (cs 0%nat) pos bx (mrepel P) (mreach P) L + bo_energy (cs 0%nat) pos bx (mattract P) (morder (cpow pow0) P) (maround (cpow pow0) P) L)
    / INR (inconf (cs 0%nat)) - energy_0 (cs 0%nat).
Proof.
  exists mpushing, 1%nat, one, origin, cube, (fun _ _ => 1), zero_dev.
  split; [apply single_cont|]. split; [exact one_full|]. split; [auto|].
  destruct (full_neighbors _ _ _ _ one_full) as (L & HL). exists L. split; [exact HL|]. intros bld pow0 ew sw.
  exact (mod_half bld pow0 mpushing 1 mpushing_pos mpushing_non mpushing_nop ew sw L HL).
Qed.
Lemma mod_cells_refuted : exists V n cs1 cs2 pos1 pos2 bx1 bx2 rcut m tau s,
  (forall ci, cnfstart (cs1 (S ci)) = (cnfstart (cs1 ci) + inconf (cs1 ci))%nat) /\
  (forall ci, cnfstart (cs2 (S ci)) = (cnfstart (cs2 ci) + inconf (cs2 ci))%nat) /\
  full_geometry (cs1 0%nat) pos1 bx1 rcut /\ full_geometry (cs2 0%nat) pos2 bx2 rcut /\
  same_crystal (cs1 0%nat) (cs2 0%nat) pos1 pos2 bx1 bx2 m tau /\
  energy_0 (cs1 0%nat) = energy_0 (cs2 0%nat) /\
  forall bld pow0 ew sw,
  en (mod_calc_forces bld pow0 V n ew sw 0 cs1 1 s) 0%nat < en (mod_calc_forces bld pow0 V n ew sw 0 cs2 1 s) 0%nat.
Proof.
  exists mpushing, 1%nat, one, two_atoms, origin, pair_pos, cube, two_box, (fun _ _ => 1), 2%nat, (tau 1 1 2 (one 0) (two_atoms 0)), zero_dev.
  split; [apply single_cont|]. split; [apply single_cont|]. split; [exact one_full|]. split; [exact two_full|]. split; [exact two_same|]. split; [auto|].
  intros bld pow0 ew sw.
  destruct (full_neighbors _ _ _ _ one_full) as (L1 & H1). destruct (full_neighbors _ _ _ _ two_full) as (L2 & H2).
  exact (mod_cells bld pow0 mpushing 1 mpushing_pos mpushing_non mpushing_nop ew sw L1 H1 L2 H2).
Qed.

(** ** Configurations that do not use forces *)
Lemma bare_force : forall P P' bo bo' q q1 q2 qc,
  (forall s t u x y z, q1 s t u x y z = 0 /\ q2 s t u x y z = 0 /\ qc s t u x y z = 0) ->
  0 < P' 0%nat 0%nat (1/10) -> (forall z, 0 < bo 0%nat 0%nat z) ->
  vx (bo_force (elbow_conf 0) elbow cube P P' bo bo' q q1 q2 qc elbow_list 1%nat) < 0.
Proof.
  intros P P' bo bo' q q1 q2 qc Z HP HB. unfold bo_force. set (T := bo_grad (elbow_conf 0) elbow cube P P' bo bo' q q1 q2 qc elbow_list).
  assert (Q : vx (vsub (vsum (T 1%nat) (elbow_list 1%nat))
    (vsum (fun i => vsum (fun v => if Nat.eqb (fst v) 1 then T i v else v0) (elbow_list i)) (seq (cnfstart (elbow_conf 0)) (inconf (elbow_conf 0))))) =
    vx (T 1%nat (0%nat, O3)) - vx (T 0%nat (1%nat, O3))).
  { unfold vsum, rsumf; simpl. ring. }
  rewrite Q. clear Q.
  assert (G : forall i v, T i v = vscale (P' (typ (elbow_conf 0) i) (typ (elbow_conf 0) (fst v)) (dist elbow cube i v) *
    bo (typ (elbow_conf 0) i) (typ (elbow_conf 0) (fst v)) (zeta (elbow_conf 0) elbow cube q elbow_list i v) / dist elbow cube i v) (dvec elbow cube i v)).
  { intros i v. unfold T, bo_grad, grad_own, grad_other. apply by_sprod. intros u. rewrite !sprod_add, !sprod_scale, !sprod_sum.
    rewrite !rsumf_zero; [ring| |]; intros w _; rewrite ?sprod_scale, sprod_add, !sprod_scale; unfold at_.
    - destruct (Z (typ (elbow_conf 0) i) (typ (elbow_conf 0) (fst w)) (typ (elbow_conf 0) (fst v)) (dist elbow cube i w) (dist elbow cube i v) (cosine elbow cube i w v)) as (E1 & E2 & E3).
      rewrite E2, E3. unfold Rdiv. ring.
    - destruct (Z (typ (elbow_conf 0) i) (typ (elbow_conf 0) (fst v)) (typ (elbow_conf 0) (fst w)) (dist elbow cube i v) (dist elbow cube i w) (cosine elbow cube i v w)) as (E1 & E2 & E3).
      rewrite E1, E3. unfold Rdiv. ring. }
  rewrite !G, (bent_dist 1%nat), (bent_dist 0%nat), !elbow_d by (simpl; auto; lia). cbn [fst].
  change (typ (elbow_conf 0) 0%nat) with 0%nat. change (typ (elbow_conf 0) 1%nat) with 0%nat.
  set (b1 := bo 0%nat 0%nat _). set (b2 := bo 0%nat 0%nat _). assert (B1 : 0 < b1) by apply HB. assert (B2 : 0 < b2) by apply HB.
  unfold vscale, vsub, elbow, v0; cbn [vx].
  match goal with |- ?e < 0 => replace e with (- (P' 0%nat 0%nat (1/10) * (b1 + b2))) by field end.
  assert (0 < P' 0%nat 0%nat (1/10) * (b1 + b2)) by (apply Rmult_lt_0_compat; lra). lra.
Qed.
(** B = 1, mu = 1, gamma = 1, n = 1, d = 1, S = 1/5, R = 3/20 *)
Definition binding (k p : nat) : R := match p with 1%nat => 1 | 3%nat => 1 | 4%nat => 1 | 5%nat => 1 | 7%nat => 1 | 9%nat => 1/5 | 10%nat => 3/20 | _ => 0 end.
Definition flat (x y : R) : R := 0.   (* powers of numbers that are not positive *)
Lemma flat_pos : forall x y z, 0 < cpow flat (1 + cpow flat x y) z.
Proof.
  intros. assert (0 <= cpow flat x y) by (unfold cpow, flat; destruct (Rlt_dec 0 x); [left; apply exp_pos|lra]).
  unfold cpow at 1. destruct (Rlt_dec 0 (1 + cpow flat x y)); [apply exp_pos|lra].
Qed.
Lemma ters_unused_refuted : exists pow0 V omega n cs pos bx rcut s a,
  (forall ci, cnfstart (cs (S ci)) = (cnfstart (cs ci) + inconf (cs ci))%nat) /\
  full_geometry (cs 0%nat) pos bx rcut /\ uf (cs 0%nat) = false /\ (cnfstart (cs 0%nat) <= a < cnfstart (cs 0%nat) + inconf (cs 0%nat))%nat /\
  forall bld ew sw, frc (TersModel.calc_forces bld pow0 V n ew sw 0 omega cs 1 s) a <> v0.
Proof.
  exists flat, binding, no_omega, 1%nat, elbow_conf, elbow, cube, (fun _ _ => 12/100), zero_dev, 1%nat.
  split; [apply single_cont|]. split; [exact elbow_full|]. split; [auto|]. split; [simpl; lia|]. intros bld ew sw E.
  destruct (ters_values bld flat binding 1 no_omega ew sw 0 elbow_conf 1) with (pos := elbow) (bx := fun _ : nat => cube) (rcut := fun _ _ : nat => 12/100)
    (L := fun _ : nat => elbow_list) (s := zero_dev) (ci := 0%nat) as (_ & F & _).
  - intros ci. apply single_cont.
  - intros ci H. replace ci with 0%nat by lia. apply elbow_full.
  - intros ci a H Ha. replace ci with 0%nat in * by lia. apply elbow_neighbors; auto. simpl in Ha. lia.
  - lia.
  - specialize (F eq_refl 1%nat ltac:(simpl; lia)). 
    change (frame bld ew sw 0 (fun ci c i s => fold_left (bond_body bld flat binding 1 no_omega ci c i) (picks [] (nb c i)) (fold_left (TersModel.pair_body bld binding 1 ci c i) (nb c i) s)))
      with (TersModel.calc_forces bld flat binding 1 ew sw 0 no_omega) in F. rewrite E in F.
    assert (G : vx (bo_force (elbow_conf 0) elbow cube (attract (par_of binding no_omega 1)) (attract' (par_of binding no_omega 1)) (order (cpow flat) (par_of binding no_omega 1)) (order' (cpow flat) (par_of binding no_omega 1))
      (around (par_of binding no_omega 1)) around1 (around2 (par_of binding no_omega 1)) (aroundc (par_of binding no_omega 1)) elbow_list 1%nat) < 0).
    { apply bare_force.
      - intros s t u x y z. unfold around1, around2, aroundc. cbn [par_of t_omega]. unfold no_omega. repeat split; ring.
      - unfold attract', fc, fc'. cbn [par_of t_S t_R t_mu t_B col binding]. destruct (Rlt_dec (1/10) (1/5)); [|exfalso; lra]. destruct (Rlt_dec (1/10) (3/20)); [|exfalso; lra].
        pose proof (exp_pos (- (1) * (1/10))). lra.
      - intros z. apply flat_pos. }
    rewrite <- F in G. simpl in G. lra.
Qed.
(** B = 1, mu = 1, eta = 1, delta = 1/2, c3 = 1, R1 = 3/20, R2 = 1/5 *)
Definition mbinding (k p : nat) : R := match p with 1%nat => 1 | 3%nat => 1 | 4%nat => 1 | 5%nat => 1/2 | 10%nat => 1 | 14%nat => 3/20 | 15%nat => 1/5 | _ => 0 end.
Lemma mod_unused_refuted : exists pow0 V n cs pos bx rcut s a,
  (forall ci, cnfstart (cs (S ci)) = (cnfstart (cs ci) + inconf (cs ci))%nat) /\
  full_geometry (cs 0%nat) pos bx rcut /\ uf (cs 0%nat) = false /\ (cnfstart (cs 0%nat) <= a < cnfstart (cs 0%nat) + inconf (cs 0%nat))%nat /\
  forall bld ew sw, frc (mod_calc_forces bld pow0 V n ew sw 0 cs 1 s) a <> v0.
Proof.
  exists flat, mbinding, 1%nat, elbow_conf, elbow, cube, (fun _ _ => 12/100), zero_dev, 1%nat.
  split; [apply single_cont|]. split; [exact elbow_full|]. split; [auto|]. split; [simpl; lia|]. intros bld ew sw E.
  destruct (mod_values bld flat mbinding 1 ew sw 0 elbow_conf 1) with (pos := elbow) (bx := fun _ : nat => cube) (rcut := fun _ _ : nat => 12/100)
    (L := fun _ : nat => elbow_list) (s := zero_dev) (ci := 0%nat) as (_ & F & _).
  - intros ci. apply single_cont.
  - intros ci H. replace ci with 0%nat by lia. apply elbow_full.
  - intros ci a H Ha. replace ci with 0%nat in * by lia. apply elbow_neighbors; auto. simpl in Ha. lia.
  - lia.
  - specialize (F eq_refl 1%nat ltac:(simpl; lia)). 
    change (frame bld ew sw 0 (fun ci c i s => fold_left (mod_bond_body bld flat mbinding 1 ci c i) (picks [] (nb c i)) (fold_left (mod_pair_body bld mbinding 1 ci c i) (nb c i) s)))
      with (mod_calc_forces bld flat mbinding 1 ew sw 0) in F. rewrite E in F.
    assert (G : vx (bo_force (elbow_conf 0) elbow cube (mattract (mod_of mbinding 1)) (mattract' (mod_of mbinding 1)) (morder (cpow flat) (mod_of mbinding 1)) (morder' (cpow flat) (mod_of mbinding 1))
      (maround (cpow flat) (mod_of mbinding 1)) (maround1 (cpow flat) (mod_of mbinding 1)) (maround2 (cpow flat) (mod_of mbinding 1)) (maroundc (cpow flat) (mod_of mbinding 1)) elbow_list 1%nat) < 0).
    { apply bare_force.
      - intros s t u x y z. unfold maround1, maround2, maroundc, mangle, mangle', spread'. cbn [mod_of m_c1 m_c2 m_c4 m_c5 m_alpha mbinding]. unfold Rdiv. repeat split; ring.
      - unfold mattract', mfc, mfc'. cbn [mod_of m_R1 m_R2 m_mu m_B mbinding]. destruct (Rlt_dec (1/10) (1/5)); [|exfalso; lra]. destruct (Rlt_dec (1/10) (3/20)); [|exfalso; lra].
        pose proof (exp_pos (- (1) * (1/10))). lra.
      - intros z. apply flat_pos. }
    rewrite <- F in G. simpl in G. lra.
Qed.

(** ** Examples for the gradient theorems *)
Definition one_omega (k : nat) : R := 1.
Lemma ters_gradient_ex : let P := par_of binding one_omega 1 in
  (forall s t, t_R (P s t) < t_S (P s t)) /\ (forall s t, t_d (P s t) <> 0) /\ (forall s t, 0 < t_gamma (P s t)) /\ (forall s t, t_n (P s t) <> 0) /\
  (forall s t, 0 <= t_omega (P s t)) /\
  (forall i v, (cnfstart (bent 0) <= i < cnfstart (bent 0) + inconf (bent 0))%nat -> In v (elbow_list i) ->
     dist elbow cube i v <> t_S (P (typ (bent 0) i) (typ (bent 0) (fst v)))).
Proof.
  cbn [par_of t_R t_S t_d t_gamma t_n t_omega binding]. unfold one_omega. repeat split; intros; try lra.
  change (cnfstart (bent 0)) with 0%nat in *. change (inconf (bent 0)) with 3%nat in *. rewrite bent_dist by (auto; lia). cbn [par_of t_S binding]. lra.
Qed.
(** alpha = 1, beta = 1, c1 = 1 and powers as in C where the exponent is 0 or 1 *)
Definition mbending (k p : nat) : R := match p with 6%nat => 1 | 7%nat => 1 | 8%nat => 1 | _ => mbinding k p end.
Definition lin (x y : R) : R := if Req_EM_T y 1 then x else 1.
Lemma lin_id : forall x, cpow lin x 1 = x.
Proof. intros x. unfold cpow, lin. destruct (Rlt_dec 0 x); [apply Rpower_1; auto|]. destruct (Req_EM_T 1 1); auto. lra. Qed.
Lemma mod_gradient_ex : let P := mod_of mbending 1 in
  (forall s t, m_R1 (P s t) < m_R2 (P s t)) /\ (forall s t, 0 < m_c3 (P s t)) /\
  (forall i v w, (cnfstart (bent 0) <= i < cnfstart (bent 0) + inconf (bent 0))%nat -> In v (elbow_list i) -> In w (elbow_list i) -> v <> w ->
     let beta := m_beta (P (typ (bent 0) i) (typ (bent 0) (fst v))) in
     derivable_pt_lim (fun x => cpow lin x beta) (dist elbow cube i v - dist elbow cube i w) (beta * cpow lin (dist elbow cube i v - dist elbow cube i w) (beta - 1))) /\
  (forall i v, (cnfstart (bent 0) <= i < cnfstart (bent 0) + inconf (bent 0))%nat -> In v (elbow_list i) ->
     0 < zeta (bent 0) elbow cube (maround (cpow lin) P) elbow_list i v \/
     forall w, In w (others elbow_list i v) -> m_R2 (P (typ (bent 0) i) (typ (bent 0) (fst w))) < dist elbow cube i w).
Proof.
  cbv zeta. change (cnfstart (bent 0)) with 0%nat. change (inconf (bent 0)) with 3%nat.
  split; [intros; cbn [mod_of m_R1 m_R2 mbending mbinding]; lra|]. split; [intros; cbn [mod_of m_c3 mbending mbinding]; lra|]. split.
  - intros i v w Hi Hv Hw _. rewrite !bent_dist by (auto; lia). cbn [mod_of m_beta mbending].
    apply (deriv_local (fun x => x)); [|exists 1; split; [lra|intros; symmetry; apply lin_id]].
    eapply deriv_eq; [apply derivable_pt_lim_id|]. replace (1/10 - 1/10) with 0 by ring. unfold cpow, lin. destruct (Rlt_dec 0 0); [lra|]. destruct (Req_EM_T (1 - 1) 1); lra.
  - intros i v Hi Hv.
    assert (PO : forall w, In w (elbow_list i) -> 0 < at_ (bent 0) elbow cube (maround (cpow lin) (mod_of mbending 1)) i v w).
    { intros w Hw. unfold at_, maround, spread. rewrite (bent_dist i w) by (auto; lia). apply Rmult_lt_0_compat; [|apply exp_pos]. apply Rmult_lt_0_compat; [apply mfc_pos; cbn [mod_of m_R1 m_R2 mbending mbinding]; lra|].
      unfold mangle. cbn [mod_of m_c1 m_c2 mbending mbinding]. unfold Rdiv. lra. }
    destruct i as [|[|[|]]]; try lia.
    + left. assert (O : exists w, others elbow_list 0 v = [w] /\ In w (elbow_list 0)).
      { simpl in Hv. destruct Hv as [<-|[<-|[]]]; [exists (2%nat, O3)|exists (1%nat, O3)]; split; simpl; auto. }
      destruct O as (w & O & W). unfold zeta. rewrite O. unfold rsumf; simpl. rewrite Rplus_0_r. apply PO; auto.
    + right. intros w W. simpl in Hv. destruct Hv as [<-|[]]. simpl in W. destruct W.
    + right. intros w W. simpl in Hv. destruct Hv as [<-|[]]. simpl in W. destruct W.
Qed.
