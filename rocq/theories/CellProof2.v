(** The supercell of k1 x k2 x k3 cells describes the same crystal. *)
From Coq Require Import Reals ZArith List Bool Lia Lra Permutation.
From Verif Require Import Vec NbrModel NbrProof NbrProof2 NbrProof3 LoopUtil PairModel PairProof PairSpec PairProof2 PairProof3 CellSpec CellProof.
Import ListNotations.
Local Open Scope R_scope.

Lemma count_seq_add : forall a n i, count_occ Nat.eq_dec (seq a n) i = if ((a <=? i) && (i <? a + n))%nat%bool then 1%nat else 0%nat.
Proof.
  intros a n i. destruct ((a <=? i) && (i <? a + n))%nat%bool eqn:E.
  - apply andb_prop in E. destruct E as [E1 E2]. apply Nat.leb_le in E1. apply Nat.ltb_lt in E2.
    apply NoDup_count_occ'; [apply seq_NoDup|apply in_seq; lia].
  - apply count_occ_not_In. intros H. apply in_seq in H. 
    apply andb_false_iff in E. destruct E as [E|E]; [apply Nat.leb_gt in E|apply Nat.ltb_ge in E]; lia.
Qed.
Lemma count_blocks : forall (l1 l2 n k i : nat), (l1 <= i < l1 + n)%nat ->
  count_occ Nat.eq_dec (map (fun A => l1 + (A - l2) mod n)%nat (seq l2 (k * n))) i = k.
Proof.
  intros l1 l2 n k i Hi. induction k; auto. 
  replace (S k * n)%nat with (k * n + n)%nat by lia. rewrite seq_app, map_app, count_occ_app, IHk.
  rewrite (map_ext_in _ (fun A => A - (l2 + k * n) + l1)%nat).
  - replace (map (fun A => A - (l2 + k * n) + l1)%nat (seq (l2 + k * n) n)) with (seq l1 n).
    + rewrite count_seq_add. rewrite (proj2 (Nat.leb_le l1 i)), (proj2 (Nat.ltb_lt i (l1 + n))) by lia. simpl. lia.
    + apply nth_ext with (d := 0%nat) (d' := (0 - (l2 + k * n) + l1)%nat); [rewrite map_length, !seq_length; auto|].
      intros x Hx. rewrite seq_length in Hx. rewrite seq_nth by auto.
      rewrite (map_nth (fun A => A - (l2 + k * n) + l1)%nat). rewrite seq_nth by auto. lia.
  - intros A HA. apply in_seq in HA. replace (A - l2)%nat with ((A - (l2 + k * n)) + k * n)%nat by lia.
    rewrite Nat.mod_add by lia. rewrite Nat.mod_small by lia. lia.
Qed.

Section Super.
Variables (k1 k2 k3 : nat).
Variables (c1 c2 : conf) (pos1 pos2 : nat -> vec) (b1 b2 : box).
Definition cx (q : nat) : nat := (q / (k2 * k3))%nat.
Definition cy (q : nat) : nat := (q / k3 mod k2)%nat.
Definition cz (q : nat) : nat := (q mod k3)%nat.
(** atom [lo2 + q n + i] of the supercell is atom i of the cell (cx q, cy q, cz q) *)
Definition cell_of (A : nat) : nat := ((A - cnfstart c2) / inconf c1)%nat.
Definition atom_of (A : nat) : nat := (cnfstart c1 + (A - cnfstart c2) mod inconf c1)%nat.
Definition offset (q : nat) : vec := comb b1 (V3 (INR (cx q)) (INR (cy q)) (INR (cz q))).
Record supercell : Prop := mk_super {
  su_k : (0 < k1 /\ 0 < k2 /\ 0 < k3)%nat;
  su_number : inconf c2 = (k1 * k2 * k3 * inconf c1)%nat;
  su_box : b2 = mk_box (vscale (INR k1) (bx b1)) (vscale (INR k2) (by_ b1)) (vscale (INR k3) (bz b1));
  su_pos : forall A, (cnfstart c2 <= A < cnfstart c2 + inconf c2)%nat ->
    pos2 A = vadd (pos1 (atom_of A)) (offset (cell_of A));
  su_typ : forall A, (cnfstart c2 <= A < cnfstart c2 + inconf c2)%nat -> typ c2 A = typ c1 (atom_of A) }.
Definition tau (v : nat * image) : nat * image :=
  let '(A, (x, y, z)) := v in
  (atom_of A, (x * Z.of_nat k1 + Z.of_nat (cx (cell_of A)), y * Z.of_nat k2 + Z.of_nat (cy (cell_of A)), z * Z.of_nat k3 + Z.of_nat (cz (cell_of A))))%Z.

Hypothesis SU : supercell.
Notation in1 i := (cnfstart c1 <= i < cnfstart c1 + inconf c1)%nat.
Notation in2 i := (cnfstart c2 <= i < cnfstart c2 + inconf c2)%nat.

Lemma some_atoms : forall A, in2 A -> (0 < inconf c1)%nat.
Proof. intros A HA. rewrite (su_number SU) in HA. nia. Qed.
Lemma ks : (0 < k1 /\ 0 < k2 /\ 0 < k3)%nat. Proof. apply (su_k SU). Qed.
Lemma cell_bound : forall A, in2 A -> (cell_of A < k1 * k2 * k3)%nat.
Proof.
  intros A HA. pose proof (some_atoms A HA). rewrite (su_number SU) in HA. unfold cell_of. apply Nat.div_lt_upper_bound; lia.
Qed.
Lemma cells : forall q, (q < k1 * k2 * k3)%nat -> (cx q < k1 /\ cy q < k2 /\ cz q < k3)%nat /\ q = ((cx q * k2 + cy q) * k3 + cz q)%nat.
Proof.
  intros q Hq. destruct ks as (K1 & K2 & K3). unfold cx, cy, cz. split; [split; [|split]|].
  - apply Nat.div_lt_upper_bound; [nia|]. nia.
  - apply Nat.mod_upper_bound. lia.
  - apply Nat.mod_upper_bound. lia.
  - rewrite (Nat.mul_comm k2 k3), <- Nat.div_div by lia.
    pose proof (Nat.div_mod q k3 ltac:(lia)). pose proof (Nat.div_mod (q / k3) k2 ltac:(lia)). nia.
Qed.
Lemma cells_inv : forall x y z, (x < k1)%nat -> (y < k2)%nat -> (z < k3)%nat ->
  let q := ((x * k2 + y) * k3 + z)%nat in (q < k1 * k2 * k3)%nat /\ cx q = x /\ cy q = y /\ cz q = z.
Proof.
  intros x y z Hx Hy Hz q. destruct ks as (K1 & K2 & K3). 
  assert (E : (q / k3 = x * k2 + y)%nat). { unfold q. rewrite Nat.div_add_l by lia. rewrite Nat.div_small by auto. lia. }
  unfold cx, cy, cz. split; [|split; [|split]].
  - unfold q. assert (x * k2 + y < k1 * k2)%nat by nia. nia.
  - rewrite (Nat.mul_comm k2 k3), <- Nat.div_div by lia. rewrite E, Nat.div_add_l by lia. rewrite Nat.div_small by auto. lia.
  - rewrite E, Nat.add_comm, Nat.mod_add by lia. apply Nat.mod_small. auto.
  - unfold q. rewrite Nat.add_comm, Nat.mod_add by lia. apply Nat.mod_small. auto.
Qed.
Lemma atom_in : forall A, in2 A -> in1 (atom_of A).
Proof.
  intros A HA. pose proof (some_atoms A HA). unfold atom_of.
  pose proof (Nat.mod_upper_bound (A - cnfstart c2) (inconf c1) ltac:(lia)). lia.
Qed.
Lemma atom_cell : forall A B, in2 A -> in2 B -> atom_of A = atom_of B -> cell_of A = cell_of B -> A = B.
Proof.
  intros A B HA HB E1 E2. pose proof (some_atoms A HA). unfold atom_of, cell_of in *.
  pose proof (Nat.div_mod (A - cnfstart c2) (inconf c1) ltac:(lia)). pose proof (Nat.div_mod (B - cnfstart c2) (inconf c1) ltac:(lia)).
  assert (A - cnfstart c2 = B - cnfstart c2)%nat; [|lia]. rewrite H0, H1, E2. f_equal. lia.
Qed.
Lemma split_unique : forall k x r x' r', (0 <= r < k)%Z -> (0 <= r' < k)%Z -> (x * k + r = x' * k + r')%Z -> x = x' /\ r = r'.
Proof. intros k x r x' r' H H' E. assert (x = x') by nia. subst. split; [auto|lia]. Qed.

Lemma super_place : forall A N, in2 A -> place pos1 b1 (tau (A, N)) = place pos2 b2 (A, N).
Proof.
  intros A [[x y] z] HA. unfold place, tau. rewrite (su_pos SU A HA), (su_box SU). unfold offset, comb; simpl.
  rewrite !plus_IZR, !mult_IZR, <- !INR_IZR_INZ. vring.
Qed.
Lemma super_inj : forall A N B M, in2 A -> in2 B -> tau (A, N) = tau (B, M) -> (A, N) = (B, M).
Proof.
  intros A [[x y] z] B [[u v] w] HA HB E. unfold tau in E. injection E as E1 E2 E3 E4.
  destruct (cells _ (cell_bound A HA)) as ((A1 & A2 & A3) & EA). destruct (cells _ (cell_bound B HB)) as ((B1 & B2 & B3) & EB).
  apply split_unique in E2, E3, E4; [|lia..]. destruct E2 as [-> E2], E3 as [-> E3], E4 as [-> E4].
  apply Nat2Z.inj in E2, E3, E4.
  assert (A = B) by (apply atom_cell; auto; rewrite EA, EB, E2, E3, E4; auto).
  congruence.
Qed.
Lemma super_onto : forall i n, in1 i -> exists A N, in2 A /\ tau (A, N) = (i, n).
Proof.
  intros i [[x y] z] Hi. destruct ks as (K1 & K2 & K3).
  assert (D : forall x k, (0 < k)%nat -> exists q r, (r < k)%nat /\ (x = q * Z.of_nat k + Z.of_nat r)%Z).
  { intros u k Hk. exists (u / Z.of_nat k)%Z, (Z.to_nat (u mod Z.of_nat k)). 
    pose proof (Z.mod_pos_bound u (Z.of_nat k) ltac:(lia)). pose proof (Z.div_mod u (Z.of_nat k) ltac:(lia)).
    split; [lia|]. rewrite Z2Nat.id by lia. lia. }
  destruct (D x k1 K1) as (X & x0 & Hx & ->). destruct (D y k2 K2) as (Y & y0 & Hy & ->). destruct (D z k3 K3) as (Z & z0 & Hz & ->).
  destruct (cells_inv x0 y0 z0 Hx Hy Hz) as (HQ & Q1 & Q2 & Q3). set (q := ((x0 * k2 + y0) * k3 + z0)%nat) in *. clearbody q.
  exists (cnfstart c2 + (q * inconf c1 + (i - cnfstart c1)))%nat, (X, Y, Z).
  assert (CE : cell_of (cnfstart c2 + (q * inconf c1 + (i - cnfstart c1))) = q).
  { unfold cell_of. replace (cnfstart c2 + (q * inconf c1 + (i - cnfstart c1)) - cnfstart c2)%nat with (q * inconf c1 + (i - cnfstart c1))%nat by lia.
    rewrite Nat.div_add_l by lia. rewrite Nat.div_small by lia. lia. }
  assert (AE : atom_of (cnfstart c2 + (q * inconf c1 + (i - cnfstart c1))) = i).
  { unfold atom_of. replace (cnfstart c2 + (q * inconf c1 + (i - cnfstart c1)) - cnfstart c2)%nat with ((i - cnfstart c1) + q * inconf c1)%nat by lia.
    rewrite Nat.mod_add by lia. rewrite Nat.mod_small by lia. lia. }
  split.
  - rewrite (su_number SU). nia.
  - unfold tau. rewrite CE, AE, Q1, Q2, Q3. auto.
Qed.
Theorem super_same : forall t1 t2, make_box b1 = Some (t1, conf_vol c1) -> make_box b2 = Some (t2, conf_vol c2) ->
  same_crystal c1 c2 pos1 pos2 b1 b2 (k1 * k2 * k3) tau.
Proof.
  intros t1 t2 V1 V2. destruct ks as (K1 & K2 & K3). constructor.
  - nia.
  - intros A [[x y] z] HA. apply atom_in. auto.
  - apply super_place.
  - intros A [[x y] z] HA. symmetry. apply (su_typ SU). auto.
  - apply super_inj.
  - apply super_onto.
  - intros i Hi. rewrite (su_number SU). apply (count_blocks (cnfstart c1) (cnfstart c2) (inconf c1) (k1 * k2 * k3) i Hi).
  - apply (su_number SU).
  - unfold make_box in V1, V2. destruct (Req_EM_T 0 (sprod (bx b1) _)); [discriminate|]. destruct (Req_EM_T 0 (sprod (bx b2) _)); [discriminate|].
    injection V1 as _ V1. injection V2 as _ V2. rewrite <- V1, <- V2, (su_box SU), !mult_INR. unfold sprod, vec_prod; simpl. ring.
Qed.
End Super.

(** ** The pair force routine *)
Theorem pair_cell_independent : forall bld phi dphi in_range ew1 sw1 ew2 sw2 cp1 cp2 pu1 pu2 cs1 cs2 n1 n2,
  STRESS bld = true ->
  (forall ci, cnfstart (cs1 (S ci)) = (cnfstart (cs1 ci) + inconf (cs1 ci))%nat) ->
  (forall ci, cnfstart (cs2 (S ci)) = (cnfstart (cs2 ci) + inconf (cs2 ci))%nat) ->
  (forall s t r, phi s t r = phi t s r) -> (forall s t r, dphi s t r = dphi t s r) ->
  (forall s t r, in_range s t r = in_range t s r) ->
  forall pos1 pos2 bx1 bx2 rcut,
  (forall ci, (ci < n1)%nat -> geometry (cs1 ci) pos1 (bx1 ci) rcut) ->
  (forall ci, (ci < n2)%nat -> geometry (cs2 ci) pos2 (bx2 ci) rcut) ->
  forall x y m tau s1 s2, (x < n1)%nat -> (y < n2)%nat -> (0 < inconf (cs1 x))%nat -> conf_vol (cs1 x) <> 0 ->
  same_crystal (cs1 x) (cs2 y) pos1 pos2 (bx1 x) (bx2 y) m tau ->
  cp2 y = INR m * cp1 x ->
  uf (cs1 x) = true -> us (cs1 x) = true -> uf (cs2 y) = true -> us (cs2 y) = true ->
  let r1 := calc_forces bld phi dphi in_range ew1 sw1 cp1 pu1 cs1 n1 s1 in
  let r2 := calc_forces bld phi dphi in_range ew2 sw2 cp2 pu2 cs2 n2 s2 in
  en r1 x + energy_0 (cs1 x) = en r2 y + energy_0 (cs2 y) /\
  forall k, (k < 6)%nat -> str r1 x k + stress_0 (cs1 x) k = str r2 y k + stress_0 (cs2 y) k.
Proof.
  intros bld phi dphi in_range ew1 sw1 ew2 sw2 cp1 cp2 pu1 pu2 cs1 cs2 n1 n2 ST C1 C2 PS DS IS pos1 pos2 bx1 bx2 rcut G1 G2
    x y m tau s1 s2 Hx Hy NE VO SC CP U1 S1 U2 S2 r1 r2.
  assert (EX : forall n cs pos bx, (forall ci, (ci < n)%nat -> geometry (cs ci) pos (bx ci) rcut) -> exists L, forall ci a, (ci < n)%nat ->
    (cnfstart (cs ci) <= a < cnfstart (cs ci) + inconf (cs ci))%nat -> all_neighbors (cs ci) pos (bx ci) rcut a (L ci a)).
  { intros n cs pos bx. induction n; intros G.
    - exists (fun _ _ => []). intros; lia.
    - destruct IHn as (L & HL); [intros; apply G; lia|]. destruct (all_neighbors_exist (cs n) pos (bx n) rcut (G n ltac:(lia))) as (M & HM).
      exists (fun ci => if Nat.eqb ci n then M else L ci). intros ci a H Ha. destruct (Nat.eqb_spec ci n) as [E|N]; [rewrite E in *; auto|apply HL; auto; lia]. }
  destruct (EX n1 cs1 pos1 bx1 G1) as (L1 & HL1). destruct (EX n2 cs2 pos2 bx2 G2) as (L2 & HL2).
  destruct (forces_textbook bld phi dphi in_range ew1 sw1 cp1 pu1 cs1 n1 C1 PS DS IS pos1 bx1 rcut G1 L1 HL1 s1 x Hx) as (_ & _ & E1 & T1).
  destruct (forces_textbook bld phi dphi in_range ew2 sw2 cp2 pu2 cs2 n2 C2 PS DS IS pos2 bx2 rcut G2 L2 HL2 s2 y Hy) as (_ & _ & E2 & T2).
  fold r1 in E1, T1. fold r2 in E2, T2.
  pose proof (sc_m _ _ _ _ _ _ _ _ SC) as MP. assert (MR : INR m <> 0) by (apply not_0_INR; lia).
  assert (NR : INR (inconf (cs1 x)) <> 0) by (apply not_0_INR; lia).
  split.
  - rewrite E1, E2, CP, (sc_number _ _ _ _ _ _ _ _ SC), mult_INR.
    rewrite (same_energy _ _ _ _ _ _ _ _ SC rcut phi in_range (L1 x) (L2 y)) by (solve [intros; apply HL1; auto | intros; apply HL2; auto]).
    field. auto.
  - intros k K. rewrite (T1 ST k K), (T2 ST k K), U1, S1, U2, S2. simpl. rewrite (sc_volume _ _ _ _ _ _ _ _ SC).
    rewrite (same_virial _ _ _ _ _ _ _ _ SC rcut dphi in_range (L1 x) (L2 y)) by (solve [intros; apply HL1; auto | intros; apply HL2; auto]).
    field. auto.
Qed.

(** ** Example: two cubes with one atom each are one cell with two atoms *)
Definition pair_pos : nat -> vec := fun i => if Nat.eqb i 0 then v0 else V3 0 0 1.
Definition two_conf : conf := mk_conf 0 2 true true 1 2 (fun _ => []) (fun _ => 0%nat) (fun _ => true) (fun _ => 0) (fun _ => v0) 0 (fun _ => 0).
Definition two_box : box := mk_box (V3 1 0 0) (V3 0 1 0) (V3 0 0 2).
Lemma two_super : supercell 1 1 2 (cube_conf []) two_conf origin pair_pos cube two_box.
Proof.
  constructor.
  - lia.
  - reflexivity.
  - unfold two_box, cube, vscale; simpl. f_equal; f_equal; ring.
  - intros A HA. simpl in HA. assert (A = 0 \/ A = 1)%nat as [-> | ->] by lia; unfold pair_pos, origin, offset, atom_of, cell_of, comb, cx, cy, cz; simpl; vring.
  - auto.
Qed.
Lemma two_volume : exists t, make_box two_box = Some (t, 2).
Proof.
  destruct (make_box_spec two_box) as [_ H]. unfold det, two_box, sprod, vec_prod in H; simpl in H.
  match type of H with ?d <> 0 -> _ => assert (D : d = 2) by ring; rewrite D in H end. apply H. lra.
Qed.
