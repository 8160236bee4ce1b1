(** The Stillinger-Weber routine fills in forces for configurations whose forces are not used. *)
From Coq Require Import Reals ZArith List Bool Lia Lra Permutation.
From Verif Require Import Vec NbrModel NbrProof NbrProof2 NbrProof3 LoopUtil PairIndexModel PairModel PairProof PairSpec PairProof2 PairProof3
  LammpsModel ThreeSpec ThreeProof ThreeProof2 ThreeProof4 ThreeProof5 SwSpec SwModel SwProof SwProof2 SwProof3.
Import ListNotations.
Local Open Scope R_scope.

(** three atoms at a right angle *)
Definition elbow (i : nat) : vec := match i with 0%nat => v0 | 1%nat => V3 (1/10) 0 0 | _ => V3 0 (1/10) 0 end.
Notation O3 := (0, 0, 0)%Z.
Definition elbow_list (i : nat) : list (nat * image) := match i with 0%nat => [(1%nat, O3); (2%nat, O3)] | _ => [(0%nat, O3)] end.
Lemma elbow_displacement : forall i j n, displacement elbow cube i j n =
  let '(x, y, z) := n in V3 (IZR x + (vx (elbow j) - vx (elbow i))) (IZR y + (vy (elbow j) - vy (elbow i))) (IZR z + (vz (elbow j) - vz (elbow i))).
Proof. intros i j [[x y] z]. unfold displacement, comb, cube. apply vec_eq; simpl; ring. Qed.
Lemma elbow_near : forall i j x y z, (i < 3)%nat -> (j < 3)%nat -> norm (displacement elbow cube i j (x, y, z)) <= 12/100 -> (x, y, z) = O3.
Proof.
  intros i j x y z Hi Hj H. rewrite elbow_displacement in H.
  destruct (comp_le_norm (V3 (IZR x + (vx (elbow j) - vx (elbow i))) (IZR y + (vy (elbow j) - vy (elbow i))) (IZR z + (vz (elbow j) - vz (elbow i))))) as (A & B & C).
  cbn [vx vy vz] in A, B, C.
  assert (D : forall k, (k < 3)%nat -> 0 <= vx (elbow k) <= 1/10 /\ 0 <= vy (elbow k) <= 1/10 /\ vz (elbow k) = 0).
  { intros k K. destruct k as [|[|[|]]]; simpl; lra. }
  destruct (D i Hi) as (I1 & I2 & I3). destruct (D j Hj) as (J1 & J2 & J3).
  assert (X : x = 0%Z) by (apply (small_zero x (vx (elbow j) - vx (elbow i))); [lra|apply Rabs_def1; lra]).
  assert (Y : y = 0%Z) by (apply (small_zero y (vy (elbow j) - vy (elbow i))); [lra|apply Rabs_def1; lra]).
  assert (Z : z = 0%Z) by (apply (small_zero z (vz (elbow j) - vz (elbow i))); [lra|apply Rabs_def1; lra]).
  subst. auto.
Qed.
Lemma norm_tenth : forall v, sprod v v = 1/100 -> norm v = 1/10.
Proof. intros v H. unfold norm. rewrite H. replace (1/100) with ((1/10) * (1/10)) by field. apply sqrt_square. lra. Qed.
Lemma elbow_neighbors : forall c i, cnfstart c = 0%nat -> inconf c = 3%nat -> (i < 3)%nat -> all_neighbors c elbow cube (fun _ _ => 12/100) i (elbow_list i).
Proof.
  intros c i C N Hi. split.
  - destruct i as [|[|[|]]]; simpl; repeat constructor; simpl; intuition discriminate.
  - intros j [[x y] z]. rewrite C, N. split.
    + intros IN. assert (Q : (x, y, z) = O3 /\ ((i = 0 /\ (j = 1 \/ j = 2)) \/ (j = 0 /\ (i = 1 \/ i = 2)))%nat).
      { destruct i as [|[|[|]]]; [| | |lia]; simpl in IN.
        - destruct IN as [E|[E|[]]]; injection E as <- <- <- <-; split; auto.
        - destruct IN as [E|[]]; injection E as <- <- <- <-; split; auto.
        - destruct IN as [E|[]]; injection E as <- <- <- <-; split; auto. }
      destruct Q as [E Q]. split; [lia|]. split; [intros [K _]; lia|]. rewrite E, elbow_displacement, norm_tenth; [lra|].
      destruct Q as [(-> & [-> | ->])|(-> & [-> | ->])]; unfold sprod; simpl; field.
    + intros (J & NS & B). pose proof (elbow_near i j x y z Hi ltac:(lia) B) as E. rewrite E in *.
      assert (NE : j <> i) by (intros ->; apply NS; auto).
      assert (BAD : ~ ((i = 1 /\ j = 2) \/ (i = 2 /\ j = 1))%nat).
      { intros Q. pose proof (norm_nonneg (displacement elbow cube i j O3)) as N0. pose proof (norm_sqr (displacement elbow cube i j O3)) as S.
        assert (S2 : sprod (displacement elbow cube i j O3) (displacement elbow cube i j O3) = 2/100).
        { rewrite elbow_displacement. destruct Q as [(-> & ->)|(-> & ->)]; unfold sprod; simpl; field. }
        rewrite S2 in S. nra. }
      destruct i as [|[|[|]]]; try lia; destruct j as [|[|[|]]]; try lia; simpl; auto.
Qed.
Definition elbow_conf := only 3 1 false true (listed 3 elbow cube (12/100) (1, 1, 1)%Z).
Lemma elbow_full : full_geometry (elbow_conf 0) elbow cube (fun _ _ => 12/100).
Proof.
  apply (plain_geometry 3 1 false true elbow cube cube 1 (1, 1, 1)%Z (12/100)); [exact cube_box|lra|exact cube_scale|lra| |].
  - intros i Hi. exists (elbow i). split; [unfold comb, cube; apply vec_eq; simpl; ring|]. destruct i as [|[|[|]]]; simpl; lra.
  - intros i j [[x y] z] Hi Hj O. assert (E : (x, y, z) = O3) by (apply (elbow_near i j); auto; rewrite O, (proj2 (norm_0 v0) eq_refl); lra).
    split; auto. rewrite E, elbow_displacement in O. apply nil_vec in O. destruct i as [|[|[|]]], j as [|[|[|]]]; auto; try lia; simpl in O; lra.
Qed.
(** no pair term; gamma = 1, a = 1/5 in the three-body term *)
Definition bending (k p : nat) : R := if Nat.eqb k 1 then (if Nat.eqb p 0 then 1 else 1/5) else 0.
Notation P := (par bending 1).
Notation lam1 := (fun _ _ _ : nat => 1).
Lemma elbow_d : forall i v, dvec elbow cube i (v, O3) = vsub (elbow v) (elbow i).
Proof. intros. unfold dvec. cbn [fst snd]. rewrite elbow_displacement. apply vec_eq; simpl; ring. Qed.
Lemma elbow_r : forall v, (0 < v < 3)%nat -> dist elbow cube 0 (v, O3) = 1/10.
Proof.
  intros v H. unfold dist. rewrite elbow_d. apply norm_tenth. destruct v as [|[|[|]]]; try lia; unfold sprod; simpl; field.
Qed.
Lemma elbow_cos : cosine elbow cube 0 (1%nat, O3) (2%nat, O3) = 0.
Proof. unfold cosine. rewrite !elbow_d. unfold sprod; simpl. unfold Rdiv. ring. Qed.
Lemma elbow_cut : cut P 0 0 (1/10) = exp (1 / (1/10 - 1/5)).
Proof.
  unfold cut, reached. change (sw_a2 (P 0%nat 0%nat)) with (1/5). change (sw_gamma (P 0%nat 0%nat)) with 1.
  destruct (Rlt_dec (1/10) (1/5)); [|exfalso; lra]. destruct (Rlt_dec _ _); [auto|exfalso; lra].
Qed.
Lemma elbow_force : vy (three_force (elbow_conf 0) elbow cube (three1 P lam1) (threec P lam1) elbow_list 1%nat) < 0.
Proof.
  unfold three_force. set (T := tri_grad _ _ _ _ _).
  assert (Q : vy (vsub (vsum (fun v => vsum (T 1%nat v) (others elbow_list 1%nat v)) (elbow_list 1%nat))
    (vsum (fun i => vsum (fun v => if Nat.eqb (fst v) 1 then vsum (T i v) (others elbow_list i v) else v0) (elbow_list i)) (seq (cnfstart (elbow_conf 0)) (inconf (elbow_conf 0))))) =
    - vy (T 0%nat (1%nat, O3) (2%nat, O3))).
  { unfold vsum, rsumf; simpl. ring. }
  rewrite Q. clear Q. unfold T, tri_grad. rewrite !elbow_d, !elbow_r, elbow_cos by lia. unfold at_. rewrite !elbow_r, elbow_cos by lia. cbn [fst].
  change (typ (elbow_conf 0) 0%nat) with 0%nat. change (typ (elbow_conf 0) 1%nat) with 0%nat. change (typ (elbow_conf 0) 2%nat) with 0%nat.
  unfold threec. rewrite elbow_cut. unfold bend'. simpl. set (x := exp _). assert (X : 0 < x) by apply exp_pos. clearbody x.
  assert (0 < x * x) by nra.
  match goal with |- ?e < 0 => replace e with (- (20/3 * (x * x))) by field end. lra.
Qed.
Theorem unused_forces : forall bld pow0 ew sw,
  vy (frc (calc_forces bld pow0 bending lam1 1 ew sw 0 elbow_conf 1 zero_dev) 1%nat) <> 0.
Proof.
  intros bld pow0 ew sw.
  destruct (sw_values bld pow0 bending lam1 1 ew sw 0 elbow_conf 1) with (pos := elbow) (bx := fun _ : nat => cube) (rcut := fun _ _ : nat => 12/100)
    (L := fun _ : nat => elbow_list) (s := zero_dev) (ci := 0%nat) as (_ & F & _).
  - intros ci. apply single_cont.
  - auto.
  - intros ci H. replace ci with 0%nat by lia. apply elbow_full.
  - intros ci a H Ha. replace ci with 0%nat in * by lia. apply elbow_neighbors; auto. simpl in Ha. lia.
  - lia.
  - rewrite (F eq_refl 1%nat); [|simpl; lia]. pose proof elbow_force. lra.
Qed.
