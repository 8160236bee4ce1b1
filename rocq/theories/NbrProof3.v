(** Example configurations for the neighbour lists. *)
From Coq Require Import Reals ZArith List Bool Lia Lra.
From Verif Require Import Vec NbrModel NbrProof NbrProof2.
Import ListNotations.
Local Open Scope R_scope.

Lemma ceil_unique : forall x k, IZR k - 1 < x <= IZR k -> ceil x = k.
Proof.
  intros x k H. pose proof (ceil_ge x). pose proof (ceil_lt x).
  assert (A : IZR (ceil x) < IZR (k + 1)) by (rewrite plus_IZR; lra).
  assert (B : IZR (k - 1) < IZR (ceil x)) by (rewrite minus_IZR; lra).
  apply lt_IZR in A, B. lia.
Qed.

Definition cube : box := mk_box (V3 1 0 0) (V3 0 1 0) (V3 0 0 1).
Lemma cube_box : make_box cube = Some (cube, 1).
Proof.
  unfold make_box, cube; simpl. destruct (Req_EM_T 0 _) as [E|N]; unfold sprod, vec_prod in *; simpl in *; [exfalso; lra|].
  f_equal. f_equal; [|ring]. f_equal; unfold unscale; apply vec_eq; simpl; field.
Qed.
Lemma cube_norm : norm (bx cube) = 1 /\ norm (by_ cube) = 1 /\ norm (bz cube) = 1.
Proof.
  unfold norm, sprod, cube; simpl. rewrite <- sqrt_1.
  repeat split; f_equal; rewrite sqrt_1; ring.
Qed.
Lemma cube_scale : init_box_vectors cube 1 = Some (1, 1, 1)%Z.
Proof.
  unfold init_box_vectors. destruct cube_norm as (-> & -> & ->).
  rewrite (ceil_unique (1 * 1) 1) by (simpl; lra). reflexivity.
Qed.
Definition origin : nat -> vec := fun _ => v0.
Lemma cube_displacement : forall i j n, displacement origin cube i j n = let '(x, y, z) := n in V3 (IZR x) (IZR y) (IZR z).
Proof. intros i j [[x y] z]. unfold displacement, origin, comb, cube. vring. Qed.

(** one atom at the origin, cutoff 1, full or half list *)
Lemma one_atom : forall full, exists l,
  init_neighbors 0 1 origin (fun _ => 0%nat) cube (fun _ _ => 1) (1, 1, 1)%Z full 0 = Neighbors l /\
  in_cell cube (origin 0%nat) /\ exists e, In e l /\ n_image e = (1, 0, 0)%Z.
Proof.
  intros full.
  assert (JS : j_start 0 full 0 = 0%nat) by (destruct full; reflexivity).
  pose proof (init_neighbors_spec 0 1 origin (fun _ => 0%nat) cube (fun _ _ => 1) (1, 1, 1)%Z full 0) as H. cbv zeta in H.
  rewrite JS in H. destruct (init_neighbors _ _ _ _ _ _ _ _ _) as [| | |l]; [|destruct H|destruct H|].
  - exfalso. destruct H as (j & n & J & W & (NS & O)). rewrite cube_displacement in O. destruct n as [[x y] z]. injection O as X Y Z.
    apply NS. split; [lia|]. apply eq_IZR in X, Y, Z. subst. auto.
  - exists l. split; [reflexivity|]. assert (IC : in_cell cube (origin 0%nat)).
    { exists v0. split; [unfold origin, comb; vring|]. simpl. lra. }
    split; [exact IC|].
    destruct H as [-> _]. eexists. split; [apply in_map_iff; exists (0%nat, (1, 0, 0)%Z); split; [reflexivity|]|reflexivity].
    apply filter_In. split; [apply visits_in; split; [lia|simpl; lia]|]. apply bondb_true. split; [intros [_ K]; discriminate|].
    rewrite cube_displacement. unfold norm, sprod; simpl. replace (1 * 1 + 0 * 0 + 0 * 0) with 1 by ring. rewrite sqrt_1. lra.
Qed.

(** an atom outside the unit cell: its neighbours are missed *)
Definition outside : nat -> vec := fun i => if Nat.eqb i 0 then v0 else V3 (11/2) 0 0.
Lemma outside_missed : exists l,
  make_box cube = Some (cube, 1) /\ init_box_vectors cube 1 = Some (1, 1, 1)%Z /\
  init_neighbors 0 2 outside (fun _ => 0%nat) cube (fun _ _ => 1) (1, 1, 1)%Z false 0 = Neighbors l /\
  bond outside (fun _ => 0%nat) cube (fun _ _ => 1) 0 1 (-5, 0, 0)%Z /\
  forall e, In e l -> n_nr e <> 1%nat.
Proof.
  pose proof (init_neighbors_spec 0 2 outside (fun _ => 0%nat) cube (fun _ _ => 1) (1, 1, 1)%Z false 0) as H. cbv zeta in H.
  change (j_start 0 false 0) with 0%nat in H.
  assert (D0 : forall n, displacement outside cube 0 0 n = let '(x, y, z) := n in V3 (IZR x) (IZR y) (IZR z))
    by (intros [[x y] z]; unfold displacement, outside, comb, cube; vring).
  assert (D1 : forall n, displacement outside cube 0 1 n = let '(x, y, z) := n in V3 (11/2 + IZR x) (IZR y) (IZR z))
    by (intros [[x y] z]; unfold displacement, outside, comb, cube; vring).
  assert (FAR : forall x y z, (-1 <= x)%Z -> ~ norm (V3 (11/2 + IZR x) (IZR y) (IZR z)) <= 1).
  { intros x y z X L. apply IZR_le in X. pose proof (norm_sqr (V3 (11/2 + IZR x) (IZR y) (IZR z))) as S.
    pose proof (norm_nonneg (V3 (11/2 + IZR x) (IZR y) (IZR z))). set (m := norm _) in *. unfold sprod in S; simpl in S.
    pose proof (Rle_0_sqr (IZR y)). pose proof (Rle_0_sqr (IZR z)). unfold Rsqr in *. nra. }
  destruct (init_neighbors _ _ _ _ _ _ _ _ _) as [| | |l]; [|destruct H|destruct H|].
  - exfalso. destruct H as (j & n & J & W & (NS & O)). destruct n as [[x y] z]. simpl in W.
    assert (j = 0 \/ j = 1)%nat as [-> | ->] by lia.
    + rewrite D0 in O. injection O as X Y Z. apply NS. split; auto. apply eq_IZR in X, Y, Z. subst. auto.
    + rewrite D1 in O. apply (FAR x y z ltac:(lia)). rewrite O, (proj2 (norm_0 v0) eq_refl). lra.
  - exists l. split; [apply cube_box|]. split; [apply cube_scale|]. split; [reflexivity|]. split.
    + split; [intros [K _]; discriminate|]. rewrite D1. unfold norm, sprod; simpl.
      replace ((11 / 2 + -5) * (11 / 2 + -5) + 0 * 0 + 0 * 0) with ((1/2) * (1/2)) by field. rewrite sqrt_square; lra.
    + intros e E N. destruct H as [-> _]. apply in_map_iff in E. destruct E as ([j n] & <- & V). simpl in N. subst j.
      apply filter_In in V. destruct V as [V B]. apply visits_in in V. apply bondb_true in B. destruct n as [[x y] z]. destruct B as [_ B]. rewrite D1 in B.
      destruct V as [_ V]. simpl in V. apply (FAR x y z ltac:(lia) B).
Qed.

(** left-handed box *)
Definition left_handed : box := mk_box (V3 0 1 0) (V3 1 0 0) (V3 0 0 1).
Lemma left_handed_volume : exists t, make_box left_handed = Some (t, -1).
Proof.
  destruct (make_box_spec left_handed) as [_ H].
  assert (D : det left_handed = -1) by (unfold det, left_handed, sprod, vec_prod; simpl; ring).
  rewrite D in H. apply H. lra.
Qed.
