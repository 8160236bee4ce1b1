(** The spline system has one solution; it is linear in the values. *)
From Coq Require Import Reals ZArith List Lia Lra.
From Verif Require Import LoopUtil SplineModel SplineProof SplineProof2.
Local Open Scope R_scope.

(** End condition: a slope, or none (curvature zero). *)
Definition endc (s : R) : option R := if Rlt_dec NATURAL s then None else Some s.

Record gsys (x y : arr) (n : nat) (el er : option R) (d : arr) : Prop := {
  g_mid : forall i, (1 <= i < n - 1)%nat ->
     sig x i * d (i - 1)%nat + 2 * d i + (1 - sig x i) * d (i + 1)%nat = rhs x y i;
  g_left : match el with None => d 0%nat = 0
     | Some s => 2 * d 0%nat + d 1%nat = 6 / (x 1%nat - x 0%nat) * ((y 1%nat - y 0%nat) / (x 1%nat - x 0%nat) - s) end;
  g_right : match er with None => d (n - 1)%nat = 0
     | Some s => d (n - 2)%nat + 2 * d (n - 1)%nat = 6 / (x (n - 1)%nat - x (n - 2)%nat) *
     (s - (y (n - 1)%nat - y (n - 2)%nat) / (x (n - 1)%nat - x (n - 2)%nat)) end }.

Lemma system_gsys : forall x y n s1 s2 d, system x y n s1 s2 d -> gsys x y n (endc s1) (endc s2) d.
Proof.
  intros x y n s1 s2 d [A B C D E]. constructor; [exact A| |]; unfold endc.
  - destruct (Rlt_dec NATURAL s1); [auto|apply C; lra].
  - destruct (Rlt_dec NATURAL s2); [auto|apply E; lra].
Qed.

Lemma argmax : forall (f : nat -> R) n, (0 < n)%nat -> exists m, (m < n)%nat /\ forall i, (i < n)%nat -> f i <= f m.
Proof.
  intros f n H. induction n as [|n IH]; [lia|]. destruct n as [|n].
  - exists 0%nat. split; [lia|]. intros i Hi. replace i with 0%nat by lia. lra.
  - destruct IH as (m & Hm & M); [lia|]. destruct (Rle_dec (f m) (f (S n))).
    + exists (S n). split; [lia|]. intros i Hi. destruct (Nat.eq_dec i (S n)) as [->|]; [lra|]. specialize (M i ltac:(lia)). lra.
    + exists m. split; [lia|]. intros i Hi. destruct (Nat.eq_dec i (S n)) as [->|]; [lra|]. apply M. lia.
Qed.

Section Sys.
Variable x : arr.
Variable n : nat.
Hypothesis N2 : (2 <= n)%nat.
Hypothesis INC : increasing x n.

Lemma x01 : x 0%nat < x 1%nat.
Proof. apply INC. lia. Qed.
Lemma x_end : x (n - 2)%nat < x (n - 1)%nat.
Proof. replace (n - 1)%nat with (S (n - 2)) by lia. apply INC. lia. Qed.

(** Uniqueness *)
Theorem gsys_unique : forall y el er d e, gsys x y n el er d -> gsys x y n el er e -> forall i, (i < n)%nat -> d i = e i.
Proof.
  intros y el er d e [A1 A2 A3] [B1 B2 B3].
  destruct (argmax (fun i => Rabs (d i - e i)) n ltac:(lia)) as (m & Hm & M). cbv beta in M.
  assert (Z : Rabs (d m - e m) <= 0).
  { assert (P : 0 <= Rabs (d m - e m)) by apply Rabs_pos.
    destruct (Nat.eq_dec m 0) as [->|N0].
    - destruct el as [s|].
      + pose proof (M 1%nat ltac:(lia)) as Q. assert (E : d 1%nat - e 1%nat = - (2 * (d 0%nat - e 0%nat))) by lra.
        rewrite E, Rabs_Ropp, Rabs_mult, (Rabs_right 2) in Q by lra. lra.
      + rewrite A2, B2, Rminus_0_r, Rabs_R0. lra.
    - destruct (Nat.eq_dec m (n - 1)) as [->|N1].
      + destruct er as [s|].
        * pose proof (M (n - 2)%nat ltac:(lia)) as Q. assert (E : d (n - 2)%nat - e (n - 2)%nat = - (2 * (d (n - 1)%nat - e (n - 1)%nat))) by lra.
          rewrite E, Rabs_Ropp, Rabs_mult, (Rabs_right 2) in Q by lra. lra.
        * rewrite A3, B3, Rminus_0_r, Rabs_R0. lra.
      + pose proof (A1 m ltac:(lia)) as U. pose proof (B1 m ltac:(lia)) as V. pose proof (sig_01 x n N2 INC m ltac:(lia)) as S.
        pose proof (M (m - 1)%nat ltac:(lia)) as Q1. pose proof (M (m + 1)%nat ltac:(lia)) as Q2.
        assert (E : 2 * (d m - e m) = - (sig x m * (d (m - 1)%nat - e (m - 1)%nat)) - (1 - sig x m) * (d (m + 1)%nat - e (m + 1)%nat)) by lra.
        assert (T : Rabs (2 * (d m - e m)) <= sig x m * Rabs (d m - e m) + (1 - sig x m) * Rabs (d m - e m)).
        { rewrite E. unfold Rminus at 1. eapply Rle_trans; [apply Rabs_triang|]. rewrite !Rabs_Ropp, !Rabs_mult.
          rewrite (Rabs_right (sig x m)), (Rabs_right (1 - sig x m)) by lra. apply Rplus_le_compat; apply Rmult_le_compat_l; lra. }
        rewrite Rabs_mult, (Rabs_right 2) in T by lra. lra. }
  intros i Hi. specialize (M i Hi). assert (Rabs (d i - e i) = 0) by (pose proof (Rabs_pos (d i - e i)); lra).
  destruct (Req_dec (d i - e i) 0) as [E|E]; [lra|]. apply Rabs_no_R0 in E. contradiction.
Qed.

(** Linear combination *)
Definition combine (k : R) (e1 e2 e : option R) : Prop :=
  match e1, e2, e with
  | Some s1, Some s2, Some s => s = s1 + k * s2
  | None, None, None => True
  | _, _, _ => False
  end.
Theorem gsys_lin : forall k y1 y2 el1 el2 el er1 er2 er d1 d2,
  gsys x y1 n el1 er1 d1 -> gsys x y2 n el2 er2 d2 -> combine k el1 el2 el -> combine k er1 er2 er ->
  gsys x (fun i => y1 i + k * y2 i) n el er (fun i => d1 i + k * d2 i).
Proof.
  intros k y1 y2 el1 el2 el er1 er2 er d1 d2 [A1 A2 A3] [B1 B2 B3] CL CR. constructor.
  - intros i Hi. pose proof (A1 i Hi) as U. pose proof (B1 i Hi) as V.
    replace (rhs x (fun i => y1 i + k * y2 i) i) with (rhs x y1 i + k * rhs x y2 i).
    + rewrite <- U, <- V. ring.
    + destruct (gaps x n N2 INC i Hi). unfold rhs. field. lra.
  - pose proof x01. destruct el1, el2, el; simpl in CL; try contradiction.
    + subst. replace (2 * (d1 0%nat + k * d2 0%nat) + (d1 1%nat + k * d2 1%nat)) with ((2 * d1 0%nat + d1 1%nat) + k * (2 * d2 0%nat + d2 1%nat)) by ring.
      rewrite A2, B2. field. lra.
    + rewrite A2, B2. ring.
  - pose proof x_end. destruct er1, er2, er; simpl in CR; try contradiction.
    + subst. replace (d1 (n - 2)%nat + k * d2 (n - 2)%nat + 2 * (d1 (n - 1)%nat + k * d2 (n - 1)%nat)) with ((d1 (n - 2)%nat + 2 * d1 (n - 1)%nat) + k * (d2 (n - 2)%nat + 2 * d2 (n - 1)%nat)) by ring.
      rewrite A3, B3. field. lra.
    + rewrite A3, B3. ring.
Qed.
(** A solution also solves the system in which its slope at the left end is prescribed. *)
Theorem gsys_own_slope : forall y el er d, gsys x y n el er d -> gsys x y n (Some (pg x y d 0 (x 0%nat))) er d.
Proof.
  intros y el er d [A1 A2 A3]. constructor; [exact A1| |exact A3]. unfold pg, splint_grad_dir. pose proof x01. simpl Nat.add. field. lra.
Qed.
Lemma gsys_left_slope : forall y s er d, gsys x y n (Some s) er d -> pg x y d 0 (x 0%nat) = s.
Proof.
  intros y s er d [A1 A2 A3]. unfold pg, splint_grad_dir. pose proof x01. simpl Nat.add.
  replace s with ((y 1%nat - y 0%nat) / (x 1%nat - x 0%nat) - (2 * d 0%nat + d 1%nat) * (x 1%nat - x 0%nat) / 6) by (rewrite A2; field; lra).
  field. lra.
Qed.
Lemma gsys_ext : forall y y' el er d d', gsys x y n el er d -> (forall i, (i < n)%nat -> y i = y' i) -> (forall i, (i < n)%nat -> d i = d' i) ->
  gsys x y' n el er d'.
Proof.
  intros y y' el er d d' [A1 A2 A3] Y D. constructor.
  - intros i Hi. rewrite <- !D by lia. rewrite A1 by auto. unfold rhs. rewrite !Y by lia. auto.
  - destruct el; rewrite <- ?D, <- ?Y by lia; auto.
  - destruct er; rewrite <- ?D, <- ?Y by lia; auto.
Qed.

(** ** Cubic polynomials *)
Definition cub (p0 p1 p2 p3 r : R) : R := p0 + p1 * r + p2 * (r * r) + p3 * (r * r * r).
Definition cub1 (p1 p2 p3 r : R) : R := p1 + 2 * p2 * r + 3 * p3 * (r * r).
Definition cub2 (p2 p3 r : R) : R := 2 * p2 + 6 * p3 * r.
Lemma cub_deriv : forall p0 p1 p2 p3 r, derivable_pt_lim (cub p0 p1 p2 p3) r (cub1 p1 p2 p3 r).
Proof.
  intros. unfold cub, cub1.
  pose proof (derivable_pt_lim_id r) as I.
  pose proof (derivable_pt_lim_mult _ _ _ _ _ I I) as I2.
  pose proof (derivable_pt_lim_mult _ _ _ _ _ I2 I) as I3.
  pose proof (derivable_pt_lim_plus _ _ _ _ _ (derivable_pt_lim_plus _ _ _ _ _ (derivable_pt_lim_plus _ _ _ _ _ (derivable_pt_lim_const p0 r)
    (derivable_pt_lim_scal _ p1 _ _ I)) (derivable_pt_lim_scal _ p2 _ _ I2)) (derivable_pt_lim_scal _ p3 _ _ I3)) as T.
  unfold plus_fct, mult_fct, mult_real_fct, fct_cte, id in T. 
  match type of T with derivable_pt_lim ?f _ ?v => replace v with (p1 + 2 * p2 * r + 3 * p3 * (r * r)) in T by ring end. exact T.
Qed.
Theorem gsys_cubic : forall p0 p1 p2 p3,
  gsys x (fun i => cub p0 p1 p2 p3 (x i)) n (Some (cub1 p1 p2 p3 (x 0%nat))) (Some (cub1 p1 p2 p3 (x (n - 1)%nat))) (fun i => cub2 p2 p3 (x i)).
Proof.
  intros. constructor.
  - intros i Hi. destruct (gaps x n N2 INC i Hi). unfold sig, rhs, cub, cub2. field. lra.
  - pose proof x01. unfold cub, cub1, cub2. field. lra.
  - pose proof x_end. unfold cub, cub1, cub2. field. lra.
Qed.
Lemma cubic_piece : forall p0 p1 p2 p3 k r, x k < x (k + 1)%nat ->
  pv x (fun i => cub p0 p1 p2 p3 (x i)) (fun i => cub2 p2 p3 (x i)) k r = cub p0 p1 p2 p3 r /\
  pg x (fun i => cub p0 p1 p2 p3 (x i)) (fun i => cub2 p2 p3 (x i)) k r = cub1 p1 p2 p3 r.
Proof. intros. unfold pv, pg, splint_dir, splint_grad_dir, cub, cub1, cub2. split; field; lra. Qed.
End Sys.

Lemma pv_lin : forall x k y1 y2 d1 d2 j r, x j < x (j + 1)%nat ->
  pv x (fun i => y1 i + k * y2 i) (fun i => d1 i + k * d2 i) j r = pv x y1 d1 j r + k * pv x y2 d2 j r /\
  pg x (fun i => y1 i + k * y2 i) (fun i => d1 i + k * d2 i) j r = pg x y1 d1 j r + k * pg x y2 d2 j r.
Proof. intros. unfold pv, pg, splint_dir, splint_grad_dir. split; field; lra. Qed.
Lemma pv_ext : forall x x' y y' d d' n j r, (j + 1 < n)%nat -> (forall i, (i < n)%nat -> x i = x' i) ->
  (forall i, (i < n)%nat -> y i = y' i) -> (forall i, (i < n)%nat -> d i = d' i) -> pv x y d j r = pv x' y' d' j r /\ pg x y d j r = pg x' y' d' j r.
Proof. intros x x' y y' d d' n j r J X Y D. unfold pv, pg, splint_dir, splint_grad_dir. rewrite !X, !Y, !D by lia. auto. Qed.
Lemma gsys_x_ext : forall x x' y n el er d, (2 <= n)%nat -> gsys x y n el er d -> (forall i, (i < n)%nat -> x i = x' i) -> gsys x' y n el er d.
Proof.
  intros x x' y n el er d N [A1 A2 A3] X. constructor.
  - intros i Hi. specialize (A1 i Hi). unfold sig, rhs in *. rewrite <- !X by lia. auto.
  - destruct el; rewrite <- ?X by lia; auto.
  - destruct er; rewrite <- ?X by lia; auto.
Qed.
