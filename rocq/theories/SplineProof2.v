(** Piecewise cubics glued at the sampling points (C22-C24, C67). *)
From Coq Require Import Reals ZArith List Lia Lra.
From Verif Require Import LoopUtil SplineModel SplineProof.
Local Open Scope R_scope.

(** ** Derivatives of glued functions *)
Lemma dlim_ext : forall f g x l, (forall t, f t = g t) -> derivable_pt_lim f x l -> derivable_pt_lim g x l.
Proof.
  intros f g x l E H eps He. destruct (H eps He) as [d Hd]. exists d. intros h Hh Hl. rewrite <- !E. apply Hd; auto.
Qed.

(** Equal to g on the left and to h on the right of x, near x. *)
Lemma glue : forall f g h x l e, 0 < e ->
  (forall t, x - e < t <= x -> f t = g t) -> (forall t, x <= t < x + e -> f t = h t) ->
  derivable_pt_lim g x l -> derivable_pt_lim h x l -> derivable_pt_lim f x l.
Proof.
  intros f g h x l e He Hg Hh Dg Dh eps Heps.
  destruct (Dg eps Heps) as [dg Hdg]. destruct (Dh eps Heps) as [dh Hdh].
  assert (P : 0 < Rmin (Rmin dg dh) e) by (apply Rmin_pos; [apply Rmin_pos; apply cond_pos|auto]).
  exists (mkposreal _ P). intros t Ht Hlt. simpl in Hlt.
  assert (L1 : Rabs t < dg /\ Rabs t < dh /\ Rabs t < e).
  { pose proof (Rmin_l (Rmin dg dh) e). pose proof (Rmin_r (Rmin dg dh) e).
    pose proof (Rmin_l dg dh). pose proof (Rmin_r dg dh). lra. }
  destruct L1 as (L1 & L2 & L3). pose proof (Rabs_def2 _ _ L3) as [A B].
  destruct (Rlt_dec t 0) as [N|N].
  - rewrite (Hg (x + t)) by lra. rewrite (Hg x) by lra. apply Hdg; auto.
  - rewrite (Hh (x + t)) by lra. rewrite (Hh x) by lra. apply Hdh; auto.
Qed.

Lemma glue_continuous : forall f g h x e, 0 < e ->
  (forall t, x - e < t <= x -> f t = g t) -> (forall t, x <= t < x + e -> f t = h t) ->
  continuity_pt g x -> continuity_pt h x -> continuity_pt f x.
Proof.
  intros f g h x e He Hg Hh Cg Ch eps Heps.
  destruct (Cg eps Heps) as [dg [Pg Hdg]]. destruct (Ch eps Heps) as [dh [Ph Hdh]].
  exists (Rmin (Rmin dg dh) e). split; [apply Rmin_pos; [apply Rmin_pos; auto|auto]|].
  intros t [Ht Hd]. simpl in *. unfold R_dist in *.
  assert (L1 : Rabs (t - x) < dg /\ Rabs (t - x) < dh /\ Rabs (t - x) < e).
  { pose proof (Rmin_l (Rmin dg dh) e). pose proof (Rmin_r (Rmin dg dh) e).
    pose proof (Rmin_l dg dh). pose proof (Rmin_r dg dh). lra. }
  destruct L1 as (L1 & L2 & L3). pose proof (Rabs_def2 _ _ L3) as [A B].
  destruct (Rlt_dec t x) as [N|N].
  - rewrite (Hg t) by lra. rewrite (Hg x) by lra. apply Hdg. split; auto.
  - rewrite (Hh t) by lra. rewrite (Hh x) by lra. apply Hdh. split; auto.
Qed.

Lemma cubic_deriv : forall A B C D c r,
  derivable_pt_lim (fun t => A + B * (t - c) + C * (t - c) * (t - c) + D * (t - c) * (t - c) * (t - c)) r
    (B + 2 * C * (r - c) + 3 * D * (r - c) * (r - c)).
Proof.
  intros.
  assert (L : derivable_pt_lim (fun t => t - c) r 1).
  { replace 1 with (1 - 0) by ring. apply (derivable_pt_lim_minus id (fct_cte c)); [apply derivable_pt_lim_id|apply derivable_pt_lim_const]. }
  assert (S : forall k, derivable_pt_lim (fun t => k * (t - c)) r k).
  { intros k. pose proof (derivable_pt_lim_scal (fun t => t - c) k r 1 L) as K. rewrite Rmult_1_r in K. exact K. }
  assert (M : forall f l, derivable_pt_lim f r l -> derivable_pt_lim (fun t => f t * (t - c)) r (l * (r - c) + f r * 1)).
  { intros f l Hf. apply (derivable_pt_lim_mult f (fun t => t - c)); auto. }
  pose proof (M _ _ (S C)) as M2. pose proof (M _ _ (M _ _ (S D))) as M3. cbv beta in *.
  pose proof (derivable_pt_lim_const A r) as K0. unfold fct_cte in K0.
  pose proof (derivable_pt_lim_plus _ _ _ _ _ K0 (S B)) as P1.
  pose proof (derivable_pt_lim_plus _ _ _ _ _ P1 M2) as P2.
  pose proof (derivable_pt_lim_plus _ _ _ _ _ P2 M3) as P3.
  replace (B + 2 * C * (r - c) + 3 * D * (r - c) * (r - c)) with
    (0 + B + (C * (r - c) + C * (r - c) * 1) + ((D * (r - c) + D * (r - c) * 1) * (r - c) + D * (r - c) * (r - c) * 1)) by ring.
  exact P3.
Qed.

(** ** Pieces *)
Section Pieces.
Variables x y d : arr.       (* sampling points, values, second derivatives *)

Definition pv (k : nat) (r : R) : R := splint_dir d y k ((r - x k) / (x (k + 1)%nat - x k)) (x (k + 1)%nat - x k).
Definition pg (k : nat) (r : R) : R := splint_grad_dir d y k ((r - x k) / (x (k + 1)%nat - x k)) (x (k + 1)%nat - x k).
Definition pc (k : nat) (r : R) : R := let b := (r - x k) / (x (k + 1)%nat - x k) in (1 - b) * d k + b * d (k + 1)%nat.

Lemma pv_deriv : forall k r, x k < x (k + 1)%nat -> derivable_pt_lim (pv k) r (pg k r).
Proof.
  intros k r H. set (h := x (k + 1)%nat - x k). assert (Hh : h <> 0) by (unfold h; lra).
  apply (dlim_ext (fun t => y k + ((y (k + 1)%nat - y k) / h - (2 * d k + d (k + 1)%nat) * h / 6) * (t - x k) +
     d k / 2 * (t - x k) * (t - x k) + ((d (k + 1)%nat - d k) / (6 * h)) * (t - x k) * (t - x k) * (t - x k))).
  - intros t. unfold pv, splint_dir. fold h. field. auto.
  - replace (pg k r) with ((y (k + 1)%nat - y k) / h - (2 * d k + d (k + 1)%nat) * h / 6 + 2 * (d k / 2) * (r - x k) + 3 * ((d (k + 1)%nat - d k) / (6 * h)) * (r - x k) * (r - x k)).
    apply cubic_deriv. unfold pg, splint_grad_dir. fold h. field. auto.
Qed.

Lemma pg_deriv : forall k r, x k < x (k + 1)%nat -> derivable_pt_lim (pg k) r (pc k r).
Proof.
  intros k r H. set (h := x (k + 1)%nat - x k). assert (Hh : h <> 0) by (unfold h; lra).
  apply (dlim_ext (fun t => ((y (k + 1)%nat - y k) / h - (2 * d k + d (k + 1)%nat) * h / 6) + d k * (t - x k) +
     ((d (k + 1)%nat - d k) / (2 * h)) * (t - x k) * (t - x k) + 0 * (t - x k) * (t - x k) * (t - x k))).
  - intros t. unfold pg, splint_grad_dir. fold h. field. auto.
  - replace (pc k r) with (d k + 2 * ((d (k + 1)%nat - d k) / (2 * h)) * (r - x k) + 3 * 0 * (r - x k) * (r - x k)).
    apply cubic_deriv. unfold pc. fold h. field. auto.
Qed.

Lemma pc_cont : forall k r, x k < x (k + 1)%nat -> continuity_pt (pc k) r.
Proof.
  intros k r H. apply derivable_continuous_pt. set (h := x (k + 1)%nat - x k). assert (Hh : h <> 0) by (unfold h; lra).
  exists ((d (k + 1)%nat - d k) / h + 2 * 0 * (r - x k) + 3 * 0 * (r - x k) * (r - x k)).
  apply (dlim_ext (fun t => d k + ((d (k + 1)%nat - d k) / h) * (t - x k) + 0 * (t - x k) * (t - x k) + 0 * (t - x k) * (t - x k) * (t - x k))).
  - intros t. unfold pc. fold h. field. auto.
  - apply cubic_deriv.
Qed.

Lemma pv_left : forall k, x k < x (k + 1)%nat -> pv k (x k) = y k.
Proof. intros. unfold pv, splint_dir. field. lra. Qed.
Lemma pv_right : forall k, x k < x (k + 1)%nat -> pv k (x (k + 1)%nat) = y (k + 1)%nat.
Proof. intros. unfold pv, splint_dir. field. lra. Qed.
Lemma pc_left : forall k, x k < x (k + 1)%nat -> pc k (x k) = d k.
Proof. intros. unfold pc. field. lra. Qed.
Lemma pc_right : forall k, x k < x (k + 1)%nat -> pc k (x (k + 1)%nat) = d (k + 1)%nat.
Proof. intros. unfold pc. field. lra. Qed.
Lemma pg_left : forall k, x k < x (k + 1)%nat ->
  pg k (x k) = (y (k + 1)%nat - y k) / (x (k + 1)%nat - x k) - (2 * d k + d (k + 1)%nat) * (x (k + 1)%nat - x k) / 6.
Proof. intros. unfold pg, splint_grad_dir. field. lra. Qed.
Lemma pg_right : forall k, x k < x (k + 1)%nat ->
  pg k (x (k + 1)%nat) = (y (k + 1)%nat - y k) / (x (k + 1)%nat - x k) + (d k + 2 * d (k + 1)%nat) * (x (k + 1)%nat - x k) / 6.
Proof. intros. unfold pg, splint_grad_dir. field. lra. Qed.

Variable n : nat.
Hypothesis N2 : (2 <= n)%nat.
Hypothesis INC : increasing x n.
Variables yp1 ypn : R.
Hypothesis SYS : system x y n yp1 ypn d.

Lemma inc1 : forall k, (k + 1 < n)%nat -> x k < x (k + 1)%nat.
Proof. intros k H. replace (k + 1)%nat with (S k) by lia. apply INC. lia. Qed.

Lemma slope_joint : forall i, (1 <= i < n - 1)%nat -> pg (i - 1) (x i) = pg i (x i).
Proof.
  intros i Hi. pose proof (sys_mid _ _ _ _ _ _ SYS i Hi) as E.
  assert (A : x (i - 1)%nat < x i). { replace i with (i - 1 + 1)%nat at 2 by lia. apply inc1. lia. }
  assert (B : x i < x (i + 1)%nat) by (apply inc1; lia).
  pose proof (pg_right (i - 1)) as G. replace (i - 1 + 1)%nat with i in G by lia. rewrite G by auto. rewrite pg_left by auto.
  unfold sig, rhs in E.
  apply Rmult_eq_reg_r with (6 / (x (i + 1)%nat - x (i - 1)%nat)).
  2:{ apply Rgt_not_eq. apply Rdiv_lt_0_compat; lra. }
  apply Rminus_diag_uniq. apply Rminus_diag_eq in E. etransitivity; [|exact E].
  field. repeat split; lra.
Qed.

(** Any choice of the interval that contains the argument. *)
Variable look : R -> nat.
Hypothesis LOOK : forall r, x 0%nat <= r < x (n - 1)%nat -> (look r + 1 < n)%nat /\ x (look r) <= r < x (look r + 1)%nat.

Lemma inc_le : forall i j, (i <= j)%nat -> (j < n)%nat -> x i <= x j.
Proof.
  intros i j H. induction H; intros J; [lra|]. apply Rle_trans with (x m); [apply IHle; lia|]. left. apply INC. lia.
Qed.
Lemma look_unique : forall r k, (k + 1 < n)%nat -> x k <= r < x (k + 1)%nat -> look r = k.
Proof.
  intros r k Hk Hr.
  assert (R0 : x 0%nat <= r < x (n - 1)%nat).
  { split; [apply Rle_trans with (x k); [apply inc_le; lia|tauto]|]. apply Rlt_le_trans with (x (k + 1)%nat); [tauto|apply inc_le; lia]. }
  destruct (LOOK r R0) as [L1 L2].
  destruct (Nat.lt_trichotomy (look r) k) as [L|[L|L]]; auto; exfalso.
  - assert (x (look r + 1)%nat <= x k) by (apply inc_le; lia). lra.
  - assert (x (k + 1)%nat <= x (look r)) by (apply inc_le; lia). lra.
Qed.

Definition fv (r : R) : R := pv (look r) r.
Definition fg (r : R) : R := pg (look r) r.
Definition fc (r : R) : R := pc (look r) r.

Lemma value_at_points : forall i, (i < n - 1)%nat -> fv (x i) = y i.
Proof.
  intros i Hi. assert (x i < x (i + 1)%nat) by (apply inc1; lia).
  unfold fv. rewrite (look_unique (x i) i) by (try lia; lra). apply pv_left. auto.
Qed.

(** On a small interval around an inner argument there are at most two pieces. *)
Lemma two_pieces : forall r, x 0%nat < r < x (n - 1)%nat -> exists k l e, 0 < e /\
  (k + 1 < n)%nat /\ (l + 1 < n)%nat /\
  (forall t, r - e < t < r -> look t = k) /\ (forall t, r <= t < r + e -> look t = l) /\
  pv k r = pv l r /\ pg k r = pg l r /\ pc k r = pc l r.
Proof.
  intros r Hr. destruct (LOOK r ltac:(lra)) as [L1 L2]. set (l := look r) in *.
  destruct (Req_dec r (x l)) as [E|NE].
  - destruct l as [|k]; [rewrite <- E in Hr; lra|].
    exists k, (S k), (Rmin (x (S k) - x k) (x (S k + 1)%nat - x (S k))).
    assert (A : x k < x (S k)) by (apply INC; lia). 
    pose proof (Rmin_l (x (S k) - x k) (x (S k + 1)%nat - x (S k))). pose proof (Rmin_r (x (S k) - x k) (x (S k + 1)%nat - x (S k))).
    assert (SK : (k + 1)%nat = S k) by lia.
    split; [apply Rmin_pos; lra|]. split; [lia|]. split; [lia|]. split; [|split].
    + intros t Ht. apply look_unique; [lia|]. rewrite SK. lra.
    + intros t Ht. apply look_unique; [lia|]. lra.
    + rewrite E. pose proof (pv_right k) as V. pose proof (pc_right k) as C. pose proof (slope_joint (S k)) as G. rewrite SK in *.
      replace (S k - 1)%nat with k in G by lia.
      rewrite V, C, G, pv_left, pc_left by (try lia; lra). auto.
  - exists l, l, (Rmin (r - x l) (x (l + 1)%nat - r)).
    pose proof (Rmin_l (r - x l) (x (l + 1)%nat - r)). pose proof (Rmin_r (r - x l) (x (l + 1)%nat - r)).
    split; [apply Rmin_pos; lra|]. split; [auto|]. split; [auto|].
    split; [intros t Ht; apply look_unique; [lia|lra]|]. split; [intros t Ht; apply look_unique; [lia|lra]|]. auto.
Qed.

Theorem twice_differentiable : forall r, x 0%nat < r < x (n - 1)%nat ->
  derivable_pt_lim fv r (fg r) /\ derivable_pt_lim fg r (fc r) /\ continuity_pt fc r.
Proof.
  intros r Hr. destruct (two_pieces r Hr) as (k & l & e & He & Hk & Hl & K & L & V & G & C).
  assert (Lr : look r = l) by (apply L; lra).
  assert (Ik : x k < x (k + 1)%nat) by (apply inc1; auto). assert (Il : x l < x (l + 1)%nat) by (apply inc1; auto).
  unfold fv, fg, fc. rewrite Lr.
  split; [|split].
  - apply (glue _ (pv k) (pv l) r _ e He).
    + intros t Ht. destruct (Req_dec t r) as [->|N]; [rewrite Lr; auto|rewrite K by lra; auto].
    + intros t Ht. rewrite L by lra. auto.
    + rewrite <- G. apply pv_deriv; auto.
    + apply pv_deriv; auto.
  - apply (glue _ (pg k) (pg l) r _ e He).
    + intros t Ht. destruct (Req_dec t r) as [->|N]; [rewrite Lr; auto|rewrite K by lra; auto].
    + intros t Ht. rewrite L by lra. auto.
    + rewrite <- C. apply pg_deriv; auto.
    + apply pg_deriv; auto.
  - apply (glue_continuous _ (pc k) (pc l) r e He).
    + intros t Ht. destruct (Req_dec t r) as [->|N]; [rewrite Lr; auto|rewrite K by lra; auto].
    + intros t Ht. rewrite L by lra. auto.
    + apply pc_cont; auto.
    + apply pc_cont; auto.
Qed.

(** End conditions, in terms of the first and last piece. *)
Theorem end_conditions :
  (yp1 <= NATURAL -> pg 0 (x 0%nat) = yp1) /\ (NATURAL < yp1 -> pc 0 (x 0%nat) = 0) /\
  (ypn <= NATURAL -> pg (n - 2) (x (n - 1)%nat) = ypn) /\ (NATURAL < ypn -> pc (n - 2) (x (n - 1)%nat) = 0).
Proof.
  assert (A : x 0%nat < x (0 + 1)%nat) by (apply inc1; lia).
  assert (B : x (n - 2)%nat < x (n - 2 + 1)%nat) by (apply inc1; lia).
  assert (E : (n - 2 + 1)%nat = (n - 1)%nat) by lia.
  split; [|split; [|split]]; intros H.
  - rewrite pg_left by auto. simpl. rewrite (sys_left _ _ _ _ _ _ SYS H). simpl in A. field. lra.
  - rewrite pc_left by auto. apply (sys_left_nat _ _ _ _ _ _ SYS H).
  - pose proof (pg_right (n - 2) B) as G. rewrite E in *. rewrite G. rewrite (sys_right _ _ _ _ _ _ SYS H). field. lra.
  - pose proof (pc_right (n - 2) B) as G. rewrite E in *. rewrite G. apply (sys_right_nat _ _ _ _ _ _ SYS H).
Qed.
End Pieces.
