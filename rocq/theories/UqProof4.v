(** The eigenvalues used by the Monte Carlo moves *)
From Coq Require Import Reals List Arith Bool Lra Lia ZArith.
From Verif Require Import LoopUtil UqModel UqSpec UqProof2 UqProof3.
Open Scope R_scope.

Section E.
Variable n : nat.
Variable e : R.
Hypothesis e_pos : 0 < e.

Lemma min_pos_spec : forall w, (forall j, (j < n)%nat -> 0 < w j -> min_pos n w <= w j) /\ min_pos n w <= very_large /\
  (min_pos n w = very_large \/ exists j, (j < n)%nat /\ 0 < w j /\ min_pos n w = w j).
Proof.
  intros w. unfold min_pos.
  apply (for_up_inv (fun k m => (forall j, (j < k)%nat -> 0 < w j -> m <= w j) /\ m <= very_large /\
    (m = very_large \/ exists j, (j < n)%nat /\ 0 < w j /\ m = w j))); [lia| |].
  - split; [lia|]. split; [lra|auto].
  - intros i m Hi (A & B & C).
    assert (D : forall m', m' <= m -> (0 < w i -> m' <= w i) -> forall j, (j < S i)%nat -> 0 < w j -> m' <= w j).
    { intros m' L E j Hj P. destruct (Nat.eq_dec j i) as [->|N]; [auto|]. specialize (A j ltac:(lia) P). lra. }
    destruct (Rlt_dec 0 (w i)) as [P|P]; [destruct (Rlt_dec (w i) m) as [Q|Q]|].
    + split; [apply D; lra|]. split; [lra|]. right. exists i. repeat split; auto; lia.
    + split; [apply D; lra|]. split; [lra|auto].
    + split; [apply D; lra|]. split; [lra|auto].
Qed.
Lemma min_pos_nonneg : forall w, 0 < very_large -> 0 < min_pos n w.
Proof. intros w V. destruct (min_pos_spec w) as (_ & _ & [->|(j & _ & P & ->)]); auto. Qed.

(** before the i-th one is treated *)
Lemma state_at : forall w i k, (i <= n)%nat ->
  for_up 0 i (clip n e) w k = if (k <? i)%nat then clipped n e w k else w k.
Proof.
  intros w i k L. unfold clipped.
  assert (G : forall m, (m <= n)%nat -> (k < m)%nat -> for_up 0 m (clip n e) w k = for_up 0 (S k) (clip n e) w k).
  { induction m as [|m IH]; intros L1 L2; [lia|]. rewrite for_up_S by lia.
    destruct (Nat.eq_dec k m) as [->|N]; [rewrite for_up_S by lia; reflexivity|].
    rewrite clip_other by exact N. apply IH; lia. }
  destruct (Nat.ltb_spec k i) as [H|H].
  - rewrite (G i L H). symmetry. apply G; lia.
  - clear G. induction i as [|i IH]; [rewrite for_up_nil; reflexivity|].
    rewrite for_up_S by lia. rewrite clip_other by lia. apply IH; lia.
Qed.
Lemma clip_val : forall i w, clip n e i w i =
  Rmax (if Rlt_dec (w i) 0 then Rmin (Rabs (w i)) (min_pos n w) else w i) e.
Proof.
  intros i w. unfold clip. cbv zeta. rewrite upd_same.
  match goal with |- context [if Rlt_dec (?a i) e then upd ?a i e else ?a] => set (w1 := a) end.
  assert (E : w1 i = if Rlt_dec (w i) 0 then Rmin (Rabs (w i)) (min_pos n w) else w i).
  { unfold w1. destruct (Rlt_dec (w i) 0); [|reflexivity]. rewrite upd_same. unfold Rmin.
    destruct (Rle_dec (Rabs (w i)) (min_pos n w)); reflexivity. }
  rewrite <- E. destruct (Rlt_dec (w1 i) e) as [L|L].
  - rewrite upd_same, Rabs_pos_eq, Rmax_right; lra.
  - rewrite Rabs_pos_eq, Rmax_left; lra.
Qed.
Lemma clipped_at : forall w i, (i < n)%nat ->
  clipped n e w i = clip n e i (for_up 0 i (clip n e) w) i.
Proof.
  intros w i H. pose proof (state_at w (S i) i H) as A. replace (i <? S i)%nat with true in A by (symmetry; apply Nat.ltb_lt; lia).
  rewrite <- A. rewrite for_up_S by lia. reflexivity.
Qed.
Lemma clipped_pos : forall w i, (i < n)%nat -> 0 <= w i -> clipped n e w i = Rmax (w i) e.
Proof.
  intros w i H P. rewrite clipped_at, clip_val by exact H. rewrite state_at by lia.
  rewrite Nat.ltb_irrefl. destruct (Rlt_dec (w i) 0); [lra|reflexivity].
Qed.
Lemma clipped_neg : forall w i, (i < n)%nat -> w i < 0 ->
  clipped n e w i <= Rmax (Rabs (w i)) e /\
  (forall j, (j < n)%nat -> 0 < w j \/ (j < i)%nat -> clipped n e w i <= clipped n e w j) /\
  (clipped n e w i = e \/ clipped n e w i = Rabs (w i) \/ clipped n e w i = very_large \/
   exists j, (j < n)%nat /\ (0 < w j \/ (j < i)%nat) /\ clipped n e w i = clipped n e w j).
Proof.
  intros w i H Ng. rewrite (clipped_at w i H), clip_val.
  set (s := for_up 0 i (clip n e) w).
  assert (Si : s i = w i) by (unfold s; rewrite state_at, Nat.ltb_irrefl by lia; reflexivity).
  rewrite Si. destruct (Rlt_dec (w i) 0); [clear r|lra].
  destruct (min_pos_spec s) as (A & B & C).
  assert (Sp : forall j, (j < n)%nat -> 0 < w j \/ (j < i)%nat -> 0 < s j /\ Rmax (s j) e = clipped n e w j).
  { intros j Hj P. unfold s. rewrite state_at by lia. destruct (Nat.ltb_spec j i) as [L|L].
    - pose proof (clipped_ge n e e_pos w j Hj). split; [lra|apply Rmax_left; lra].
    - destruct P as [P|P]; [|lia]. split; [exact P|]. symmetry. apply clipped_pos; [exact Hj|lra]. }
  set (mp := min_pos n s) in *. set (a := Rabs (w i)).
  split; [|split].
  - apply Rle_max_compat_r, Rmin_l.
  - intros j Hj P. destruct (Sp j Hj P) as (P1 & <-). apply Rle_max_compat_r.
    eapply Rle_trans; [apply Rmin_r|]. apply A; auto.
  - destruct (Rle_dec (Rmin a mp) e) as [L|L]; [left; apply Rmax_right; exact L|].
    assert (L' : e <= Rmin a mp) by lra. rewrite (Rmax_left _ _ L').
    destruct (Rle_dec a mp) as [Q|Q]; [right; left; apply Rmin_left; exact Q|].
    right; right. assert (Q' : mp <= a) by lra. rewrite (Rmin_right _ _ Q') in *.
    destruct C as [C|(j & Hj & Pj & C)]; [left; exact C|]. right. exists j. split; [exact Hj|].
    assert (P : 0 < w j \/ (j < i)%nat).
    { destruct (Nat.lt_ge_cases j i) as [K|K]; [auto|]. left. unfold s in Pj. rewrite state_at in Pj by lia.
      replace (j <? i)%nat with false in Pj by (symmetry; apply Nat.ltb_ge; lia). exact Pj. }
    split; [exact P|]. destruct (Sp j Hj P) as (_ & <-). rewrite Rmax_left; lra.
Qed.
End E.
