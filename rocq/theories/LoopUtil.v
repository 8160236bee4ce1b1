(** C for-loops over a state, and their invariants. *)
From Coq Require Import List Arith Lia.
Import ListNotations.

(** for (i = lo; i < hi; i++) s = body(i, s) *)
Definition for_up {S : Type} (lo hi : nat) (body : nat -> S -> S) (s : S) : S :=
  fold_left (fun s i => body i s) (seq lo (hi - lo)) s.
(** for (i = hi - 1; i >= lo; i--) s = body(i, s) *)
Definition for_down {S : Type} (lo hi : nat) (body : nat -> S -> S) (s : S) : S :=
  fold_left (fun s i => body i s) (rev (seq lo (hi - lo))) s.

Lemma for_up_inv : forall {S : Type} (P : nat -> S -> Prop) hi (body : nat -> S -> S) lo s,
  lo <= hi -> P lo s ->
  (forall i s, lo <= i < hi -> P i s -> P (Datatypes.S i) (body i s)) -> P hi (for_up lo hi body s).
Proof.
  intros S P hi body lo s L H Hs. unfold for_up.
  remember (hi - lo) as k eqn:E. revert lo s L H Hs E.
  induction k; intros lo s L H Hs E; simpl.
  - replace hi with lo by lia. exact H.
  - apply IHk; [lia| | |lia].
    + apply Hs; [lia|exact H].
    + intros i s' I. apply Hs. lia.
Qed.

Lemma for_down_inv : forall {S : Type} (P : nat -> S -> Prop) lo (body : nat -> S -> S) hi s,
  lo <= hi -> P hi s ->
  (forall i s, lo <= i < hi -> P (Datatypes.S i) s -> P i (body i s)) -> P lo (for_down lo hi body s).
Proof.
  intros S P lo body hi s L H Hs. unfold for_down.
  remember (hi - lo) as k eqn:E. revert hi s L H Hs E.
  induction k; intros hi s L H Hs E; simpl.
  - replace lo with hi by lia. exact H.
  - rewrite fold_left_app. simpl.
    replace (fold_left (fun s i => body i s) (rev (seq (Datatypes.S lo) k)) s) with
      (fold_left (fun s i => body i s) (rev (seq (Datatypes.S lo) k)) s) by reflexivity.
    apply Hs; [lia|].
    assert (G : forall k lo hi s, lo + k = hi -> P hi s -> (forall i s, lo <= i < hi -> P (Datatypes.S i) s -> P i (body i s)) ->
       P lo (fold_left (fun s i => body i s) (rev (seq lo k)) s)).
    { clear. induction k; intros lo hi s E H Hs; simpl.
      - replace lo with hi by lia. exact H.
      - rewrite fold_left_app. simpl. apply Hs; [lia|]. apply (IHk (Datatypes.S lo) hi); [lia|exact H|]. intros; apply Hs; auto; lia. }
    apply (G k (Datatypes.S lo) hi); [lia|exact H|]. intros; apply Hs; auto; lia.
Qed.

Lemma for_up_S : forall {S : Type} lo hi (body : nat -> S -> S) s, lo <= hi ->
  for_up lo (Datatypes.S hi) body s = body hi (for_up lo hi body s).
Proof.
  intros. unfold for_up. replace (Datatypes.S hi - lo) with (Datatypes.S (hi - lo)) by lia.
  rewrite seq_S, fold_left_app. simpl. replace (lo + (hi - lo)) with hi by lia. reflexivity.
Qed.
Lemma for_up_nil : forall {S : Type} lo (body : nat -> S -> S) s, for_up lo lo body s = s.
Proof. intros. unfold for_up. rewrite Nat.sub_diag. reflexivity. Qed.
Lemma for_up_ext : forall {S : Type} lo hi (b1 b2 : nat -> S -> S) s,
  (forall i s, lo <= i < hi -> b1 i s = b2 i s) -> for_up lo hi b1 s = for_up lo hi b2 s.
Proof.
  intros S lo hi b1 b2 s H. unfold for_up.
  assert (G : forall l s, (forall i, In i l -> lo <= i < hi) -> fold_left (fun s i => b1 i s) l s = fold_left (fun s i => b2 i s) l s).
  { induction l; intros s0 Hl; simpl; auto. rewrite H by (apply Hl; left; auto). apply IHl. intros; apply Hl; right; auto. }
  apply G. intros i Hi. apply in_seq in Hi. lia.
Qed.
