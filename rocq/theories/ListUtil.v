(** Small list helpers shared by the models: array update and fold lemmas. *)
From Coq Require Import List Arith Lia Permutation Bool.
Import ListNotations.

Section U.
Context {A : Type}.

(** Array assignment [l[i] = x]; nothing happens outside the array. *)
Fixpoint upd (l : list A) (i : nat) (x : A) : list A :=
  match l, i with
  | [], _ => []
  | _ :: t, 0 => x :: t
  | h :: t, S i' => h :: upd t i' x
  end.

Lemma upd_length : forall l i x, length (upd l i x) = length l.
Proof. induction l; destruct i; simpl; auto. Qed.

Lemma nth_upd : forall l i k x d,
  nth k (upd l i x) d = if (k =? i) && (i <? length l) then x else nth k l d.
Proof.
  induction l; intros i k x d.
  - simpl. destruct k, i; simpl; auto; rewrite Bool.andb_false_r; auto.
  - destruct i, k; simpl; auto. rewrite IHl. reflexivity.
Qed.

Lemma nth_upd_eq : forall l i x d, i < length l -> nth i (upd l i x) d = x.
Proof. intros. rewrite nth_upd, Nat.eqb_refl. destruct (Nat.ltb_spec i (length l)); simpl; auto; lia. Qed.

Lemma nth_upd_neq : forall l i k x d, k <> i -> nth k (upd l i x) d = nth k l d.
Proof. intros. rewrite nth_upd. destruct (Nat.eqb_spec k i); simpl; auto; contradiction. Qed.

Lemma nth_error_upd : forall l i k x,
  nth_error (upd l i x) k = if (k =? i) && (i <? length l) then Some x else nth_error l k.
Proof.
  induction l; intros i k x.
  - simpl. destruct k, i; simpl; auto; rewrite Bool.andb_false_r; auto.
  - destruct i, k; simpl; auto. rewrite IHl. reflexivity.
Qed.

(** Exchange of two array elements. *)
Definition swap (l : list A) (i j : nat) : list A :=
  match nth_error l i, nth_error l j with
  | Some a, Some b => upd (upd l i b) j a
  | _, _ => l
  end.

Lemma swap_length : forall l i j, length (swap l i j) = length l.
Proof. intros. unfold swap. destruct (nth_error l i); auto. destruct (nth_error l j); auto. rewrite !upd_length. auto. Qed.

Lemma upd_split : forall l i a, nth_error l i = Some a -> 
  exists l1 l2, l = l1 ++ a :: l2 /\ length l1 = i /\ (forall x, upd l i x = l1 ++ x :: l2).
Proof.
  induction l; intros i b H; destruct i; simpl in H; try discriminate.
  - injection H as ->. exists [], l. auto.
  - destruct (IHl _ _ H) as (l1 & l2 & E & L & U). exists (a :: l1), l2.
    split; [simpl; f_equal; auto|]. split; [simpl; auto|]. intros; simpl; f_equal; auto.
Qed.

Lemma upd_perm : forall l i a x, nth_error l i = Some a -> Permutation (a :: upd l i x) (x :: l).
Proof.
  intros l i a x H. destruct (upd_split _ _ _ H) as (l1 & l2 & E & _ & U).
  rewrite U, E. rewrite <- !Permutation_middle. constructor 3.
Qed.

Lemma swap_perm : forall l i j, Permutation (swap l i j) l.
Proof.
  intros. unfold swap. destruct (nth_error l i) eqn:E; auto. destruct (nth_error l j) eqn:F; auto.
  destruct (Nat.eq_dec i j) as [->|N].
  - rewrite E in F. injection F as ->.
    destruct (upd_split _ _ _ E) as (l1 & l2 & Q & L & U). rewrite U.
    rewrite <- U with (x := a0). 
    assert (upd (upd l j a0) j a0 = l). { rewrite (U a0), <- Q. rewrite U. auto. }
    rewrite H. auto.
  - assert (K : nth_error (upd l i a0) j = Some a0).
    { rewrite nth_error_upd. destruct (Nat.eqb_spec j i); [congruence|]. simpl; auto. }
    pose proof (upd_perm _ _ _ a K) as P1.
    pose proof (upd_perm _ _ _ a0 E) as P2.
    apply Permutation_cons_inv with (a := a0).
    rewrite P1. rewrite P2. auto.
Qed.

Lemma swap_nth : forall l i j k d, i < length l -> j < length l ->
  nth k (swap l i j) d = if k =? j then nth i l d else if k =? i then nth j l d else nth k l d.
Proof.
  intros l i j k d Hi Hj. unfold swap.
  rewrite (nth_error_nth' l d Hi), (nth_error_nth' l d Hj).
  rewrite nth_upd, upd_length. destruct (Nat.ltb_spec j (length l)); [|lia].
  rewrite Bool.andb_true_r. destruct (k =? j); auto.
  rewrite nth_upd. destruct (Nat.ltb_spec i (length l)); [|lia]. rewrite Bool.andb_true_r. auto.
Qed.

Lemma swap_out : forall l i j k d, k <> i -> k <> j -> nth k (swap l i j) d = nth k l d.
Proof.
  intros. unfold swap. destruct (nth_error l i); auto. destruct (nth_error l j); auto.
  rewrite !nth_upd_neq; auto.
Qed.

(** Invariant rule for left folds. *)
Lemma fold_inv : forall (B : Type) (P : A -> Prop) (f : A -> B -> A) (l : list B) a,
  P a -> (forall a b, In b l -> P a -> P (f a b)) -> P (fold_left f l a).
Proof.
  intros B P f l. induction l; simpl; intros; auto.
Qed.

End U.

(** Invariant rule that knows the part of [seq] already processed. *)
Lemma fold_seq_inv : forall (A : Type) (P : nat -> A -> Prop) (f : A -> nat -> A) n s a,
  P s a -> (forall k a, s <= k < s + n -> P k a -> P (S k) (f a k)) ->
  P (s + n) (fold_left f (seq s n) a).
Proof.
  induction n; simpl; intros; [rewrite Nat.add_0_r; auto|].
  replace (s + S n) with (S s + n) by lia. apply IHn.
  - apply H0; auto; lia.
  - intros. apply H0; auto; lia.
Qed.
