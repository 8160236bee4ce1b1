(** Proofs about the random number generator: words and one step. *)
From Coq Require Import ZArith List Bool Lia QArith.
From Coq.Floats Require Import SpecFloat.
From Verif Require Import RngModel RngSpec.
Import ListNotations.
Local Open Scope Z_scope.

Lemma N_val : N = 191%nat. Proof. reflexivity. Qed.
Lemma size_val : size = 768%nat. Proof. reflexivity. Qed.

(** *** Arrays. *)
Lemma put_some : forall A (l : list A) i v, (i < length l)%nat ->
  exists l', put l i v = Some l'.
Proof.
  induction l as [|x l IH]; intros i v H; cbn in H; [lia|].
  destruct i as [|i]; cbn; [eauto|].
  destruct (IH i v ltac:(lia)) as [l' ->]. eauto.
Qed.
Lemma put_length : forall A (l : list A) i v l',
  put l i v = Some l' -> length l' = length l.
Proof.
  induction l as [|x l IH]; intros i v l'; cbn; [discriminate|].
  destruct i as [|i]; [intros H; injection H as <-; reflexivity|].
  destruct (put l i v) eqn:E; [|discriminate].
  intros H; injection H as <-. cbn. f_equal. eauto.
Qed.
Lemma put_get : forall A (l : list A) i v l' j,
  put l i v = Some l' -> get l' j = if Nat.eqb j i then Some v else get l j.
Proof.
  unfold get. induction l as [|x l IH]; intros i v l' j; cbn; [discriminate|].
  destruct i as [|i].
  - intros H; injection H as <-. destruct j; reflexivity.
  - destruct (put l i v) eqn:E; [|discriminate].
    intros H; injection H as <-. destruct j as [|j]; cbn; [reflexivity|].
    apply (IH _ _ _ j E).
Qed.
Lemma get_some : forall A (l : list A) i, (i < length l)%nat ->
  exists v, get l i = Some v.
Proof.
  unfold get. intros A l i H. destruct (nth_error l i) eqn:E; [eauto|].
  apply nth_error_None in E. lia.
Qed.
Lemma put_dom : forall A (l : list A) i v l',
  put l i v = Some l' -> (i < length l)%nat.
Proof.
  induction l as [|x l IH]; intros i v l'; cbn; [discriminate|].
  destruct i as [|i]; [lia|].
  destruct (put l i v) eqn:E; [|discriminate]. intros _.
  specialize (IH _ _ _ E). lia.
Qed.
Lemma put_Forall : forall A (P : A -> Prop) (l : list A) i v l',
  put l i v = Some l' -> Forall P l -> P v -> Forall P l'.
Proof.
  induction l as [|x l IH]; intros i v l'; cbn; [discriminate|].
  destruct i as [|i].
  - intros H; injection H as <-. intros F V. inversion F; subst.
    constructor; assumption.
  - destruct (put l i v) eqn:E; [|discriminate].
    intros H F V; injection H as <-. inversion F; subst.
    constructor; [assumption | eauto].
Qed.
Lemma get_Forall : forall A (P : A -> Prop) (l : list A) i v,
  get l i = Some v -> Forall P l -> P v.
Proof.
  unfold get. intros A P l i v H F. apply nth_error_In in H.
  rewrite Forall_forall in F. auto.
Qed.
Lemma get_ext : forall A (l l' : list A), length l = length l' ->
  (forall i, get l i = get l' i) -> l = l'.
Proof.
  unfold get. induction l as [|x l IH]; intros [|y l'] H G; cbn in H;
    try discriminate; [reflexivity|].
  pose proof (G 0%nat) as G0. cbn in G0. injection G0 as ->. f_equal.
  apply IH; [lia|]. intros i. exact (G (S i)).
Qed.

(** *** Words of 64 bits. *)
Lemma word64_bits : forall x, 0 <= x ->
  (word64 x <-> forall i, 64 <= i -> Z.testbit x i = false).
Proof.
  intros x Hx. unfold word64. split.
  - intros H i Hi. apply Z.bits_above_log2; [lia|].
    destruct (Z.eq_dec x 0) as [->|]; [cbn; lia|].
    apply Z.lt_le_trans with 64; [|exact Hi]. apply Z.log2_lt_pow2; lia.
  - intros H. split; [exact Hx|].
    destruct (Z.eq_dec x 0) as [->|Hn]; [lia|].
    apply Z.log2_lt_pow2; [lia|].
    destruct (Z_lt_le_dec (Z.log2 x) 64) as [|L]; [assumption|].
    specialize (H _ L). rewrite Z.bit_log2 in H by lia. discriminate.
Qed.
Lemma word64_lxor : forall x y, word64 x -> word64 y -> word64 (Z.lxor x y).
Proof.
  intros x y Hx Hy. pose proof Hx as [X _]. pose proof Hy as [Y _].
  apply word64_bits; [apply Z.lxor_nonneg; lia|].
  intros i Hi. rewrite Z.lxor_spec.
  rewrite (proj1 (word64_bits x X) Hx i Hi), (proj1 (word64_bits y Y) Hy i Hi).
  reflexivity.
Qed.
Lemma word64_w64 : forall x, word64 (w64 x).
Proof. intros x. unfold word64, w64. apply Z.mod_pos_bound. reflexivity. Qed.
Lemma word64_shiftr : forall x n, 0 <= n -> word64 x -> word64 (Z.shiftr x n).
Proof.
  intros x n Hn Hx. pose proof Hx as [X _].
  apply word64_bits; [apply Z.shiftr_nonneg; exact X|].
  intros i Hi. rewrite Z.shiftr_spec by lia.
  apply (proj1 (word64_bits x X) Hx). lia.
Qed.
Lemma w64_bit : forall x i, 0 <= i ->
  Z.testbit (w64 x) i = (i <? 64) && Z.testbit x i.
Proof.
  intros x i Hi. unfold w64. destruct (Z.ltb_spec i 64) as [L|G]; cbn [andb].
  - apply Z.mod_pow2_bits_low. exact L.
  - apply Z.mod_pow2_bits_high. lia.
Qed.

(** The two shifts of a word by 32 bits together are a rotation. *)
Lemma rot_inj : forall x y, word64 x -> word64 y ->
  Z.lxor (Z.shiftr x 32) (w64 (Z.shiftl x 32)) =
  Z.lxor (Z.shiftr y 32) (w64 (Z.shiftl y 32)) -> x = y.
Proof.
  intros x y Hx Hy H. pose proof Hx as [X _]. pose proof Hy as [Y _].
  assert (B : forall z i, word64 z -> 0 <= i < 64 ->
    Z.testbit (Z.lxor (Z.shiftr z 32) (w64 (Z.shiftl z 32)))
      (if i <? 32 then i + 32 else i - 32) = Z.testbit z i).
  { intros z i Hz Hi. pose proof Hz as [Z0 _].
    destruct (Z.ltb_spec i 32) as [L|G];
      rewrite Z.lxor_spec, Z.shiftr_spec, w64_bit, Z.shiftl_spec by lia.
    - rewrite (proj1 (word64_bits z Z0) Hz) by lia.
      replace (i + 32 <? 64) with true by (symmetry; apply Z.ltb_lt; lia).
      replace (i + 32 - 32) with i by lia. cbn. destruct (Z.testbit z i); reflexivity.
    - replace (i - 32 + 32) with i by lia.
      rewrite (Z.testbit_neg_r z (i - 32 - 32)) by lia.
      rewrite andb_false_r, xorb_false_r. reflexivity. }
  apply Z.bits_inj'. intros i Hi.
  destruct (Z_lt_le_dec i 64) as [L|G].
  - rewrite <- (B x i), <- (B y i), H by (assumption || lia). reflexivity.
  - rewrite (proj1 (word64_bits x X) Hx), (proj1 (word64_bits y Y) Hy) by lia.
    reflexivity.
Qed.

Definition ok128 (w : w128) : Prop := word64 (fst w) /\ word64 (snd w).
Definition dbl128 (w : w128) : Prop :=
  (word64 (fst w) /\ in_1_2 (fst w)) /\ (word64 (snd w) /\ in_1_2 (snd w)).

Lemma land_small : forall x m, 0 <= x -> 0 <= m < 2 ^ 52 ->
  0 <= Z.land x m < 2 ^ 52.
Proof.
  intros x m Hx Hm. split; [apply Z.land_nonneg; lia|].
  rewrite <- (Z.mod_small m (2 ^ 52)) by exact Hm.
  rewrite <- Z.land_ones by lia. rewrite Z.land_assoc, Z.land_ones by lia.
  apply Z.mod_pos_bound. reflexivity.
Qed.
Lemma tempered : forall n m t, word64 n -> 0 <= m < 2 ^ 52 -> word64 t ->
  word64 (Z.lxor (Z.lxor (Z.shiftr n SR) (Z.land n m)) t) /\
  (in_1_2 t -> in_1_2 (Z.lxor (Z.lxor (Z.shiftr n SR) (Z.land n m)) t)).
Proof.
  intros n m t Hn Hm Ht.
  pose proof (land_small n m (proj1 Hn) Hm) as L.
  assert (S1 : 0 <= Z.shiftr n SR < 2 ^ 52).
  { unfold SR. rewrite Z.shiftr_div_pow2 by lia. unfold word64 in Hn.
    split; [apply Z.div_pos; lia|]. apply Z.div_lt_upper_bound; lia. }
  split.
  - apply word64_lxor; [|exact Ht].
    apply word64_lxor; unfold word64; lia.
  - unfold in_1_2. rewrite <- !Z.shiftr_div_pow2 by lia. intros H.
    rewrite !Z.shiftr_lxor, H.
    rewrite (Z.shiftr_div_pow2 (Z.shiftr n SR)), (Z.shiftr_div_pow2 (Z.land n m)) by lia.
    rewrite !Z.div_small by lia. reflexivity.
Qed.

Lemma recursion_ok : forall a b l, ok128 a -> ok128 b -> ok128 l ->
  ok128 (fst (do_recursion a b l)) /\ ok128 (snd (do_recursion a b l)) /\
  (dbl128 a -> dbl128 (fst (do_recursion a b l))).
Proof.
  intros [t0 t1] [b0 b1] [l0 l1] [A0 A1] [B0 B1] [L0 L1].
  cbn [fst snd] in *. unfold do_recursion. cbn [fst snd].
  set (n0 := Z.lxor (Z.lxor (Z.lxor (w64 (Z.shiftl t0 SL1)) _) _) b0).
  set (n1 := Z.lxor (Z.lxor (Z.lxor (w64 (Z.shiftl t1 SL1)) _) _) b1).
  assert (N0 : word64 n0).
  { unfold n0. repeat apply word64_lxor; try assumption;
      try apply word64_w64; apply word64_shiftr; [lia | assumption]. }
  assert (N1 : word64 n1).
  { unfold n1. repeat apply word64_lxor; try assumption;
      try apply word64_w64; apply word64_shiftr; [lia | assumption]. }
  destruct (tempered n0 MSK1 t0 N0 ltac:(unfold MSK1; lia) A0) as [T0 D0].
  destruct (tempered n1 MSK2 t1 N1 ltac:(unfold MSK2; lia) A1) as [T1 D1].
  unfold ok128, dbl128. cbn [fst snd].
  split; [split; assumption|]. split; [split; assumption|].
  intros [[_ E0] [_ E1]]. split; split; auto.
Qed.

Lemma lxor_cancel : forall a b c, Z.lxor a b = Z.lxor a c -> b = c.
Proof.
  intros a b c H.
  assert (E : Z.lxor a (Z.lxor a b) = Z.lxor a (Z.lxor a c)) by (rewrite H; reflexivity).
  rewrite <- !Z.lxor_assoc, !Z.lxor_nilpotent, !Z.lxor_0_l in E. exact E.
Qed.
Lemma lxor_cancel_r : forall a b c, Z.lxor b a = Z.lxor c a -> b = c.
Proof.
  intros a b c H. rewrite (Z.lxor_comm b), (Z.lxor_comm c) in H.
  eapply lxor_cancel; exact H.
Qed.

(** Entry and lung before the recursion are determined by those after it and
    by the entry picked up. *)
Lemma recursion_inj : forall a a' b l l', ok128 l -> ok128 l' ->
  do_recursion a b l = do_recursion a' b l' -> a = a' /\ l = l'.
Proof.
  intros [t0 t1] [t0' t1'] [b0 b1] [l0 l1] [l0' l1'] [L0 L1] [L0' L1'] H.
  cbn [fst snd] in *. unfold do_recursion in H. cbn [fst snd] in H.
  pose proof (f_equal (fun p => fst (fst p)) H) as R0.
  pose proof (f_equal (fun p => snd (fst p)) H) as R1.
  pose proof (f_equal (fun p => fst (snd p)) H) as E0.
  pose proof (f_equal (fun p => snd (snd p)) H) as E1.
  clear H. cbv beta in *. cbn [fst snd] in R0, R1, E0, E1.
  rewrite E0 in R0. rewrite E1 in R1.
  apply lxor_cancel in R0. apply lxor_cancel in R1. subst t0' t1'.
  apply lxor_cancel_r in E0. apply lxor_cancel_r in E1.
  rewrite !Z.lxor_assoc in E0, E1.
  apply lxor_cancel in E0. apply lxor_cancel in E1.
  apply rot_inj in E0; [|assumption..]. apply rot_inj in E1; [|assumption..].
  subst. split; reflexivity.
Qed.
