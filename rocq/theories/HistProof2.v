(** C164: columns of the pair functions. *)
From Coq Require Import ZArith Arith Lia.
From Verif Require Import PairIndexModel HistModel.

Lemma tri_le : forall n a, (a < n)%nat -> (a * (a + 1) / 2 <= a * n)%nat.
Proof. intros n a H. apply Nat.div_le_upper_bound; nia. Qed.
Lemma column_is : forall n a b, (a < n)%nat -> (b < n)%nat ->
  Z.of_nat (pair_column n a b) = pair_index (Z.of_nat n) (Z.of_nat a) (Z.of_nat b).
Proof.
  intros n a b A B. unfold pair_column, pair_index. pose proof (tri_le n a A). pose proof (tri_le n b B).
  destruct (Nat.leb_spec a b); destruct (Z.leb_spec (Z.of_nat a) (Z.of_nat b)); try lia;
  rewrite Nat2Z.inj_sub, Nat2Z.inj_add, Nat2Z.inj_mul, Nat2Z.inj_div, Nat2Z.inj_mul, Nat2Z.inj_add by lia;
  rewrite Z.quot_div_nonneg by lia; reflexivity.
Qed.
Lemma paircol_is : forall n, Z.of_nat (HistModel.paircol n) = PairIndexModel.paircol (Z.of_nat n).
Proof.
  intros n. unfold HistModel.paircol, PairIndexModel.paircol. rewrite Nat2Z.inj_div, Nat2Z.inj_mul, Nat2Z.inj_add.
  rewrite Z.quot_div_nonneg by lia. reflexivity.
Qed.
Lemma columns_are : forall n, Z.of_nat (HistModel.paircol n) = PairIndexModel.paircol (Z.of_nat n) /\
  forall a b, (a < n)%nat -> (b < n)%nat -> Z.of_nat (pair_column n a b) = pair_index (Z.of_nat n) (Z.of_nat a) (Z.of_nat b).
Proof. intros n. split; [apply paircol_is|]. intros a b. apply column_is. Qed.
