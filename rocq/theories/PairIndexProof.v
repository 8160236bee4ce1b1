From Coq Require Import ZArith List Lia.
From Verif Require Import PairIndexModel.
Import ListNotations.
Open Scope Z_scope.

(** Triangular numbers without division. *)
Lemma tri_even : forall t, 0 <= t -> 2 * Z.quot (t * (t + 1)) 2 = t * (t + 1).
Proof.
  intros t Ht.
  rewrite Z.quot_div_nonneg by nia.
  assert (H : (t * (t + 1)) mod 2 = 0).
  { destruct (Z.Even_or_Odd t) as [[k ->]|[k ->]].
    - replace (2 * k * (2 * k + 1)) with (k * (2 * k + 1) * 2) by ring.
      apply Z_mod_mult.
    - replace ((2 * k + 1) * (2 * k + 1 + 1)) with ((2 * k + 1) * (k + 1) * 2) by ring.
      apply Z_mod_mult. }
  pose proof (Z_div_mod_eq_full (t * (t + 1)) 2). lia.
Qed.

Lemma paircol_spec : forall n, 0 <= n -> 2 * paircol n = n * (n + 1).
Proof. intros. apply tri_even; assumption. Qed.

Lemma pair_index_le : forall n a b, 0 <= a <= b ->
  2 * pair_index n a b = 2 * a * n + 2 * b - a * (a + 1).
Proof.
  intros n a b H. unfold pair_index.
  replace (a <=? b) with true by (symmetry; apply Z.leb_le; lia).
  pose proof (tri_even a). lia.
Qed.

Lemma pair_index_sym : forall n a b, pair_index n a b = pair_index n b a.
Proof.
  intros n a b. unfold pair_index.
  destruct (Z.leb_spec a b); destruct (Z.leb_spec b a); try lia;
    replace b with a by lia; reflexivity.
Qed.

Lemma pair_index_range_le : forall n a b, 0 <= a <= b -> b < n ->
  0 <= pair_index n a b < paircol n.
Proof.
  intros n a b H Hn.
  pose proof (pair_index_le n a b H). pose proof (paircol_spec n ltac:(lia)).
  split; nia.
Qed.

Lemma pair_index_range : forall n a b, 0 <= a < n -> 0 <= b < n ->
  0 <= pair_index n a b < paircol n.
Proof.
  intros n a b Ha Hb. destruct (Z.le_ge_cases a b).
  - apply pair_index_range_le; lia.
  - rewrite pair_index_sym. apply pair_index_range_le; lia.
Qed.

Lemma pair_index_inj_le : forall n a b c d,
  0 <= a <= b -> b < n -> 0 <= c <= d -> d < n ->
  pair_index n a b = pair_index n c d -> a = c /\ b = d.
Proof.
  intros n a b c d H1 H2 H3 H4 E.
  pose proof (pair_index_le n a b H1) as E1.
  pose proof (pair_index_le n c d H3) as E2.
  rewrite E in E1. rewrite E1 in E2.
  assert (a = c).
  { destruct (Z.lt_trichotomy a c) as [L|[L|L]]; [exfalso|exact L|exfalso].
    - (* a < c: row c starts after the end of row a *)
      assert (2*a*n + 2*b - a*(a+1) <= 2*a*n + 2*(n-1) - a*(a+1)) by lia.
      assert (2*c*n + 2*d - c*(c+1) >= 2*c*n + 2*c - c*(c+1)) by lia.
      assert (2*c*n + 2*c - c*(c+1) > 2*a*n + 2*(n-1) - a*(a+1)); [|lia].
      remember (c - a - 1) as k. assert (c = a + 1 + k) by lia. subst c.
      assert (0 <= k) by lia. nia.
    - assert (2*c*n + 2*d - c*(c+1) <= 2*c*n + 2*(n-1) - c*(c+1)) by lia.
      assert (2*a*n + 2*b - a*(a+1) >= 2*a*n + 2*a - a*(a+1)) by lia.
      assert (2*a*n + 2*a - a*(a+1) > 2*c*n + 2*(n-1) - c*(c+1)); [|lia].
      remember (a - c - 1) as k. assert (a = c + 1 + k) by lia. subst a.
      assert (0 <= k) by lia. nia. }
  subst c. split; lia.
Qed.

Lemma pair_index_inj : forall n a b c d,
  0 <= a < n -> 0 <= b < n -> 0 <= c < n -> 0 <= d < n ->
  pair_index n a b = pair_index n c d ->
  (a = c /\ b = d) \/ (a = d /\ b = c).
Proof.
  intros n a b c d Ha Hb Hc Hd E.
  destruct (Z.le_ge_cases a b); destruct (Z.le_ge_cases c d).
  - left. apply (pair_index_inj_le n); try lia.
  - right. rewrite (pair_index_sym n c d) in E.
    destruct (pair_index_inj_le n a b d c) as [X Y]; lia.
  - right. rewrite (pair_index_sym n a b) in E.
    destruct (pair_index_inj_le n b a c d) as [X Y]; lia.
  - left. rewrite (pair_index_sym n a b), (pair_index_sym n c d) in E.
    destruct (pair_index_inj_le n b a d c) as [X Y]; lia.
Qed.

(** Rows are contiguous. *)
Lemma pair_index_step : forall n a b, 0 <= a <= b ->
  pair_index n a (b + 1) = pair_index n a b + 1.
Proof.
  intros n a b H.
  pose proof (pair_index_le n a b H). pose proof (pair_index_le n a (b+1) ltac:(lia)). lia.
Qed.

Lemma pair_index_row : forall n a, 0 <= a -> a + 1 < n ->
  pair_index n (a + 1) (a + 1) = pair_index n a (n - 1) + 1.
Proof.
  intros n a H H1.
  pose proof (pair_index_le n a (n-1) ltac:(lia)).
  pose proof (pair_index_le n (a+1) (a+1) ltac:(lia)). nia.
Qed.


Lemma pair_index_surj : forall n c, 0 <= n -> 0 <= c < paircol n ->
  exists a b, 0 <= a <= b /\ b < n /\ pair_index n a b = c.
Proof.
  intros n c Hn0 H.
  destruct (Z.eq_dec n 0) as [->|Hnz]; [cbn in H; lia|].
  assert (Hn : 0 < n) by lia.
  destruct H as [Hc Hlt]. revert c Hc Hlt.
  apply (natlike_ind (fun c => c < paircol n -> exists a b, 0 <= a <= b /\ b < n /\ pair_index n a b = c)).
  - intros _. exists 0, 0. split; [lia|]. split; [lia|]. pose proof (pair_index_le n 0 0). lia.
  - intros c Hc IH Hlt. destruct IH as (a & b & Hab & Hb & E); [lia|].
    destruct (Z.eq_dec b (n - 1)) as [->|].
    + destruct (Z.eq_dec a (n - 1)) as [->|].
      * exfalso. pose proof (pair_index_le n (n-1) (n-1) ltac:(lia)).
        pose proof (paircol_spec n ltac:(lia)). nia.
      * exists (a + 1), (a + 1). split; [lia|]. split; [lia|].
        rewrite pair_index_row by lia. lia.
    + exists a, (b + 1). split; [lia|]. split; [lia|].
      rewrite pair_index_step by lia. lia.
Qed.

(** IMD export *)
Lemma imd_inner_nth : forall cnt n i m j m2 k,
  (k < cnt)%nat ->
  nth_error (imd_inner cnt n i m j m2) k =
  Some (let jk := j + Z.of_nat k in
        if i <? jk then i * n + jk - m
        else jk * n + i - (m2 + Z.of_nat k * j + Z.quot (Z.of_nat k * (Z.of_nat k + 1)) 2 + j)).
Proof.
  induction cnt as [|c IH]; intros n i m j m2 k Hk; [lia|].
  destruct k as [|k].
  - cbn [nth_error imd_inner]. cbv zeta. f_equal.
    change (Z.of_nat 0) with 0. rewrite Z.add_0_r. cbn [Z.quot]. 
    destruct (i <? j); [reflexivity|]. cbn. lia.
  - cbn [nth_error imd_inner]. cbv zeta. rewrite IH by lia. f_equal. cbv zeta.
    replace (j + 1 + Z.of_nat k) with (j + Z.of_nat (S k)) by lia.
    destruct (i <? j + Z.of_nat (S k)); [reflexivity|].
    pose proof (tri_even (Z.of_nat k) ltac:(lia)).
    pose proof (tri_even (Z.of_nat (S k)) ltac:(lia)).
    nia.
Qed.

Lemma imd_outer_nth : forall cnt n i m k,
  (k < cnt)%nat ->
  nth_error (imd_outer cnt n i m) k =
  Some (imd_inner (Z.to_nat n) n (i + Z.of_nat k)
          (m + Z.of_nat k * i + Z.quot (Z.of_nat k * (Z.of_nat k + 1)) 2 + i) 0 0).
Proof.
  induction cnt as [|c IH]; intros n i m k Hk; [lia|].
  destruct k as [|k].
  - cbn [nth_error imd_outer]. cbv zeta. f_equal. f_equal; cbn; lia.
  - cbn [nth_error imd_outer]. cbv zeta. rewrite IH by lia. f_equal.
    f_equal; [lia|].
    pose proof (tri_even (Z.of_nat k) ltac:(lia)).
    pose proof (tri_even (Z.of_nat (S k)) ltac:(lia)).
    nia.
Qed.

Lemma imd_columns_spec : forall n i j, 0 <= i < n -> 0 <= j < n ->
  exists row, nth_error (imd_columns n) (Z.to_nat i) = Some row /\
              nth_error row (Z.to_nat j) = Some (pair_index n i j).
Proof.
  intros n i j Hi Hj. unfold imd_columns.
  eexists. split; [apply imd_outer_nth; lia|].
  rewrite imd_inner_nth by lia. f_equal. cbv zeta.
  rewrite !Z2Nat.id by lia. rewrite !Z.add_0_l, Z.mul_0_r.
  unfold pair_index.
  destruct (Z.ltb_spec i j); destruct (Z.leb_spec i j); try lia.
  assert (i = j) by lia. subst. lia.
Qed.
