(** Proofs about the IMD export: tables. *)
From Coq Require Import Reals ZArith List Bool Lia Lra String.
From Verif Require Import PairIndexModel PairIndexProof SplineModel SplineProof3 FuncModel ImdModel ImdSpec.
Import ListNotations.
Local Open Scope R_scope.

Lemma nth_error_grid : forall (A : Type) (g : nat -> nat -> A) m n a i j, (i < n)%nat -> (j < m)%nat ->
  nth_error (flat_map (fun i => map (g i) (seq 0 m)) (seq a n)) (i * m + j) = Some (g (a + i)%nat j).
Proof.
  intros A g m. induction n as [|n IH]; intros a i j Hi Hj; [lia|]. cbn [seq flat_map].
  destruct i as [|i].
  - rewrite nth_error_app1 by (rewrite map_length, seq_length; lia). cbn [Nat.mul Nat.add]. rewrite Nat.add_0_r.
    rewrite (map_nth_error (g a) j (seq 0 m) (d := j)); auto. rewrite nth_error_nth' with (d := 0%nat) by (rewrite seq_length; lia). rewrite seq_nth by lia. reflexivity.
  - rewrite nth_error_app2 by (rewrite map_length, seq_length; cbn [Nat.mul]; lia). rewrite map_length, seq_length.
    replace (S i * m + j - m)%nat with (i * m + j)%nat by (cbn [Nat.mul]; lia). rewrite IH by lia. do 2 f_equal. lia.
Qed.
Lemma length_grid : forall (A : Type) (g : nat -> nat -> A) m n a, List.length (flat_map (fun i => map (g i) (seq 0 m)) (seq a n)) = (n * m)%nat.
Proof. intros A g m. induction n as [|n IH]; intros a; cbn [seq flat_map Nat.mul]; auto. rewrite app_length, map_length, seq_length, IH. reflexivity. Qed.
Lemma grid_inj : forall n x y i j, (y < n)%nat -> (j < n)%nat -> (x * n + y = i * n + j)%nat -> x = i /\ y = j.
Proof.
  intros n x y i j Hy Hj E. assert (Q : forall u v, (v < n)%nat -> ((u * n + v) / n)%nat = u).
  { intros u v Hv. rewrite Nat.div_add_l by lia. rewrite Nat.div_small by auto. lia. }
  assert (x = i) by (rewrite <- (Q x y Hy), <- (Q i j Hj), E; auto). subst. lia.
Qed.
Lemma nth_error_seq : forall n a k, (k < n)%nat -> nth_error (seq a n) k = Some (a + k)%nat.
Proof. intros. rewrite nth_error_nth' with (d := 0%nat) by (rewrite seq_length; lia). rewrite seq_nth by lia. reflexivity. Qed.

Lemma samples_length : forall f cnt r dr, List.length (samples f cnt r dr) = cnt.
Proof. induction cnt; intros; cbn; auto. Qed.
Lemma samples_nth : forall f cnt r dr k, (k < cnt)%nat -> nth_error (samples f cnt r dr) k = Some (f (r + INR k * dr)).
Proof.
  induction cnt as [|cnt IH]; intros r dr k Hk; [lia|]. destruct k as [|k]; cbn [samples nth_error].
  - do 2 f_equal. cbn. ring.
  - rewrite IH by lia. do 2 f_equal. rewrite S_INR. ring.
Qed.

Section Tables.
Variables (APOT : bool) (n N : nat).
Variables (plotmin extend : R).
Variable pt : nat -> column.
Variable tab : arr.
Variable fv : nat -> R -> R.
Variable smooth : nat -> bool.
Variables aend lastp : nat -> R.

Lemma pair_col_spec : forall i j, (i < n)%nat -> (j < n)%nat -> pair_col n i j = pair_no n i j.
Proof.
  intros i j Hi Hj. destruct (imd_columns_spec (Z.of_nat n) (Z.of_nat i) (Z.of_nat j)) as (row & E1 & E2); [lia|lia|].
  rewrite Nat2Z.id in E1, E2. unfold pair_col, pair_no. rewrite (nth_error_nth _ _ _ E1), (nth_error_nth _ _ _ E2). reflexivity.
Qed.
Lemma cells_nth : forall i j, (i < n)%nat -> (j < n)%nat -> nth_error (cells n) (i * n + j) = Some (i, j).
Proof. intros i j Hi Hj. unfold cells. rewrite (nth_error_grid _ (fun i j => (i, j))) by auto. reflexivity. Qed.
Lemma cells_length : List.length (cells n) = (n * n)%nat.
Proof. apply length_grid. Qed.
Lemma cells_in : forall i j, In (i, j) (cells n) <-> (i < n)%nat /\ (j < n)%nat.
Proof.
  intros i j. unfold cells. rewrite in_flat_map. split.
  - intros (x & Hx & H). apply in_map_iff in H. destruct H as (y & E & Hy). injection E as -> ->. apply in_seq in Hx, Hy. lia.
  - intros [Hi Hj]. exists i. split; [apply in_seq; lia|]. apply in_map_iff. exists j. split; auto. apply in_seq. lia.
Qed.

Notation b1 c := (r2begin_of APOT plotmin extend pt c).
Notation e1 c := (endr (pt c) * endr (pt c)).
Notation tri c := (b1 c, e1 c, (e1 c - b1 c) / INR N).
Lemma info_fold : forall col1 l a out, (forall i j, In (i, j) l -> (j < n)%nat) ->
  let r := fold_left (info_cell APOT n N plotmin extend pt col1) l (a, out) in
  snd r = out ++ map (fun ij => tri (col1 (fst ij) (snd ij))) l /\
  forall i j, (j < n)%nat -> In (i, j) l \/ (lb a (i * n + j)%nat = b1 (col1 i j) /\ ls a (i * n + j)%nat = (e1 (col1 i j) - b1 (col1 i j)) / INR N) ->
    lb (fst r) (i * n + j)%nat = b1 (col1 i j) /\ ls (fst r) (i * n + j)%nat = (e1 (col1 i j) - b1 (col1 i j)) / INR N.
Proof.
  intros col1. induction l as [|[x y] l IH]; intros a out Hl; cbn [fold_left map].
  - cbn. rewrite app_nil_r. split; auto. intros i j _ [[]|H]; exact H.
  - unfold info_cell at 2. specialize (IH (mk_lims (setr (lb a) (x * n + y) (b1 (col1 x y))) (setr (le a) (x * n + y) (dsquare (endr (pt (col1 x y)))))
      (setr (ls a) (x * n + y) ((dsquare (endr (pt (col1 x y))) - b1 (col1 x y)) / INR N))) (out ++ [tri (col1 x y)])).
    cbv zeta in IH. destruct IH as [I1 I2]; [intros i j H; apply (Hl i); right; auto|]. unfold dsquare in *. split.
    + rewrite I1, <- app_assoc. reflexivity.
    + intros i j Hj H. apply I2; auto. destruct H as [[H|H]|H].
      * injection H as -> ->. right. cbn [lb ls]. unfold setr. rewrite Nat.eqb_refl. auto.
      * left. auto.
      * right. cbn [lb ls]. unfold setr. destruct (Nat.eqb_spec (i * n + j) (x * n + y)) as [E|]; auto.
        assert (Hy : (y < n)%nat) by (apply (Hl x); left; auto). destruct (grid_inj n x y i j Hy Hj (eq_sym E)) as [-> ->]. auto.
Qed.
Definition first_r (c : nat) : R := if APOT then (if Req_EM_T plotmin 0 then 1 / 10 else plotmin) else Rmax (begin (pt c) - extend * step (pt c)) 0.
Lemma b1_sq : forall c, b1 c = first_r c * first_r c.
Proof. intros c. unfold r2begin_of, first_r, dsquare. destruct APOT; reflexivity. Qed.
Notation val := (value APOT pt tab fv smooth aend lastp).
Theorem radial_spec : forall lin col1 a, square_table (fst (radial APOT n N plotmin extend pt tab fv smooth aend lastp lin col1 a)) n N
  (fun i j => first_r (col1 i j)) (fun i j => endr (pt (col1 i j))) (fun i j => val lin (col1 i j)).
Proof.
  intros lin col1 a. unfold radial.
  destruct (info_fold col1 (cells n) a []) as [I1 I2]; [intros i j H; apply cells_in in H; tauto|]. cbv zeta in I1, I2.
  destruct (fold_left _ (cells n) (a, [])) as [a' out]. cbn [fst snd app] in *. unfold square_table. cbn [header info data].
  split; auto. split; [rewrite I1, map_length; apply cells_length|]. split; [rewrite map_length; apply cells_length|].
  intros i j Hi Hj. cbv zeta. rewrite <- b1_sq. split.
  - rewrite I1. rewrite (map_nth_error _ _ _ (cells_nth i j Hi Hj)). reflexivity.
  - exists (data_cell APOT n N pt tab fv smooth aend lastp lin col1 a' (i, j)). split; [apply (map_nth_error _ _ _ (cells_nth i j Hi Hj))|].
    destruct (I2 i j Hj (or_introl (proj2 (cells_in i j) (conj Hi Hj)))) as [Q1 Q2]. unfold data_cell. cbv zeta. rewrite Q1, Q2. split; [|split].
    + rewrite app_length, samples_length. cbn. lia.
    + intros k Hk. rewrite nth_error_app1 by (rewrite samples_length; auto). rewrite samples_nth by auto. reflexivity.
    + rewrite nth_error_app2; rewrite samples_length; auto. rewrite Nat.sub_diag. reflexivity.
Qed.

Lemma line_fold : forall bounds l a out, 
  let r := fold_left (line_cell N bounds) l (a, out) in
  snd r = out ++ map (fun i => (fst (bounds i), snd (bounds i), (snd (bounds i) - fst (bounds i)) / INR N)) l /\
  forall i, In i l \/ (lb a i = fst (bounds i) /\ ls a i = (snd (bounds i) - fst (bounds i)) / INR N) ->
    lb (fst r) i = fst (bounds i) /\ ls (fst r) i = (snd (bounds i) - fst (bounds i)) / INR N.
Proof.
  intros bounds. induction l as [|x l IH]; intros a out; cbn [fold_left map].
  - cbn. rewrite app_nil_r. split; auto. intros i [[]|H]; exact H.
  - destruct (bounds x) as [b e] eqn:B.
    assert (LC : line_cell N bounds (a, out) x = (mk_lims (setr (lb a) x b) (setr (le a) x e) (setr (ls a) x ((e - b) / INR N)), out ++ [(b, e, (e - b) / INR N)])).
    { unfold line_cell. rewrite B. reflexivity. }
    rewrite LC. clear LC. cbv zeta.
    specialize (IH (mk_lims (setr (lb a) x b) (setr (le a) x e) (setr (ls a) x ((e - b) / INR N))) (out ++ [(b, e, (e - b) / INR N)])).
    cbv zeta in IH. destruct IH as [I1 I2]. split.
    + rewrite I1, <- app_assoc. rewrite ?B. reflexivity.
    + intros i H. apply I2. cbn [lb ls]. unfold setr. destruct (Nat.eqb_spec i x) as [->|D].
      * right. rewrite B. auto.
      * destruct H as [[->|H]|H]; [congruence|left; auto|right; auto].
Qed.
Theorem embedding_spec : forall a, plain_table (fst (embedding APOT n N extend pt tab fv a)) n N
  (fun i => fst (embed_bounds APOT n extend pt i)) (fun i => snd (embed_bounds APOT n extend pt i)) (embed_value APOT n pt tab fv).
Proof.
  intros a. unfold embedding. destruct (line_fold (embed_bounds APOT n extend pt) (seq 0 n) a []) as [I1 I2]. cbv zeta in I1, I2.
  destruct (fold_left _ (seq 0 n) (a, [])) as [a' out]. cbn [fst snd app] in *. unfold plain_table. cbn [header info data].
  split; auto. split; [rewrite I1, map_length, seq_length; auto|]. split; [rewrite map_length, seq_length; auto|].
  intros i Hi. cbv zeta. split.
  - rewrite I1. rewrite (map_nth_error _ _ _ (nth_error_seq n 0 i Hi)). reflexivity.
  - eexists. split; [apply (map_nth_error _ _ _ (nth_error_seq n 0 i Hi))|]. cbn [Nat.add].
    destruct (I2 i (or_introl (proj2 (in_seq n 0 i) (conj (Nat.le_0_l _) Hi)))) as [Q1 Q2]. rewrite Q1, Q2. split; [apply samples_length|].
    intros k Hk. rewrite samples_nth by lia. reflexivity.
Qed.

(** g of MEAM *)
Variable len : nat.
Hypothesis TAB : APOT = false.
Hypothesis COLS : forall i, (i < n)%nat -> listed (pt (g_col n i)) /\ (last (pt (g_col n i)) < len)%nat.
Lemma read_spline_tab : forall i x, (i < n)%nat -> read_spline APOT pt tab len (g_col n i) x = Some (splint_ne (pt (g_col n i)) tab x).
Proof.
  intros i x Hi. destruct (COLS i Hi) as [LI LA]. unfold read_spline, calc_col. rewrite TAB. destruct (ne_find_spec _ x LI) as (k & E & B & _). rewrite E.
  destruct (Nat.ltb_spec k len); [|lia]. destruct (Nat.ltb_spec (k + 1) len); [|lia]. reflexivity.
Qed.
Lemma g_samples_tab : forall i cnt x dx, (i < n)%nat -> g_samples APOT pt tab len (g_col n i) cnt x dx = Some (samples (splint_ne (pt (g_col n i)) tab) cnt x dx).
Proof. intros i cnt. induction cnt as [|cnt IH]; intros x dx Hi; cbn [g_samples samples]; auto. rewrite read_spline_tab, IH by auto. reflexivity. Qed.
Lemma g_blocks_tab : forall a l, (forall i, In i l -> (i < n)%nat) -> g_blocks APOT n N pt tab len a l = Some (map (fun i => samples (splint_ne (pt (g_col n i)) tab) (S N) (lb a i) (ls a i)) l).
Proof.
  intros a. induction l as [|i l IH]; intros H; cbn [g_blocks map]; auto. rewrite g_samples_tab by (apply H; left; auto). rewrite IH by (intros; apply H; right; auto). reflexivity.
Qed.
Theorem angular_spec : forall a, exists f a', angular APOT n N pt tab len a = Some (f, a') /\ plain_table f n N
  (fun i => begin (pt (g_col n i))) (fun i => endr (pt (g_col n i))) (fun i => splint_ne (pt (g_col n i)) tab).
Proof.
  intros a. unfold angular. destruct (line_fold (fun i => (begin (pt (g_col n i)), endr (pt (g_col n i)))) (seq 0 n) a []) as [I1 I2]. cbv zeta in I1, I2.
  destruct (fold_left _ (seq 0 n) (a, [])) as [a' out]. cbn [fst snd app] in *.
  rewrite g_blocks_tab by (intros i H; apply in_seq in H; lia). eexists. eexists. split; [reflexivity|]. unfold plain_table. cbn [header info data].
  split; auto. split; [rewrite I1, map_length, seq_length; auto|]. split; [rewrite map_length, seq_length; auto|].
  intros i Hi. cbv zeta. split.
  - rewrite I1. rewrite (map_nth_error _ _ _ (nth_error_seq n 0 i Hi)). reflexivity.
  - eexists. split; [apply (map_nth_error _ _ _ (nth_error_seq n 0 i Hi))|]. cbn [Nat.add].
    destruct (I2 i (or_introl (proj2 (in_seq n 0 i) (conj (Nat.le_0_l _) Hi)))) as [Q1 Q2]. rewrite Q1, Q2. split; [apply samples_length|].
    intros k Hk. rewrite samples_nth by lia. reflexivity.
Qed.
End Tables.
