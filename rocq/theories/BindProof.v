From Coq Require Import List Arith Bool Lia.
From Verif Require Import LoopUtil BindModel BindSpec.
Import ListNotations.

Lemma all_uses_in : forall uses j f p, In (j, (f, p)) (all_uses uses) <-> bound uses f p j.
Proof.
  intros uses j f p. unfold all_uses, bound. rewrite in_flat_map. split.
  - intros [j' [_ H]]. apply in_map_iff in H. destruct H as [u [E H]]. inversion E; subst. exact H.
  - intros H. exists j. split.
    + apply in_seq. destruct (le_lt_dec (List.length uses) j) as [L|L]; [|lia].
      rewrite nth_overflow in H by exact L. contradiction.
    + apply in_map_iff. exists (f, p). auto.
Qed.

Lemma set2_same : forall t i p a, set2 t i p a i p = a.
Proof. intros. unfold set2. rewrite !Nat.eqb_refl. reflexivity. Qed.
Lemma set2_other : forall t i p a i' p', i' <> i \/ p' <> p -> set2 t i p a i' p' = t i' p'.
Proof.
  intros t i p a i' p' H. unfold set2.
  destruct (Nat.eqb_spec i' i), (Nat.eqb_spec p' p); simpl; auto. lia.
Qed.

Lemma take_params_spec : forall np i t a,
  snd (take_params np i (t, a)) = a + np /\
  (forall p, p < np -> fst (take_params np i (t, a)) i p = a + p) /\
  (forall i' p, i' <> i \/ np <= p -> fst (take_params np i (t, a)) i' p = t i' p).
Proof.
  induction np; intros i t a.
  - unfold take_params. rewrite for_up_nil. simpl. repeat split; intros; lia.
  - destruct (IHnp i t a) as [H1 [H2 H3]]. unfold take_params in *.
    rewrite for_up_S by lia. cbn [fst snd]. rewrite H1. split; [lia|]. split.
    + intros p L. destruct (Nat.eq_dec p np) as [E|E].
      * subst. rewrite set2_same. reflexivity.
      * rewrite set2_other by auto. apply H2. lia.
    + intros i' p L. rewrite set2_other by lia. apply H3. lia.
Qed.

Section U.
Variable gidx : nat.

Definition gstep (np f i : nat) (o : outcome ptrs) (g : nat * (nat * nat)) : outcome ptrs :=
  bind o (fun t =>
      if fst (snd g) =? f
      then if snd (snd g) <? np then Done (set2 t i (snd (snd g)) (gidx + fst g)) else Fail
      else Done t).

Lemma use_fold : forall np f i l t,
  (forall j p, In (j, (f, p)) l -> p < np) ->
  exists t', fold_left (gstep np f i) l (Done t) = Done t' /\
    (forall i' p, i' <> i -> t' i' p = t i' p) /\
    (forall p, (exists j, In (j, (f, p)) l /\ t' i p = gidx + j) \/
               ((forall j, ~ In (j, (f, p)) l) /\ t' i p = t i p)).
Proof.
  intros np f i l. induction l as [|[j [f' p']] l IH] using rev_ind; intros t V.
  - exists t. simpl. split; [reflexivity|]. split; [reflexivity|]. intros p. right. auto.
  - destruct (IH t) as [t' [E [O P]]].
    { intros j0 p0 H0. apply (V j0). apply in_or_app. auto. }
    rewrite fold_left_app, E. cbn [fold_left]. unfold gstep at 1. cbn [bind fst snd].
    destruct (Nat.eqb_spec f' f) as [F|F].
    + subst f'. assert (L : p' < np) by (apply (V j); apply in_or_app; right; left; reflexivity).
      apply Nat.ltb_lt in L. rewrite L. eexists; split; [reflexivity|]. split.
      * intros i' p N. rewrite set2_other by auto. apply O. exact N.
      * intros p. destruct (Nat.eq_dec p p') as [Q|Q].
        -- subst. left. exists j. split; [apply in_or_app; right; left; reflexivity|]. apply set2_same.
        -- rewrite set2_other by auto. destruct (P p) as [[j0 [H0 H1]]|[H0 H1]].
           ++ left. exists j0. split; [apply in_or_app; auto|exact H1].
           ++ right. split; [|exact H1]. intros j0 H. apply in_app_or in H. destruct H as [H|[H|[]]].
              ** apply (H0 j0 H).
              ** inversion H; congruence.
    + exists t'. split; [reflexivity|]. split; [exact O|]. intros p.
      destruct (P p) as [[j0 [H0 H1]]|[H0 H1]].
      * left. exists j0. split; [apply in_or_app; auto|exact H1].
      * right. split; [|exact H1]. intros j0 H. apply in_app_or in H. destruct H as [H|[H|[]]].
        -- apply (H0 j0 H).
        -- inversion H; congruence.
Qed.

Variable uses : list (list (nat * nat)).

Lemma use_globals_spec : forall np f i t,
  (forall j p, bound uses f p j -> p < np) ->
  exists t', use_globals gidx uses np f i t = Done t' /\
    (forall i' p, i' <> i -> t' i' p = t i' p) /\
    (forall p, (exists j, bound uses f p j /\ t' i p = gidx + j) \/
               ((forall j, ~ bound uses f p j) /\ t' i p = t i p)).
Proof.
  intros np f i t V. destruct (use_fold np f i (all_uses uses) t) as [t' [E [O P]]].
  - intros j p H. apply (V j). apply all_uses_in. exact H.
  - exists t'. split; [exact E|]. split; [exact O|]. intros p.
    destruct (P p) as [[j [H0 H1]]|[H0 H1]].
    + left. exists j. split; [apply all_uses_in|]; assumption.
    + right. split; [|exact H1]. intros j H. apply (H0 j). apply all_uses_in. exact H.
Qed.

(** parameter [p] of column [i] of a block of columns starting at [a] *)
Definition col_ok (np fbase a : nat) (t : ptrs) (i p : nat) : Prop :=
  (exists j, bound uses (fbase + i) p j /\ t i p = gidx + j) \/
  ((forall j, ~ bound uses (fbase + i) p j) /\ t i p = a + i * (np + 2) + p).

Lemma bind_columns_spec : forall np fbase ncol t a,
  (forall i j p, i < ncol -> bound uses (fbase + i) p j -> p < np) ->
  exists t', bind_columns gidx uses np fbase ncol (t, a) = Done (t', a + ncol * (np + 2)) /\
    forall i p, i < ncol -> p < np -> col_ok np fbase a t' i p.
Proof.
  induction ncol; intros t a V.
  - exists t. unfold bind_columns. rewrite for_up_nil. split; [f_equal; f_equal; lia|]. intros; lia.
  - destruct (IHncol t a) as [t1 [E1 P1]]. { intros i j p L. apply V. lia. }
    unfold bind_columns in *. rewrite for_up_S by lia. rewrite E1. cbn [bind].
    destruct (take_params_spec np ncol t1 (a + ncol * (np + 2))) as [T1 [T2 T3]].
    destruct (use_globals_spec np (fbase + ncol) ncol
      (fst (take_params np ncol (t1, a + ncol * (np + 2))))) as [t2 [E2 [O2 P2]]].
    { intros j p. apply V. lia. }
    cbv zeta. rewrite E2. cbn [bind]. rewrite T1. exists t2. split.
    + f_equal. f_equal. lia.
    + intros i p L Lp. unfold col_ok. destruct (Nat.eq_dec i ncol) as [Q|Q].
      * subst. destruct (P2 p) as [H|[H0 H1]]; [left; exact H|right]. split; [exact H0|].
        rewrite H1. apply T2. exact Lp.
      * rewrite O2 by exact Q. rewrite T3 by auto. apply P1; lia.
Qed.

Lemma col_ok_address : forall ns np fbase a t i p,
  (forall f p j j', bound uses f p j -> bound uses f p j' -> j = j') ->
  home ns (fbase + i) p = a + i * (np + 2) + p ->
  col_ok np fbase a t i p -> address ns gidx uses (fbase + i) p (t i p).
Proof.
  intros ns np fbase a t i p U H [[j [B E]]|[N E]]; split.
  - intros j' B'. rewrite E. f_equal. eapply U; eauto.
  - intros N. exfalso. apply (N j B).
  - intros j B. exfalso. apply (N j B).
  - intros _. rewrite E, H. reflexivity.
Qed.
End U.

(** ** Layout *)
Lemma sum_repeat : forall x c, list_sum (map (fun n => n + 2) (repeat x c)) = c * (x + 2).
Proof. intros x c. induction c; simpl; [reflexivity|]. rewrite IHc. lia. Qed.
Lemma firstn_repeat : forall (x : nat) c i, i <= c -> firstn i (repeat x c) = repeat x i.
Proof. intros x c. induction c; intros [|i] L; simpl; auto; try lia. f_equal. apply IHc. lia. Qed.
Lemma home_block : forall pre x c post i p, i <= c ->
  home (pre ++ repeat x c ++ post) (List.length pre + i) p = home pre (List.length pre) 0 + i * (x + 2) + p.
Proof.
  intros pre x c post i p L. unfold home.
  rewrite firstn_app, firstn_all2 by lia.
  replace (List.length pre + i - List.length pre) with i by lia.
  rewrite firstn_app, repeat_length. replace (i - c) with 0 by lia.
  rewrite firstn_O, app_nil_r, firstn_repeat by exact L.
  rewrite map_app, list_sum_app, sum_repeat, firstn_all. lia.
Qed.
Lemma nth_block : forall pre (x : nat) c post i, i < c ->
  nth (List.length pre + i) (pre ++ repeat x c ++ post) 0 = x.
Proof.
  intros. rewrite app_nth2_plus, app_nth1 by (rewrite repeat_length; assumption).
  revert i H. induction c; intros [|i] L; simpl; try lia; auto. apply IHc. lia.
Qed.

Lemma double_pairs : forall n, 2 * pairs n = n * (n + 1).
Proof.
  intros n. unfold pairs. destruct (Nat.Even_or_Odd n) as [[m E]|[m E]]; subst.
  - replace (2 * m * (2 * m + 1)) with ((m * (2 * m + 1)) * 2) by lia. rewrite Nat.div_mul; lia.
  - replace ((2 * m + 1) * (2 * m + 1 + 1)) with (((2 * m + 1) * (m + 1)) * 2) by lia. rewrite Nat.div_mul; lia.
Qed.

Lemma row_len_aux : forall n m, m <= n ->
  2 * List.length (flat_map (fun j => map (fun k => (j, k)) (seq j (n - j))) (seq 0 m)) + m * (m - 1) = 2 * m * n.
Proof.
  induction m; intros L; [reflexivity|].
  rewrite seq_S, flat_map_app, app_length. cbn [flat_map]. rewrite app_nil_r, map_length, seq_length.
  specialize (IHm ltac:(lia)). cbn [plus]. destruct m; nia.
Qed.
Lemma row_length : forall n, List.length (row n) = pairs n.
Proof.
  intros n. pose proof (row_len_aux n n (le_n n)). pose proof (double_pairs n). fold (row n) in H.
  destruct n; [reflexivity|]. nia.
Qed.
Lemma flat_const_length : forall A B (f : A -> list B) c l, (forall x, List.length (f x) = c) ->
  List.length (flat_map f l) = List.length l * c.
Proof. intros A B f c l H. induction l; simpl; auto. rewrite app_length, H, IHl. reflexivity. Qed.
Lemma triples_length : forall n, List.length (triples n) = n * pairs n.
Proof.
  intros n. unfold triples. rewrite (flat_const_length _ _ _ (pairs n)), seq_length; [reflexivity|].
  intros. rewrite map_length. apply row_length.
Qed.
