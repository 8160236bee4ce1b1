(** Proofs about PtrModel: columns. *)
From Coq Require Import ZArith List Bool Arith Lia.
From Verif Require Import LoopUtil PairIndexModel PairIndexProof PtrModel PtrSpec.
Import ListNotations.
Local Open Scope Z_scope.

Lemma in_entries_from : forall g k j c p, In (j, (c, p)) (entries_from k g) <-> (k <= j)%nat /\ instance g (j - k) c p.
Proof.
  induction g as [|l g IH]; intros k j c p; simpl.
  - split; [tauto|]. intros (_ & m & E & _). destruct (j - k)%nat; discriminate.
  - rewrite in_app_iff, IH. split.
    + intros [I|(L & m & E & I)].
      * apply in_map_iff in I. destruct I as (cp & E & I). injection E as <- E. subst. split; [lia|]. exists l. rewrite Nat.sub_diag. auto.
      * split; [lia|]. exists m. replace (j - k)%nat with (S (j - S k)) by lia. auto.
    + intros (L & m & E & I). destruct (Nat.eq_dec j k) as [->|N].
      * left. rewrite Nat.sub_diag in E. injection E as <-. apply in_map_iff. eauto.
      * right. split; [lia|]. exists m. replace (j - k)%nat with (S (j - S k)) in E by lia. auto.
Qed.
Lemma in_entries : forall g j c p, In (j, (c, p)) (entries g) <-> instance g j c p.
Proof. intros. unfold entries. rewrite in_entries_from, Nat.sub_0_r. split; [tauto|]. intros H. split; [lia|auto]. Qed.

Lemma upd_same : forall A (f : nat -> A) i x, upd f i x i = x.
Proof. intros. unfold upd. rewrite Nat.eqb_refl. auto. Qed.
Lemma upd_other : forall A (f : nat -> A) i x k, k <> i -> upd f i x k = f k.
Proof. intros. unfold upd. destruct (Nat.eqb_spec k i); [contradiction|auto]. Qed.

Section Columns.
Variables (xi gidx : Z).
(** the effect of the entries es on a row *)
Definition overridden (es : list entry) (col : nat) (row row' : nat -> Z) : Prop :=
  forall p, (forall j, In (j, (col, p)) es -> (forall j', In (j', (col, p)) es -> j' = j) -> row' p = global xi gidx j) /\
            ((forall j, ~ In (j, (col, p)) es) -> row' p = row p).
Lemma put_fold : forall es col np row, (forall j p, In (j, (col, p)) es -> (p < np)%nat) ->
  exists row', fold_left (put xi gidx col np) es (Some row) = Some row' /\ overridden es col row row'.
Proof.
  unfold overridden, entry. induction es as [|[j [c p]] es IH] using rev_ind; intros col np row H.
  - exists row. split; auto. intros q. split; auto. intros j [].
  - destruct (IH col np row) as (r1 & E & O); [intros; eapply H; apply in_app_iff; eauto|].
    rewrite fold_left_app, E. cbn [fold_left put].
    destruct (Nat.eqb_spec c col) as [EC|NC].
    + assert (P : (p < np)%nat) by (apply (H j); apply in_app_iff; right; left; congruence).
      destruct (Nat.ltb_spec p np); [|lia]. exists (upd r1 p (global xi gidx j)). split; auto. intros q. destruct (O q) as [A B]. split.
      * intros j0 I U. destruct (Nat.eq_dec q p) as [->|N].
        -- rewrite upd_same. rewrite (U j); auto. apply in_app_iff. right. left. congruence.
        -- rewrite upd_other by auto. apply A.
           ++ apply in_app_iff in I. destruct I as [I|[I|[]]]; auto. injection I as _ _ Q. congruence.
           ++ intros. apply U. apply in_app_iff. auto.
      * intros NI. destruct (Nat.eq_dec q p) as [->|N].
        -- exfalso. apply (NI j). apply in_app_iff. right. left. congruence.
        -- rewrite upd_other by auto. apply B. intros j0 I. apply (NI j0). apply in_app_iff. auto.
    + exists r1. split; auto. intros q. destruct (O q) as [A B]. split.
      * intros j0 I U. apply A.
        -- apply in_app_iff in I. destruct I as [I|[I|[]]]; auto. injection I as _ Q _. congruence.
        -- intros. apply U. apply in_app_iff. auto.
      * intros NI. apply B. intros j0 I. apply (NI j0). apply in_app_iff. auto.
Qed.

Variable size : nat -> nat.
Variable g : list (list (nat * nat)).
Hypothesis CON : consistent size g.
Lemma columns : forall np lo hi P, (lo <= hi)%nat -> (forall c, (lo <= c < hi)%nat -> size c = np) ->
  exists P', for_up lo hi (column xi gidx (entries g) np) (Some (xi + first size lo, P)) = Some (xi + first size hi, P') /\
    (forall c p, (lo <= c < hi)%nat -> (p < np)%nat -> place size gidx g c p (P' c p - xi)) /\
    (forall c, ~ (lo <= c < hi)%nat -> P' c = P c).
Proof.
  intros np lo hi P L SZ.
  enough (Q : (fun i o => exists P', o = Some (xi + first size i, P') /\
    (forall c p, (lo <= c < i)%nat -> (p < np)%nat -> place size gidx g c p (P' c p - xi)) /\
    (forall c, ~ (lo <= c < i)%nat -> P' c = P c)) hi (for_up lo hi (column xi gidx (entries g) np) (Some (xi + first size lo, P)))) by exact Q.
  apply for_up_inv; auto.
  - exists P. split; auto. split; [intros; lia|auto].
  - intros i o Hi (P' & -> & A & B). unfold column.
    destruct CON as [C1 C2].
    destruct (put_fold (entries g) i np (fun p => if Nat.ltb p np then xi + first size i + Z.of_nat p else P' i p)) as (row & -> & O).
    { intros j p I. apply in_entries in I. rewrite <- (SZ i Hi). eapply C1; eauto. }
    exists (upd P' i row). split; [|split].
    + f_equal. f_equal. simpl. rewrite (SZ i Hi). lia.
    + intros c p Hc Hp. destruct (Nat.eq_dec c i) as [->|N].
      * rewrite upd_same. destruct (O p) as [O1 O2]. split.
        -- intros j I. rewrite (O1 j); [unfold global; lia|apply in_entries; auto|]. intros j' I'. apply in_entries in I'. eauto.
        -- intros NI. rewrite O2; [|intros j I; apply in_entries in I; eapply NI; eauto]. destruct (Nat.ltb_spec p np); lia.
      * rewrite upd_other by auto. apply A; auto. lia.
    + intros c Hc. rewrite upd_other by lia. apply B. lia.
Qed.
End Columns.

(** ** The lambdas *)
Section Lambdas.
Variable n : nat.
Notation pc := (Z.of_nat (pairs n)).
Notation N := (Z.of_nat n).
Lemma pairs_spec : 2 * pc = N * (N + 1).
Proof. unfold pairs. pose proof (paircol_spec N ltac:(lia)). rewrite Z2Nat.id by nia. auto. Qed.
Definition pidx (j k : nat) : Z := pair_index N (Z.of_nat j) (Z.of_nat k).
Lemma pidx_le : forall j k, (j <= k)%nat -> 2 * pidx j k = 2 * Z.of_nat j * N + 2 * Z.of_nat k - Z.of_nat j * (Z.of_nat j + 1).
Proof. intros. apply pair_index_le. lia. Qed.
Lemma pidx_sym : forall j k, pidx j k = pidx k j.
Proof. intros. apply pair_index_sym. Qed.
Lemma pidx_range : forall j k, (j < n)%nat -> (k < n)%nat -> 0 <= pidx j k < pc.
Proof.
  intros j k J K. unfold pairs, pidx. destruct (Nat.le_ge_cases j k).
  - pose proof (pair_index_range_le N (Z.of_nat j) (Z.of_nat k)). lia.
  - rewrite pair_index_sym. pose proof (pair_index_range_le N (Z.of_nat k) (Z.of_nat j)). lia.
Qed.
Lemma set3_same : forall l i j k v, set3 l i j k v i j k = v.
Proof. intros. unfold set3. rewrite !upd_same. auto. Qed.
Lemma set3_other : forall l i j k v i' j' k', (i', j', k') <> (i, j, k) -> set3 l i j k v i' j' k' = l i' j' k'.
Proof.
  intros. unfold set3, upd. destruct (Nat.eqb_spec i' i); auto. destruct (Nat.eqb_spec j' j); [|subst; auto]. destruct (Nat.eqb_spec k' k); [|subst; auto].
  subst. contradiction.
Qed.
Lemma set3_sym : forall l i j k v i' j' k', (i', j', k') = (i, j, k) \/ (i', j', k') = (i, k, j) -> set3 (set3 l i j k v) i k j v i' j' k' = v.
Proof.
  intros l i j k v i' j' k' [E|E]; injection E as -> -> ->.
  - destruct (Nat.eq_dec j k) as [->|D]; [apply set3_same|]. rewrite set3_other by congruence. apply set3_same.
  - apply set3_same.
Qed.
Lemma set3_sym_other : forall l i j k v i' j' k', (i', j', k') <> (i, j, k) -> (i', j', k') <> (i, k, j) -> set3 (set3 l i j k v) i k j v i' j' k' = l i' j' k'.
Proof. intros. rewrite !set3_other by auto. auto. Qed.

Variable base : Z.
(** entries (i', j', k') with j' <= k' visited before (i, j, k) *)
Definition before (i j k i' j' k' : nat) : Prop := (i' < i \/ (i' = i /\ (j' < j \/ (j' = j /\ k' < k))))%nat.
Definition linv (i j k : nat) (s : Z * (nat -> nat -> nat -> Z)) : Prop :=
  fst s = base + Z.of_nat i * pc + (2 * Z.of_nat j * N + 2 * Z.of_nat k - Z.of_nat j * (Z.of_nat j + 1)) / 2 /\
  forall i' j' k', (i' < n)%nat -> (j' <= k')%nat -> (k' < n)%nat -> before i j k i' j' k' ->
    snd s i' j' k' = base + Z.of_nat i' * pc + pidx j' k' /\ snd s i' k' j' = base + Z.of_nat i' * pc + pidx j' k'.
Lemma half_eq : forall a b, 2 * b = a -> a / 2 = b.
Proof. intros. subst. rewrite Z.mul_comm. apply Z_div_mult. lia. Qed.
Lemma even_form : forall j k, exists h, 2 * h = 2 * Z.of_nat j * N + 2 * Z.of_nat k - Z.of_nat j * (Z.of_nat j + 1).
Proof. intros. pose proof (paircol_spec (Z.of_nat j) ltac:(lia)). exists (Z.of_nat j * N + Z.of_nat k - paircol (Z.of_nat j)). lia. Qed.
Lemma lambdas_ok : forall l, forall i j k, (i < n)%nat -> (j < n)%nat -> (k < n)%nat ->
  snd (lambdas n base l) i j k = base + Z.of_nat i * pc + pidx j k.
Proof.
  intros l. assert (Q : linv n 0 0 (lambdas n base l)).
  { unfold lambdas. apply (for_up_inv (fun i s => linv i 0 0 s)); [lia| |].
    - split; [simpl; rewrite (half_eq _ 0) by lia; lia|]. unfold before. intros; lia.
    - intros i s Hi Hs.
      enough (Q : linv i n n (for_up 0 n (fun j => for_up j n (fun k (s : Z * (nat -> nat -> nat -> Z)) =>
        let '(index, l) := s in (index + 1, set3 (set3 l i j k index) i k j index))) s)).
      { destruct Q as [Q1 Q2]. split.
        - rewrite Q1. pose proof pairs_spec as PS. rewrite (half_eq _ pc) by nia. rewrite (half_eq _ 0) by lia. rewrite Nat2Z.inj_succ. ring.
        - intros i' j' k' A B C D. apply Q2; auto. unfold before in *. lia. }
      apply (for_up_inv (fun j s => linv i j j s)); [lia|auto|].
      intros j s1 Hj H1.
      enough (Q : linv i j n (for_up j n (fun k (s : Z * (nat -> nat -> nat -> Z)) =>
        let '(index, l) := s in (index + 1, set3 (set3 l i j k index) i k j index)) s1)).
      { destruct Q as [Q1 Q2]. split.
        - rewrite Q1. destruct (even_form j n) as (h & E). rewrite (half_eq _ h) by auto. rewrite (half_eq _ h); [auto|]. rewrite Nat2Z.inj_succ. nia.
        - intros i' j' k' A B C D. apply Q2; auto. unfold before in *. lia. }
      apply (for_up_inv (fun k s => linv i j k s)); [lia|auto|].
      intros k [index l2] Hk [Q1 Q2]. cbn [fst snd] in *.
      assert (PI : index = base + Z.of_nat i * pc + pidx j k).
      { rewrite Q1. f_equal. apply half_eq. apply pidx_le. lia. }
      split; cbn [fst snd].
      + rewrite PI. destruct (even_form j (S k)) as (h & E). rewrite (half_eq _ h) by auto. pose proof (pidx_le j k ltac:(lia)). lia.
      + intros i' j' k' A B C D.
        destruct (Nat.eq_dec i' i) as [->|Ni]; [destruct (Nat.eq_dec j' j) as [->|Nj]; [destruct (Nat.eq_dec k' k) as [->|Nk]|]|].
        * rewrite !set3_sym by auto. auto.
        * assert (BB : before i j k i j k') by (unfold before in *; lia).
          rewrite !set3_sym_other; [apply Q2; auto| | | |]; intros E; injection E; intros; lia.
        * assert (BB : before i j k i j' k') by (unfold before in *; lia).
          rewrite !set3_sym_other; [apply Q2; auto| | | |]; intros E; injection E; intros; lia.
        * assert (BB : before i j k i' j' k') by (unfold before in *; lia).
          rewrite !set3_sym_other; [apply Q2; auto| | | |]; intros E; injection E; intros; lia. }
  destruct Q as [_ Q]. intros i j k Hi Hj Hk. destruct (Nat.le_ge_cases j k) as [C|C].
  - apply Q; auto. unfold before. lia.
  - rewrite pidx_sym. apply Q; auto. unfold before. lia.
Qed.
End Lambdas.
