(** Proofs about PtrModel: the routines. *)
From Coq Require Import ZArith List Bool Arith Lia.
From Verif Require Import LoopUtil PairIndexModel PairIndexProof PtrModel PtrSpec PtrProof.
Import ListNotations.
Local Open Scope Z_scope.

Section Sw.
Variable n : nat.
Hypothesis N1 : (0 < n)%nat.
Notation pc := (pairs n).
Notation N := (Z.of_nat n).
Lemma quot2 : forall k, 0 <= k -> 2 * Z.quot (k * (k - 1)) 2 = k * (k - 1).
Proof.
  intros k K. destruct (Z.eq_dec k 0) as [->|H]; [reflexivity|].
  pose proof (tri_even (k - 1) ltac:(lia)) as T. replace ((k - 1) * (k - 1 + 1)) with (k * (k - 1)) in T by ring. auto.
Qed.
Lemma row_spec : forall k, 0 <= k -> 2 * row_start n k = 2 * k * N - k * (k - 1).
Proof. intros k K. unfold row_start. pose proof (quot2 k K). lia. Qed.
Lemma search_some : forall f k temp, 0 <= k -> (0 < f)%nat -> row_start n (k + Z.of_nat f - 1) <= temp ->
  exists k', search n f k temp = Some k' /\ k <= k' /\ row_start n k' <= temp.
Proof.
  induction f; intros k temp K F H; [lia|]. cbn [search]. destruct (Z.geb_spec k 0); [|lia].
  destruct (Z.geb_spec temp (row_start n k)); [exists k; split; [auto|lia]|].
  destruct f as [|f]; [replace (k + Z.of_nat 1 - 1) with k in H by lia; lia|].
  destruct (IHf (k + 1) temp) as (k' & A & B & C); [lia|lia| |exists k'; split; [auto|lia]].
  replace (k + 1 + Z.of_nat (S f) - 1) with (k + Z.of_nat (S (S f)) - 1) by lia. auto.
Qed.
Lemma pc_pos : (0 < pc)%nat.
Proof. pose proof (pairs_spec n). nia. Qed.
Lemma last_row : row_start n (N - 1) = Z.of_nat pc - 1.
Proof. pose proof (row_spec (N - 1) ltac:(lia)). pose proof (pairs_spec n). nia. Qed.
Lemma search_last : forall f, search n (S f) (N - 1) (Z.of_nat pc - 1) = Some (N - 1).
Proof. intros. cbn [search]. destruct (Z.geb_spec (N - 1) 0); [|lia]. rewrite last_row. destruct (Z.geb_spec (Z.of_nat pc - 1) (Z.of_nat pc - 1)); [auto|lia]. Qed.
Lemma search_beyond : forall temp, 0 <= temp < Z.of_nat pc - 1 -> exists k, search n (n + 3) (N - 1) temp = Some k /\ N <= k.
Proof.
  intros temp T. destruct (search_some (n + 3) (N - 1) temp) as (k & A & B & C); [lia|lia| |].
  - pose proof (row_spec (N - 1 + Z.of_nat (n + 3) - 1) ltac:(lia)) as R. nia.
  - exists k. split; auto. destruct (Z.eq_dec k (N - 1)) as [->|]; [rewrite last_row in C; lia|lia].
Qed.

Variables (xi gidx : Z).
Lemma lambda_entry_good : forall l j i, (i < n)%nat -> lambda_global n xi gidx (Done l) (j, (2 * pc, i * pc + (pc - 1)))%nat =
  Done (set3 (set3 l i (n - 1) (n - 1) (global xi gidx j)) i (n - 1) (n - 1) (global xi gidx j))%nat.
Proof.
  intros l j i Hi. pose proof pc_pos as PP. unfold lambda_global. rewrite Nat.eqb_refl.
  assert (D : ((i * pc + (pc - 1)) / pc = i)%nat) by (rewrite Nat.add_comm, Nat.div_add by lia; rewrite Nat.div_small; lia).
  assert (M : ((i * pc + (pc - 1)) mod pc = pc - 1)%nat) by (rewrite Nat.add_comm, Nat.mod_add by lia; apply Nat.mod_small; lia).
  rewrite D, M. replace (Z.of_nat (pc - 1)) with (Z.of_nat pc - 1) by lia. rewrite (Nat.add_comm n 3). cbn [Nat.add].
  rewrite search_last, last_row. cbv zeta.
  destruct (Z.ltb_spec (Z.of_nat i) N); [|lia]. destruct (Z.leb_spec 0 (N - 1)); [|lia]. destruct (Z.ltb_spec (N - 1) N); [|lia].
  replace (Z.of_nat pc - 1 - (Z.of_nat pc - 1) + (N - 1)) with (N - 1) by lia.
  destruct (Z.leb_spec 0 (N - 1)); [|lia]. destruct (Z.ltb_spec (N - 1) N); [|lia]. cbn [andb].
  rewrite Nat2Z.id. replace (Z.to_nat (N - 1)) with (n - 1)%nat by lia. auto.
Qed.
Lemma lambda_entry_bad : forall l j p, (p mod pc <> pc - 1)%nat -> lambda_global n xi gidx (Done l) (j, (2 * pc, p))%nat = Outside.
Proof.
  intros l j p NM. pose proof pc_pos as PP. unfold lambda_global. rewrite Nat.eqb_refl.
  pose proof (Nat.mod_upper_bound p pc ltac:(lia)).
  destruct (search_beyond (Z.of_nat (p mod pc))) as (k & -> & K); [lia|]. cbv zeta.
  destruct (Z.ltb_spec k N); [lia|]. rewrite !andb_false_r. auto.
Qed.
Lemma outside_fold : forall es, fold_left (lambda_global n xi gidx) es Outside = Outside.
Proof. induction es; auto. Qed.

Variable g : list (list (nat * nat)).
Hypothesis CON : consistent (sw_size n) g.
Lemma npair_eq : npair n = pc. Proof. auto. Qed.
Lemma size2 : forall c, (c < pc)%nat -> sw_size n c = 6%nat.
Proof. intros c H. unfold sw_size. rewrite npair_eq. destruct (Nat.ltb_spec c pc); [auto|lia]. Qed.
Lemma size3 : forall c, (pc <= c < 2 * pc)%nat -> sw_size n c = 2%nat.
Proof. intros c H. unfold sw_size. rewrite npair_eq. destruct (Nat.ltb_spec c pc); [lia|]. destruct (Nat.ltb_spec c (2 * pc)); [auto|lia]. Qed.
Lemma sizel : sw_size n (2 * pc) = (n * pc)%nat.
Proof. unfold sw_size. rewrite npair_eq. pose proof pc_pos. destruct (Nat.ltb_spec (2 * pc) pc); [lia|]. destruct (Nat.ltb_spec (2 * pc) (2 * pc)); [lia|]. rewrite Nat.eqb_refl. auto. Qed.
Lemma last_entry : forall j p, instance g j (2 * pc) p -> (p mod pc = pc - 1)%nat -> (p = p / pc * pc + (pc - 1) /\ p / pc < n)%nat.
Proof.
  intros j p I M. pose proof pc_pos. destruct CON as [C _]. apply C in I. rewrite sizel in I.
  pose proof (Nat.div_mod p pc ltac:(lia)). split; [lia|]. apply Nat.div_lt_upper_bound; lia.
Qed.
(** the part of the global parameters of the lambdas *)
Lemma lambda_fold : forall es l, (forall j p, In (j, (2 * pc, p))%nat es -> instance g j (2 * pc) p /\ (p mod pc = pc - 1)%nat) ->
  exists l', fold_left (lambda_global n xi gidx) es (Done l) = Done l' /\
    (forall i a b, (a, b) <> (n - 1, n - 1)%nat -> l' i a b = l i a b) /\
    (forall i j, In (j, (2 * pc, i * pc + (pc - 1)))%nat es -> l' i (n - 1)%nat (n - 1)%nat = global xi gidx j) /\
    (forall i, (forall j, ~ In (j, (2 * pc, i * pc + (pc - 1)))%nat es) -> l' i (n - 1)%nat (n - 1)%nat = l i (n - 1)%nat (n - 1)%nat).
Proof.
  unfold entry. induction es as [|[j [c p]] es IH] using rev_ind; intros l H.
  - exists l. split; auto. split; auto. split; auto. intros i j [].
  - destruct (IH l) as (l1 & E & A & B & C); [intros; apply H; apply in_app_iff; auto|].
    rewrite fold_left_app, E. cbn [fold_left].
    destruct (Nat.eq_dec c (2 * pc)) as [EC|NC].
    + subst c. destruct (H j p) as [I M]; [apply in_app_iff; right; left; auto|]. destruct (last_entry j p I M) as [EP LT].
      rewrite EP. rewrite lambda_entry_good by auto. set (q := (p / pc)%nat) in *.
      eexists. split; [reflexivity|]. split; [|split].
      * intros i a b NE. rewrite set3_sym_other; [auto| |]; intros Q; apply NE; congruence.
      * intros i j' I'. destruct (Nat.eq_dec i q) as [->|Ni].
        -- rewrite set3_sym by auto. f_equal. destruct CON as [_ U]. apply (U j j' (2 * pc)%nat p); auto. rewrite EP. apply H. rewrite EP. auto.
        -- rewrite set3_sym_other; [|congruence|congruence]. apply B. apply in_app_iff in I'. destruct I' as [I'|[I'|[]]]; auto.
           exfalso. assert (V : (q * pc + (pc - 1) = i * pc + (pc - 1))%nat) by (injection I'; auto). pose proof pc_pos. apply Ni. nia.
      * intros i NI. destruct (Nat.eq_dec i q) as [->|Ni].
        -- exfalso. apply (NI j). apply in_app_iff. right. left. auto.
        -- rewrite set3_sym_other; [|congruence|congruence]. apply C. intros j' I'. apply (NI j'). apply in_app_iff. auto.
    + exists l1. split; [unfold lambda_global; destruct (Nat.eqb_spec c (2 * pc)); [contradiction|auto]|]. split; auto. split.
      * intros i j' I'. apply B. apply in_app_iff in I'. destruct I' as [I'|[I'|[]]]; auto. injection I'; intros; subst; contradiction.
      * intros i NI. apply C. intros j' I'. apply (NI j'). apply in_app_iff. auto.
Qed.
Lemma lambda_fold_bad : forall es l, (forall j p, In (j, (2 * pc, p))%nat es -> instance g j (2 * pc) p) ->
  (exists j p, In (j, (2 * pc, p))%nat es /\ (p mod pc <> pc - 1)%nat) -> fold_left (lambda_global n xi gidx) es (Done l) = Outside.
Proof.
  unfold entry. induction es as [|[j [c p]] es IH]; intros l H (j' & p' & I & NM); [destruct I|]. cbn [fold_left].
  destruct (Nat.eq_dec c (2 * pc)) as [EC|NC].
  - subst c. destruct (Nat.eq_dec (p mod pc) (pc - 1)) as [M|M].
    + assert (IN : instance g j (2 * pc) p) by (apply H; left; auto). destruct (last_entry j p IN M) as [EP LT].
      rewrite EP, lambda_entry_good by auto. apply IH; [intros; apply H; right; auto|]. destruct I as [I|I]; [|eauto].
      injection I as <- <-. contradiction.
    + rewrite lambda_entry_bad by auto. apply outside_fold.
  - replace (lambda_global n xi gidx (Done l) (j, (c, p))) with (@Done (nat -> nat -> nat -> Z) l).
    + apply IH; [intros; apply H; right; auto|]. destruct I as [I|I]; [|eauto]. injection I; intros; subst; contradiction.
    + unfold lambda_global. destruct (Nat.eqb_spec c (2 * pc)); [contradiction|auto].
Qed.

(** all pointers belong to the array at xi *)
Definition sw_right (x : Z) (s : sw_ptr) : Prop :=
  (forall c p, (c < 2 * pc)%nat -> (p < sw_size n c)%nat -> place (sw_size n) gidx g c p (sp s c p - x)) /\
  (forall i j k, (i < n)%nat -> (j < n)%nat -> (k < n)%nat -> place (sw_size n) gidx g (2 * pc) (lambda_par n i j k) (sl s i j k - x)).

Lemma lambda_par_eq : forall i j k, (j < n)%nat -> (k < n)%nat -> Z.of_nat (lambda_par n i j k) = Z.of_nat i * Z.of_nat pc + pidx n j k.
Proof. intros i j k J K. unfold lambda_par. rewrite npair_eq. pose proof (pidx_range n j k J K). unfold pidx in *. lia. Qed.
Lemma lambda_par_mod : forall i j k, (j < n)%nat -> (k < n)%nat -> (lambda_par n i j k mod pc = pc - 1)%nat -> j = (n - 1)%nat /\ k = (n - 1)%nat.
Proof.
  intros i j k J K M. pose proof (pidx_range n j k J K) as R. pose proof pc_pos as PP.
  assert (E : (lambda_par n i j k = Z.to_nat (pidx n j k) + i * pc)%nat) by (pose proof (lambda_par_eq i j k J K); lia).
  rewrite E, Nat.mod_add in M by lia. rewrite Nat.mod_small in M by lia.
  assert (Q : pidx n j k = Z.of_nat pc - 1) by lia. clear E M.
  pose proof (pairs_spec n) as PS.
  destruct (Nat.le_ge_cases j k) as [C|C].
  - pose proof (pidx_le n j k C). nia.
  - rewrite pidx_sym in Q. pose proof (pidx_le n k j C). nia.
Qed.
Lemma lambda_par_last : forall i, lambda_par n i (n - 1) (n - 1) = (i * pc + (pc - 1))%nat.
Proof.
  intros i. apply Nat2Z.inj. rewrite lambda_par_eq by lia. pose proof (pidx_le n (n - 1) (n - 1) ltac:(lia)). pose proof (pairs_spec n). pose proof pc_pos. nia.
Qed.
Lemma all_columns : forall P, exists P',
  for_up pc (2 * pc) (column xi gidx (entries g) 2) (for_up 0 pc (column xi gidx (entries g) 6) (Some (xi + 2, P))) =
    Some (xi + first (sw_size n) (2 * pc), P') /\
  forall c p, (c < 2 * pc)%nat -> (p < sw_size n c)%nat -> place (sw_size n) gidx g c p (P' c p - xi).
Proof.
  intros P. destruct (columns xi gidx (sw_size n) g CON 6 0 pc P) as (P1 & E1 & A1 & _); [lia|intros; apply size2; lia|].
  change (first (sw_size n) 0) with 2 in E1. rewrite E1.
  destruct (columns xi gidx (sw_size n) g CON 2 pc (2 * pc) P1) as (P2 & E2 & A2 & B2); [lia|intros; apply size3; lia|].
  exists P2. split; auto. intros c p Hc Hp. destruct (lt_dec c pc).
  - rewrite (B2 c) by lia. apply A1; [lia|]. rewrite <- (size2 c); auto.
  - apply A2; [lia|]. rewrite <- (size3 c); [auto|lia].
Qed.
Lemma update_fresh : forall s, (forall j p, instance g j (2 * pc) p -> (p mod pc = pc - 1)%nat) -> sp s 0%nat 0%nat <> xi + 2 ->
  exists s', update_sw n gidx (entries g) xi s = Done s' /\ sw_right xi s'.
Proof.
  intros s LG NE. unfold update_sw. destruct (Z.eqb_spec (sp s 0%nat 0%nat) (xi + 2)); [contradiction|].
  destruct (all_columns (sp s)) as (P' & -> & PP). set (base := xi + first (sw_size n) (2 * pc)).
  destruct (lambda_fold (entries g) (snd (lambdas n base (sl s)))) as (l' & -> & A & B & C).
  { intros j p I. apply in_entries in I. eauto. }
  eexists. split; [reflexivity|]. split; [exact PP|]. cbn [sl]. intros i j k Hi Hj Hk.
  assert (LP := lambda_par_eq i j k Hj Hk).
  destruct (Nat.eq_dec j (n - 1)) as [EJ|NJ]; [destruct (Nat.eq_dec k (n - 1)) as [EK|NK]|].
  - subst j k. rewrite lambda_par_last in *. split.
    + intros j I. rewrite (B i j); [unfold global; lia|apply in_entries; auto].
    + intros NI. rewrite C by (intros j I; apply in_entries in I; eapply NI; eauto). rewrite lambdas_ok by lia. unfold base. lia.
  - rewrite A by congruence. rewrite lambdas_ok by lia. split.
    + intros j' I. exfalso. apply NK. apply (lambda_par_mod i j k Hj Hk (LG j' _ I)).
    + intros _. unfold base. lia.
  - rewrite A by congruence. rewrite lambdas_ok by lia. split.
    + intros j' I. exfalso. apply NJ. apply (lambda_par_mod i j k Hj Hk (LG j' _ I)).
    + intros _. unfold base. lia.
Qed.
(** any other lambda as a global parameter *)
Lemma update_outside : forall s j p, instance g j (2 * pc) p -> (p mod pc <> pc - 1)%nat -> sp s 0%nat 0%nat <> xi + 2 ->
  update_sw n gidx (entries g) xi s = Outside.
Proof.
  intros s j p I NM NE. unfold update_sw. destruct (Z.eqb_spec (sp s 0%nat 0%nat) (xi + 2)); [contradiction|].
  destruct (all_columns (sp s)) as (P' & -> & PP).
  rewrite lambda_fold_bad; auto.
  - intros j' p' I'. apply in_entries in I'. auto.
  - exists j, p. split; auto. apply in_entries. auto.
Qed.
End Sw.
