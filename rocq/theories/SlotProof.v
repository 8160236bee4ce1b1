(** Proofs: every function of a neighbour is evaluated at its distance. *)
From Coq Require Import Reals ZArith List Bool Lia Lra.
From Verif Require Import PairIndexModel PairIndexProof SplineModel SplineProof SplineProof2 SplineProof3 SplineProof4 SplineProof5 ConfModel ConfProof SlotModel SlotSpec.
Import ListNotations.
Local Open Scope R_scope.

Lemma range_in : forall lo cnt c, In c (range lo cnt) <-> (lo <= c < lo + cnt)%Z.
Proof.
  intros lo cnt c. unfold range. rewrite in_map_iff. split.
  - intros (i & E & H). apply in_seq in H. lia.
  - intros H. exists (Z.to_nat (c - lo)). split; [lia|]. apply in_seq. lia.
Qed.
Lemma put_all_in : forall cols v a c, In c cols -> put_all cols v a c = v.
Proof.
  assert (K : forall cols v a c, a c = v -> put_all cols v a c = v).
  { unfold put_all. induction cols as [|x l IH]; intros v a c H; cbn [fold_left]; auto. apply IH. unfold put. destruct (Z.eqb c x); auto. }
  unfold put_all in *. induction cols as [|x l IH]; intros v a c H; [destruct H|]. cbn [fold_left]. destruct H as [->|H].
  - apply K. unfold put. rewrite Z.eqb_refl. auto.
  - apply IH. auto.
Qed.
Lemma put_all_out : forall cols v a c, ~ In c cols -> put_all cols v a c = a c.
Proof.
  unfold put_all. induction cols as [|x l IH]; intros v a c H; cbn [fold_left]; auto. rewrite IH by (intros I; apply H; right; auto).
  unfold put. destruct (Z.eqb_spec c x) as [->|]; auto. exfalso. apply H. left. auto.
Qed.

Section Build.
Variables (k : build_kind) (n : Z) (s : starts) (en : Z -> R).
Variables (t1 t2 : Z).
Hypothesis H1 : (0 <= t1 < n)%Z.
Hypothesis H2 : (0 <= t2 < n)%Z.
Notation be := (table_ends k n s en).
Lemma cols_tables : forall i c, nth_error (slot_cols k n t1 t2) i = Some c ->
  (fst be c = s_begin s c /\ c = pair_index n t1 t2 \/ (paircol n <= c)%Z /\ fst be c = s_min s * (95 / 100)) /\ snd be c = en c /\ (0 <= c)%Z.
Proof.
  pose proof (pair_index_range n t1 t2 H1 H2) as P.
  assert (SI : forall a b : Z, Some a = Some b -> a = b) by congruence.
  intros i c H. unfold table_ends. destruct k; cbn [slot_cols] in H; cbn [fst snd];
    repeat (destruct i as [|i]; cbn [nth_error] in H; [apply SI in H; subst c|]); try (destruct i; discriminate H);
    (split; [|split; [|lia]]);
    repeat (first [ reflexivity | rewrite put_all_out by (rewrite ?range_in; lia) ]);
    try (left; split; [|reflexivity]); try (right; split; [lia|]);
    repeat (first [ reflexivity
      | rewrite put_all_out by (rewrite ?range_in, ?in_flat_map; try (intros (x & X1 & X2); apply range_in in X1; cbn [In] in X2; lia); lia)
      | rewrite put_all_in by (rewrite range_in; lia) ]).
  - apply put_all_in. apply in_flat_map. exists (pair_index n t1 t2). split; [apply range_in; lia|left; auto].
  - apply put_all_in. apply in_flat_map. exists (pair_index n t1 t2). split; [apply range_in; lia|right; left; auto].
Qed.
End Build.

(** columns by counting *)
Lemma paircol_div : forall n, (0 <= n)%Z -> (n * (n + 1) / 2 = paircol n)%Z.
Proof. intros n H. unfold paircol. rewrite Z.quot_div_nonneg by nia. auto. Qed.
Lemma cols_count : forall k n t1 t2 j f, (0 <= n)%Z -> nth_error (blocks k) j = Some f -> of_distance f = true ->
  nth_error (slot_cols k n t1 t2) (slot_of k j) = Some (column_of n k j f t1 t2) /\ In (slot_of k j) (updated k).
Proof.
  intros k n t1 t2 j f N H D. destruct k; cbn [blocks] in H;
    repeat (destruct j as [|j]; cbn [nth_error] in H; [injection H as <-; try discriminate D|]); try (destruct j; discriminate H);
    unfold column_of, slot_of; cbn [blocks before size per_pair firstn filter of_distance length updated In nth_error slot_cols];
    (split; [f_equal; rewrite ?(paircol_div n N); lia|tauto]).
Qed.

Lemma cols_phi : forall k n t1 t2 j f, (0 <= n)%Z -> (0 <= t2 < n)%Z -> nth_error (blocks k) j = Some f ->
  (f = Phi -> column_of n k j f t1 t2 = pair_index n t1 t2) /\ (f <> Phi -> 0 <= pair_index n t1 t2 -> paircol n <= column_of n k j f t1 t2)%Z.
Proof.
  intros k n t1 t2 j f N T H. assert (0 <= paircol n)%Z by (rewrite <- paircol_div by auto; apply Z.div_pos; nia).
  destruct k; cbn [blocks] in H;
    repeat (destruct j as [|j]; cbn [nth_error] in H; [injection H as <-|]); try (destruct j; discriminate H);
    unfold column_of; cbn [blocks before size per_pair]; rewrite ?(paircol_div n N);
    (split; [intros X; try discriminate X; try reflexivity|intros X Y; try contradiction; lia]).
Qed.

(** one neighbour after update_slots *)
Lemma update_other : forall calc cols r i st x, x <> i -> update_neighbor calc cols r i st x = st x.
Proof. intros. unfold update_neighbor. destruct (Rlt_dec _ _); auto. destruct (Nat.eqb_spec x i); [contradiction|auto]. Qed.
Definition set_slot (T : column) (r : R) (old : nslot) : nslot :=
  if Rlt_dec r (endr T) then
    mk_ns (trunc ((r - begin T) * invstep T) + first T) ((r - begin T - INR (trunc ((r - begin T) * invstep T)) * step T) * invstep T) (step T)
  else old.
Lemma update_fold : forall calc cols r l st i, NoDup l -> In i l ->
  fold_left (fun st i => update_neighbor calc cols r i st) l st i = set_slot (calc (nth i cols 0%Z)) r (st i).
Proof.
  intros calc cols r. 
  assert (O : forall l st i, ~ In i l -> fold_left (fun st i => update_neighbor calc cols r i st) l st i = st i).
  { induction l as [|x l IH]; intros st i H; cbn [fold_left]; auto. rewrite IH by (intros I; apply H; right; auto). apply update_other. intros ->. apply H. left; auto. }
  induction l as [|x l IH]; intros st i D I; [destruct I|]. cbn [fold_left]. inversion D; subst. destruct I as [->|I].
  - rewrite O by auto. unfold update_neighbor, set_slot. destruct (Rlt_dec _ _); auto. rewrite Nat.eqb_refl. auto.
  - rewrite IH by auto. rewrite update_other by (intros ->; contradiction). auto.
Qed.
Lemma updated_nodup : forall k, NoDup (updated k).
Proof. intros []; cbn; repeat constructor; cbn; intuition discriminate. Qed.
Lemma update_slots_one : forall k n calc t1 t2 r st i c, In i (updated k) -> nth_error (slot_cols k n t1 t2) i = Some c ->
  update_slots k n calc t1 t2 r st i = set_slot (calc c) r (st i).
Proof.
  intros k n calc t1 t2 r st i c I H. unfold update_slots. rewrite update_fold by auto using updated_nodup.
  rewrite (nth_error_nth _ _ 0%Z H). auto.
Qed.

Lemma calc_equidistant : forall be d2 c, fst be c < snd be c -> equidistant (calc_column be d2 c).
Proof.
  intros be d2 c H. unfold equidistant, calc_column. cbn [begin endr step invstep first last].
  assert (0 < INR (STEPS - 1)) by (apply lt_0_INR; unfold STEPS; lia).
  split; [apply Rdiv_lt_0_compat; lra|]. split; [auto|]. split; [unfold STEPS; lia|].
  replace (2 + Z.to_nat c * (STEPS + 2) + (STEPS - 1) - (2 + Z.to_nat c * (STEPS + 2)))%nat with (STEPS - 1)%nat by lia. field. lra.
Qed.
Lemma calc_coord : forall be d2 c i, xcoord (calc_column be d2 c) (first (calc_column be d2 c) + i)%nat = fst be c + INR i * step (calc_column be d2 c).
Proof.
  intros. unfold calc_column. cbn [xcoord first step]. do 2 f_equal. f_equal. lia.
Qed.
(** the slot of a neighbour inside the table *)
Lemma set_slot_gen : forall T xi r old, equidistant T -> (forall i, xcoord T (first T + i)%nat = begin T + INR i * step T) ->
  begin T <= r < endr T ->
  let ns := set_slot T r old in
  (first T <= ns_slot ns < last T)%nat /\ 0 <= ns_shift ns < 1 /\
  xcoord T (ns_slot ns) + ns_shift ns * ns_step ns = r /\ xcoord T (S (ns_slot ns)) - xcoord T (ns_slot ns) = ns_step ns /\
  splint_ed T xi r = Some (splint_dir (d2tab T) xi (ns_slot ns) (ns_shift ns) (ns_step ns)) /\
  splint_grad_ed T xi r = Some (splint_grad_dir (d2tab T) xi (ns_slot ns) (ns_shift ns) (ns_step ns)).
Proof.
  intros T xi r old EQ XC HB'. assert (HB : begin T <= r <= endr T) by lra.
  destruct (ed_slot_spec T r EQ HB) as (k & b & E & K & B & I & L & _). specialize (L (proj2 HB')).
  destruct (ed_slot_neighbour T xi EQ r HB) as (k' & b' & S1 & S2 & _ & _ & S5 & S6).
  unfold slot_ed in S1. rewrite E in S1. unfold left_of_last in S1. destruct (Nat.leb_spec (last T) (first T + k)); [lia|]. injection S1 as <- <-.
  unfold ed_slot in E. destruct (Rlt_dec (r - begin T) 0) as [N|N]; [discriminate|]. injection E as E1 E2.
  cbv zeta. unfold set_slot. destruct (Rlt_dec r (endr T)) as [_|N']; [|lra]. cbn [ns_slot ns_shift ns_step].
  destruct EQ as (SP & IS & _ & _).
  assert (H0 : trunc ((r - begin T) * invstep T) = k) by lia.
  rewrite H0 in *. rewrite E2. replace (k + first T)%nat with (first T + k)%nat by lia.
  assert (SB : b * step T = r - begin T - INR k * step T) by (rewrite <- E2, IS; field; lra).
  split; [lia|]. split.
  { rewrite B. unfold grid in *. rewrite plus_INR in I. cbn [INR] in I. split.
    - apply Rmult_le_reg_r with (step T); auto. unfold Rdiv. rewrite Rmult_assoc, Rinv_l; lra.
    - apply Rmult_lt_reg_r with (step T); auto. unfold Rdiv. rewrite Rmult_assoc, Rinv_l; lra. }
  replace (S (first T + k)) with (first T + S k)%nat by lia. rewrite !XC, S_INR.
  split; [rewrite SB; ring|]. split; [ring|]. split; auto.
Qed.

(** smallest distances *)
Definition pair_nbs (n : Z) (nbs : list (Z * Z * R)) : list (Z * R) := map (fun q => (pair_index n (fst (fst q)) (snd (fst q)), snd q)) nbs.
Section Tables.
Variable DBL_MAX : R.
Lemma smallest : forall n nbs old oldmin s, (0 < n)%Z -> proper DBL_MAX n nbs ->
  start_tables DBL_MAX n (mindists DBL_MAX nbs) old oldmin = Some s ->
  (exists c, In (c, s_min s) nbs) /\ forall c r, In (c, r) nbs -> s_min s <= r.
Proof.
  intros n nbs old oldmin s N P H. unfold start_tables in H. destruct (start_fold _ _ _ _ _ _ H) as (A & _ & C & _ & _). cbn [s_min] in C.
  assert (X : forall i j, (0 <= i < n)%Z -> (0 <= j < n)%Z -> In (pair_index n i j, mindists DBL_MAX nbs (pair_index n i j)) nbs /\
     forall r, In (pair_index n i j, r) nbs -> s_min s <= r).
  { intros i j I J. destruct (A i j) as (V & _ & _ & L); [apply all_pairs_in; auto|].
    destruct (mindists_spec DBL_MAX nbs (pair_index n i j)) as (U & [W|W]); [contradiction|]. split; auto. intros r R. specialize (U r R). lra. }
  split.
  - destruct C as [C|(i & j & I & C)].
    + exfalso. destruct (X 0%Z 0%Z ltac:(lia) ltac:(lia)) as (X1 & X2). pose proof (X2 _ X1). destruct (P _ _ X1) as [Q _]. lra.
    + apply all_pairs_in in I. exists (pair_index n i j). rewrite C. apply X; tauto.
  - intros c r I. destruct (P _ _ I) as (_ & i & j & Hi & Hj & ->). apply (proj2 (X i j Hi Hj)). auto.
Qed.
Variables (k : build_kind) (n : Z) (nbs : list (Z * Z * R)) (old : Z -> R) (oldmin : Z * Z -> R) (en : Z -> R) (d2 : Z -> arr) (s : starts).
Hypothesis NB : forall a b x, In (a, b, x) nbs -> (0 <= a < n)%Z /\ (0 <= b < n)%Z /\ 0 < x < DBL_MAX.
Hypothesis ST : start_tables DBL_MAX n (mindists DBL_MAX (pair_nbs n nbs)) old oldmin = Some s.
Let T (c : Z) : column := calc_column (table_ends k n s en) (d2 c) c.
Lemma nbs_proper : proper DBL_MAX n (pair_nbs n nbs).
Proof.
  intros c r H. unfold pair_nbs in H. apply in_map_iff in H. destruct H as (((a, b), x) & E & I). cbn [fst snd] in E. injection E as <- <-.
  destruct (NB _ _ _ I) as (A & B & X). split; auto. exists a, b. auto.
Qed.
Lemma in_pair_nbs : forall a b x, In (a, b, x) nbs -> In (pair_index n a b, x) (pair_nbs n nbs).
Proof. intros a b x I. unfold pair_nbs. apply in_map_iff. exists (a, b, x). auto. Qed.

(** where the tables of functions of distances begin and end *)
Theorem tables_begin : forall j f t1 t2, nth_error (blocks k) j = Some f -> of_distance f = true -> (0 <= t1 < n)%Z -> (0 <= t2 < n)%Z ->
  let c := column_of n k j f t1 t2 in
  endr (T c) = en c /\
  exists a b r, In (a, b, r) nbs /\ begin (T c) = 95 / 100 * r /\
    (f = Phi -> pair_index n a b = pair_index n t1 t2) /\
    (forall a' b' r', In (a', b', r') nbs -> (f = Phi -> pair_index n a' b' = pair_index n t1 t2) -> r <= r').
Proof.
  intros j f t1 t2 J D H1 H2 c. destruct (cols_count k n t1 t2 j f ltac:(lia) J D) as (C & U). fold c in C.
  destruct (cols_tables k n s en t1 t2 H1 H2 _ _ C) as (B & E & Z0). split; [exact E|].
  pose proof (table_starts DBL_MAX n (pair_nbs n nbs) old oldmin nbs_proper) as Q. rewrite ST in Q. destruct Q as (Q1 & _ & _).
  destruct (smallest n (pair_nbs n nbs) old oldmin s ltac:(lia) nbs_proper ST) as ((c' & M1) & M2).
  assert (PR : forall q r, In (q, r) (pair_nbs n nbs) -> exists a b, In (a, b, r) nbs /\ pair_index n a b = q).
  { intros q r I. unfold pair_nbs in I. apply in_map_iff in I. destruct I as (((a, b), x) & I1 & I2). cbn [fst snd] in I1. injection I1 as <- <-. exists a, b. auto. }
  pose proof (pair_index_range n t1 t2 H1 H2) as PI.
  pose proof (cols_phi k n t1 t2 j f ltac:(lia) H2 J) as PHI. fold c in PHI. change (begin (T c)) with (fst (table_ends k n s en) c).
  destruct B as [(B & CE)|(CE & B)]; rewrite B.
  - assert (f = Phi) as ->. { destruct f; auto; exfalso; destruct PHI as [_ PHI]; assert (paircol n <= c)%Z by (apply PHI; [discriminate|lia]); lia. }
    destruct (Q1 t1 t2 H1 H2) as (r & R1 & R2 & R3 & _). destruct (PR _ _ R1) as (a & b & I & X). exists a, b, r.
    split; auto. split; [rewrite CE, R3; ring|]. split; auto. intros a' b' r' I' X'. apply R2. rewrite <- (X' eq_refl). apply in_pair_nbs. auto.
  - assert (f <> Phi) by (intros ->; destruct PHI as [PHI _]; specialize (PHI eq_refl); lia).
    destruct (PR _ _ M1) as (a & b & I & X). exists a, b, (s_min s). split; auto. split; [ring|]. split; [contradiction|].
    intros a' b' r' I' _. apply (M2 (pair_index n a' b')). apply in_pair_nbs. auto.
Qed.

(** every neighbour, every function of its distance *)
Theorem neighbour_slots : forall j f t1 t2 r st xi, nth_error (blocks k) j = Some f -> of_distance f = true -> In (t1, t2, r) nbs ->
  let c := column_of n k j f t1 t2 in
  let ns := update_slots k n T t1 t2 r st (slot_of k j) in
  (r < en c ->
     (first (T c) <= ns_slot ns < last (T c))%nat /\ 0 <= ns_shift ns < 1 /\
     xcoord (T c) (ns_slot ns) + ns_shift ns * ns_step ns = r /\
     xcoord (T c) (S (ns_slot ns)) - xcoord (T c) (ns_slot ns) = ns_step ns /\
     splint_ed (T c) xi r = Some (splint_dir (d2 c) xi (ns_slot ns) (ns_shift ns) (ns_step ns)) /\
     splint_grad_ed (T c) xi r = Some (splint_grad_dir (d2 c) xi (ns_slot ns) (ns_shift ns) (ns_step ns))) /\
  (en c <= r -> ns = st (slot_of k j)).
Proof.
  intros j f t1 t2 r st xi J D I c ns. destruct (NB _ _ _ I) as (H1 & H2 & R0).
  destruct (cols_count k n t1 t2 j f ltac:(lia) J D) as (C & U). fold c in C.
  destruct (tables_begin j f t1 t2 J D H1 H2) as (E & a & b & x & X1 & X2 & X3 & X4). fold c in E, X2.
  unfold ns. rewrite (update_slots_one k n T t1 t2 r st _ c U C). split.
  - intros RE. destruct (NB _ _ _ X1) as (_ & _ & X0). assert (x <= r) by (apply (X4 t1 t2); auto).
    change (d2 c) with (d2tab (T c)). apply set_slot_gen.
    + apply calc_equidistant. change (begin (T c) < endr (T c)). lra.
    + intros i. apply calc_coord.
    + lra.
  - intros RE. unfold set_slot. destruct (Rlt_dec r (endr (T c))); [lra|auto].
Qed.
(** functions of the cosine *)
Theorem angle_tables : forall j t, nth_error (blocks k) j = Some G -> (0 <= t < n)%Z ->
  let c := (before n (blocks k) j + t)%Z in
  begin (T c) <= -1 /\ 1 <= endr (T c) /\ (k = BMeam -> begin (T c) = - (11 / 10) /\ endr (T c) = 11 / 10).
Proof.
  intros j t J H c. assert (N : (0 <= n)%Z) by lia. 
  change (begin (T c)) with (fst (table_ends k n s en) c). change (endr (T c)) with (snd (table_ends k n s en) c).
  unfold c. clear c T. destruct k; cbn [blocks] in J;
    destruct j as [|[|[|[|[|j]]]]]; cbn [nth_error] in J; try discriminate J; try (destruct j; discriminate J);
    cbn [blocks before size per_pair table_ends fst snd]; rewrite ?(paircol_div n N);
    rewrite !put_all_in by (apply range_in; lia); (split; [lra|]); (split; [lra|]); intros X; try discriminate X; lra.
Qed.
End Tables.
(** one type, two neighbours, MEAM *)
Lemma slots_ex : exists s, start_tables 1000 1 (mindists 1000 (pair_nbs 1 [(0%Z, 0%Z, 2); (0%Z, 0%Z, 3)])) (fun _ => 0) (fun _ => 0) = Some s /\
  (forall a b x, In (a, b, x) [(0%Z, 0%Z, 2); (0%Z, 0%Z, 3)] -> (0 <= a < 1)%Z /\ (0 <= b < 1)%Z /\ 0 < x < 1000) /\
  nth_error (blocks BMeam) 3 = Some Fr /\ column_of 1 BMeam 3 Fr 0 0 = 3%Z /\ slot_of BMeam 3 = 2%nat.
Proof.
  assert (P : forall a b x, In (a, b, x) [(0%Z, 0%Z, 2); (0%Z, 0%Z, 3)] -> (0 <= a < 1)%Z /\ (0 <= b < 1)%Z /\ 0 < x < 1000).
  { intros a b x [E|[E|[]]]; inversion E; subst; repeat split; try lia; lra. }
  pose proof (table_starts 1000 1 (pair_nbs 1 [(0%Z, 0%Z, 2); (0%Z, 0%Z, 3)]) (fun _ => 0) (fun _ => 0) (nbs_proper 1000 1 _ P)) as Q.
  destruct (start_tables _ _ _ _ _) as [s|]; [exists s; repeat split; auto; apply (P _ _ _ H)|].
  exfalso. destruct Q as (i & j & I & J & X). apply (X 2). replace i with 0%Z by lia. replace j with 0%Z by lia. left. auto.
Qed.
