(** Proofs for C10-C12. *)
From Coq Require Import List Arith QArith Qabs Bool Lia Lqa Permutation.
From Verif Require Import ListUtil DiffEvoModel.
Import ListNotations.
Local Open Scope nat_scope.

Lemma qltb_t : forall a b, qltb a b = true <-> (a < b)%Q.
Proof.
  intros. unfold qltb. rewrite negb_true_iff. split; intro H.
  - apply Qnot_le_lt. intro K. apply Qle_bool_iff in K. congruence.
  - destruct (Qle_bool b a) eqn:E; auto. apply Qle_bool_iff in E. lra.
Qed.

Lemma qltb_f : forall a b, qltb a b = false <-> (b <= a)%Q.
Proof.
  intros. unfold qltb. rewrite negb_false_iff. apply Qle_bool_iff.
Qed.

Ltac qcase a b := let E := fresh "Qc" in destruct (qltb a b) eqn:E; [apply qltb_t in E | apply qltb_f in E].

(** ** Sorting *)
Section Sort.
Context {A : Type} (key : A -> Q) (d : A).

Lemma part_loop : forall v n low l cur l' cur', cur <= low ->
  fold_left (part_step key d v) (seq low n) (l, cur) = (l', cur') ->
  Permutation l' l /\ cur <= cur' <= low + n /\ length l' = length l /\
  (forall k, k < cur \/ low + n <= k -> nth k l' d = nth k l d).
Proof.
  induction n; intros low l cur l' cur' Hc; cbn [seq fold_left].
  - intros [= <- <-]. repeat split; auto; lia.
  - cbn [part_step]. destruct (Qle_bool (key (nth low l d)) v && negb (low =? cur)) eqn:E.
    + intro H. apply IHn in H; [|lia]. destruct H as (P & B & L & K). repeat split; try lia.
      * rewrite P. apply swap_perm.
      * rewrite L. apply swap_length.
      * intros k Hk. rewrite K by lia. apply swap_out; lia.
    + intro H. apply IHn in H; [|lia]. destruct H as (P & B & L & K). repeat split; auto; try lia.
      intros k Hk. apply K. lia.
Qed.

Lemma partition_spec : forall l low high index l' ni, low <= index <= high -> low <= high ->
  partition key d l low high index = (l', ni) ->
  Permutation l' l /\ low <= ni <= high /\ length l' = length l /\
  (forall k, k < low \/ high < k -> nth k l' d = nth k l d).
Proof.
  intros l low high index l' ni Hi Hl. unfold partition.
  destruct (fold_left _ _ _) as [l2 cur] eqn:E. intros [= <- <-].
  apply part_loop in E; [|lia]. destruct E as (P & B & L & K). repeat split; try lia.
  - rewrite swap_perm, P. apply swap_perm.
  - rewrite swap_length, L, swap_length. auto.
  - intros k Hk. rewrite swap_out by lia. rewrite K by lia. apply swap_out; lia.
Qed.

(** The sort ends within recursion depth [high - low] and only rearranges the records
    inside the range. *)
Lemma quicksort_spec : forall fuel l low high, high - low <= fuel ->
  exists l', quicksort key d fuel l low high = Some l' /\ Permutation l' l /\
    length l' = length l /\ (forall k, k < low \/ high < k -> nth k l' d = nth k l d).
Proof.
  induction fuel; intros l low high Hf.
  - cbn [quicksort]. destruct (Nat.ltb_spec low high); [lia|]. eauto.
  - cbn [quicksort]. destruct (Nat.ltb_spec low high); [|exists l; auto].
    assert (M : low <= (low + high) / 2 <= high).
    { split; [apply Nat.div_le_lower_bound; lia | apply Nat.div_le_upper_bound; lia]. }
    destruct (partition key d l low high ((low + high) / 2)) as [l1 ni] eqn:E.
    apply partition_spec in E; try lia. destruct E as (P1 & B1 & L1 & K1).
    destruct (IHfuel l1 low (ni - 1)) as (l2 & E2 & P2 & L2 & K2); [lia|]. rewrite E2.
    destruct (IHfuel l2 (ni + 1) high) as (l3 & E3 & P3 & L3 & K3); [lia|]. rewrite E3.
    exists l3. repeat split; auto.
    + rewrite P3, P2, P1. auto.
    + congruence.
    + intros k Hk. rewrite K3, K2, K1 by lia. auto.
Qed.
End Sort.

(** Specification of "the [n] records with the lowest costs": every retained record is at
    most as costly as every dropped one. *)
Definition keeps_lowest (kept dropped : list Q) : Prop :=
  forall a b, In a kept -> In b dropped -> (a <= b)%Q.

Lemma sort_witness :
  quicksort (fun x => x) 0%Q 3 [1; 2; 3]%Q 0 2 = Some [2; 3; 1]%Q.
Proof. reflexivity. Qed.

(** ** Bounds *)
Section Bounds.
Variable costf : list Q -> Q.
Variable idx : list nat.
Variables pmin pmax : nat -> Q.
Variable xi0 : list Q.

Notation ndim := (ndim idx).
Notation get := (get idx).
Notation put := (put idx).
Notation NP := (NP xi0).

(** Free parameters inside their bounds, all other entries those of the start vector. *)
Definition allowed (v : list Q) : Prop :=
  length v = length xi0 /\
  (forall j, j < length idx -> (pmin j <= nth (nth j idx O) v 0 <= pmax j)%Q) /\
  (forall p, ~ In p idx -> nth p v 0%Q = nth p xi0 0%Q).

Record setup : Prop := {
  s_nodup : NoDup idx;
  s_range : forall p, In p idx -> p < length xi0;
  s_start : forall j, j < length idx -> (pmin j <= nth (nth j idx O) xi0 0 <= pmax j)%Q;
  s_big : forall j, j < length idx -> (- (10 ^ 31) <= pmin j /\ pmax j <= 10 ^ 31)%Q }.

Hypothesis S : setup.

Lemma idx_range : forall j, j < ndim -> nth j idx 0 < length xi0.
Proof. intros. apply (s_range S). apply nth_In. auto. Qed.

Lemma get_put : forall v j k x, length v = length xi0 -> j < ndim -> k < ndim ->
  get (put v j x) k = if k =? j then x else get v k.
Proof.
  intros v j k x L Hj Hk. unfold DiffEvoModel.get, DiffEvoModel.put. destruct (Nat.eqb_spec k j) as [->|N].
  - apply nth_upd_eq. rewrite L. apply idx_range; auto.
  - apply nth_upd_neq. intro E. apply N. eapply NoDup_nth; eauto. apply (s_nodup S).
Qed.

Lemma allowed_put : forall v j x, allowed v -> j < ndim -> (pmin j <= x <= pmax j)%Q -> allowed (put v j x).
Proof.
  intros v j x (L & B & F) Hj Hx. split; [|split].
  - unfold DiffEvoModel.put. rewrite upd_length. auto.
  - intros k Hk. change (nth (nth k idx O) (put v j x) 0%Q) with (get (put v j x) k).
    rewrite get_put; auto. destruct (Nat.eqb_spec k j) as [->|]; auto. apply B. auto.
  - intros p Hp. unfold DiffEvoModel.put. rewrite nth_upd_neq; auto. intros ->. apply Hp. apply nth_In. auto.
Qed.

Lemma allowed_start : allowed xi0.
Proof. repeat split; auto; apply (s_start S); auto. Qed.

Lemma get_allowed : forall v j, allowed v -> j < ndim -> (pmin j <= get v j <= pmax j)%Q.
Proof. intros v j (L & B & F) Hj. apply B. auto. Qed.

Lemma div_abs : forall t, (1 < Qabs t)%Q -> (t / Qabs t == 1 \/ t / Qabs t == -1)%Q.
Proof.
  intros t H. destruct (Qlt_le_dec t 0) as [N|N].
  - right. rewrite Qabs_neg in * by lra. field. lra.
  - left. rewrite Qabs_pos in * by lra. field. lra.
Qed.

Lemma init_value_bounds : forall v lo hi nd, (lo <= v <= hi)%Q ->
  (lo <= init_value true v lo hi nd <= hi)%Q.
Proof.
  intros v lo hi nd H. unfold init_value. cbv iota.
  set (t := if qltb 1 (Qabs (nd / 3)) then (nd / 3 / Qabs (nd / 3))%Q else (nd / 3)%Q).
  assert (T : (-1 <= t <= 1)%Q).
  { unfold t. qcase 1%Q (Qabs (nd / 3))%Q.
    - destruct (div_abs _ Qc) as [E|E]; rewrite E; lra.
    - apply Qabs_Qle_condition in Qc. lra. }
  clearbody t. qcase 0%Q t.
  - assert (0 <= t * (hi - v))%Q by (apply Qmult_le_0_compat; lra).
    assert (0 <= (1 - t) * (hi - v))%Q by (apply Qmult_le_0_compat; lra). lra.
  - assert (0 <= (-t) * (v - lo))%Q by (apply Qmult_le_0_compat; lra).
    assert (0 <= (1 + t) * (v - lo))%Q by (apply Qmult_le_0_compat; lra). lra.
Qed.

Lemma allowed_init : forall nd, allowed (init_vec true idx pmin pmax xi0 nd).
Proof.
  intros nd. unfold init_vec. apply fold_inv.
  - apply allowed_start.
  - intros v j Hj A. apply in_seq in Hj. apply allowed_put; auto; [lia|].
    apply init_value_bounds. apply (s_start S). unfold DiffEvoModel.ndim in *. lia.
Qed.

Lemma pop_min_le : forall (pop : list ind) j p m, In p pop \/ (m <= get (vec p) j)%Q ->
  (fold_left (fun m p => if qltb (get (vec p) j) m then get (vec p) j else m) pop m <= get (vec p) j)%Q.
Proof.
  induction pop; intros j p m H; simpl.
  - destruct H; [contradiction|auto].
  - apply IHpop. destruct H as [[->|H]|H].
    + right. qcase (get (vec p) j) m; lra.
    + auto.
    + right. qcase (get (vec a) j) m; lra.
Qed.

Lemma pop_max_ge : forall (pop : list ind) j p m, In p pop \/ (get (vec p) j <= m)%Q ->
  (get (vec p) j <= fold_left (fun m p => if qltb m (get (vec p) j) then get (vec p) j else m) pop m)%Q.
Proof.
  induction pop; intros j p m H; simpl.
  - destruct H; [contradiction|auto].
  - apply IHpop. destruct H as [[->|H]|H].
    + right. qcase m (get (vec p) j); lra.
    + auto.
    + right. qcase m (get (vec a) j); lra.
Qed.

Lemma pop_min_ge : forall (pop : list ind) j, j < ndim -> Forall (fun p => allowed (vec p)) pop ->
  (pmin j <= pop_min idx pop j)%Q.
Proof.
  intros pop j Hj F. unfold pop_min. apply fold_inv.
  - pose proof (s_start S j Hj). pose proof (s_big S j Hj). unfold big.
    assert (E : (inject_Z (10 * 10 ^ 30) == 10 ^ 31)%Q) by reflexivity. rewrite E. lra.
  - intros m p Hp Hm. rewrite Forall_forall in F. pose proof (get_allowed _ _ (F _ Hp) Hj).
    qcase (get (vec p) j) m; lra.
Qed.

Lemma pop_max_le : forall (pop : list ind) j, j < ndim -> Forall (fun p => allowed (vec p)) pop ->
  (pop_max idx pop j <= pmax j)%Q.
Proof.
  intros pop j Hj F. unfold pop_max. apply fold_inv.
  - pose proof (s_start S j Hj). pose proof (s_big S j Hj). unfold big.
    assert (E : (inject_Z (10 * 10 ^ 30) == 10 ^ 31)%Q) by reflexivity. rewrite E. lra.
  - intros m p Hp Hm. rewrite Forall_forall in F. pose proof (get_allowed _ _ (F _ Hp) Hj).
    qcase m (get (vec p) j); lra.
Qed.

Lemma allowed_opposite : forall lo hi p, allowed (vec p) ->
  (forall j, j < ndim -> (pmin j <= lo j <= get (vec p) j)%Q /\ (get (vec p) j <= hi j <= pmax j)%Q) ->
  allowed (vec (opposite idx lo hi p)).
Proof.
  intros lo hi p A H. unfold opposite. cbn [vec]. apply fold_inv; auto.
  intros v j Hj Av. apply in_seq in Hj. apply allowed_put; auto; [lia|].
  destruct (H j) as [H1 H2]; [lia|]. lra.
Qed.

Definition good (cp : Q * ind) : Prop := allowed (vec (snd cp)).
Definition paired (cp : Q * ind) : Prop := fst cp = costf (vec (snd cp)).

Lemma Forall_firstn : forall (T : Type) (P : T -> Prop) n l, Forall P l -> Forall P (firstn n l).
Proof.
  intros T P n l H. rewrite Forall_forall in *. intros x Hx. apply H.
  rewrite <- (firstn_skipn n l). apply in_or_app; auto.
Qed.

Definition tot_of (do_init : bool) (pop : list (Q * ind)) : list (Q * ind) :=
  pop ++ map (with_cost costf) (map (opposite idx (if do_init then pmin else pop_min idx (map snd pop))
                  (if do_init then pmax else pop_max idx (map snd pop))) (map snd pop)).

(** The opposition step always ends; what it keeps is a part of a rearrangement of the
    candidates and their opposites, with their own costs. *)
Lemma opposite_check_spec : forall do_init pop, length pop = NP ->
  exists p dropped ev, opposite_check costf idx pmin pmax xi0 do_init pop = Some (p, ev) /\
    Permutation (p ++ dropped) (tot_of do_init pop) /\ length p = NP /\
    ev = map (fun cp => vec (snd cp)) (skipn NP (tot_of do_init pop)).
Proof.
  intros do_init pop L. unfold opposite_check.
  fold (tot_of do_init pop).
  destruct (quicksort_spec fst (0%Q, dummy) (2 * NP) (tot_of do_init pop) 0 (2 * NP - 1)) as (s & E & P & Ls & _); [lia|].
  unfold tot_of in *. rewrite E. exists (firstn NP s), (skipn NP s). eexists. split; [reflexivity|].
  assert (Lt : length s = 2 * NP).
  { rewrite Ls, app_length, !map_length, L. lia. }
  repeat split.
  - rewrite firstn_skipn. auto.
  - rewrite firstn_length, Lt. lia.
  - rewrite skipn_app, L, Nat.sub_diag, skipn_all2 by lia. cbn [app skipn].
    rewrite !map_map. reflexivity.
Qed.

Lemma opposite_check_good : forall do_init pop p ev, length pop = NP -> Forall good pop ->
  opposite_check costf idx pmin pmax xi0 do_init pop = Some (p, ev) ->
  Forall good p /\ Forall allowed ev /\ length p = NP.
Proof.
  intros do_init pop p ev L G E.
  destruct (opposite_check_spec do_init pop L) as (p' & dr & ev' & E' & P & Lp & Ev).
  rewrite E in E'. injection E' as <- <-.
  assert (O : Forall (fun q => allowed (vec q)) (map snd pop)).
  { rewrite Forall_map. exact G. }
  assert (T : Forall good (skipn NP (tot_of do_init pop))).
  { unfold tot_of. rewrite skipn_app, L, Nat.sub_diag, skipn_all2 by lia. cbn [app skipn].
    rewrite Forall_map. rewrite Forall_map. rewrite Forall_forall in *. intros q Hq. unfold good. cbn [snd with_cost].
    apply allowed_opposite; [auto|]. intros j Hj. specialize (O _ Hq) as A.
    pose proof (get_allowed _ _ A Hj) as B. destruct do_init.
    - lra.
    - split; split.
      + apply pop_min_ge; auto. rewrite Forall_forall. auto.
      + unfold pop_min. apply pop_min_le. auto.
      + unfold pop_max. apply pop_max_ge. auto.
      + apply pop_max_le; auto. rewrite Forall_forall. auto. }
  assert (T2 : Forall good (p ++ dr)).
  { rewrite P. rewrite <- (firstn_skipn NP (tot_of do_init pop)). apply Forall_app. split; auto.
    unfold tot_of. rewrite firstn_app, L, Nat.sub_diag, firstn_O, app_nil_r, firstn_all2 by lia. auto. }
  repeat split; auto.
  - apply Forall_app in T2. tauto.
  - subst ev. rewrite Forall_map. exact T.
Qed.

Definition choice_ok (c : choice) : Prop := ch_a c < NP /\ ch_b c < NP /\ (0 < ndim -> ch_j c < ndim).

Lemma clamp_bounds : forall j t, j < ndim -> (pmin j <= clamp true pmin pmax j t <= pmax j)%Q.
Proof.
  intros j t Hj. pose proof (s_start S j Hj). unfold clamp. cbn [negb].
  qcase (pmax j) t; [lra|]. qcase t (pmin j); lra.
Qed.

Lemma cross_allowed : forall c pop1 i b f cr t, choice_ok c -> length pop1 = NP -> i < NP ->
  Forall good pop1 -> allowed t -> allowed (cross true idx pmin pmax c pop1 i b f cr t).
Proof.
  intros c pop1 i b f cr t (Ha & Hb & Hj) L Hi G A. unfold cross.
  refine (proj1 (fold_inv _ (fun s => allowed (fst s) /\ (0 < ndim -> snd s < ndim)) _ _ _ _ _)).
  - cbn [fst snd]. auto.
  - intros [v j] k Hk [Av Hv]. apply in_seq in Hk. cbn [fst snd] in *.
    assert (0 < ndim) by lia. specialize (Hv H). split.
    + apply allowed_put; auto.
      destruct (qltb (ch_cross c k) cr || (k =? j)); [apply clamp_bounds; auto|].
      apply get_allowed; auto. rewrite Forall_forall in G.
      apply (G (nth i pop1 (0%Q, dummy))). apply nth_In. lia.
    + intros _. apply Nat.mod_upper_bound. lia.
Qed.

Definition ginv (g : gstate) : Prop := allowed (trial g) /\ Forall good (pop2 g) /\ Forall allowed (evals g).

Lemma gen_step_inv : forall pop1 chs g i, (forall i, choice_ok (chs i)) -> length pop1 = NP -> i < NP ->
  Forall good pop1 -> ginv g -> ginv (gen_step true costf idx pmin pmax pop1 chs g i).
Proof.
  intros pop1 chs g i C L Hi G (A & P & E). unfold gen_step.
  assert (Gi : good (nth i pop1 (0%Q, dummy))).
  { rewrite Forall_forall in G. apply G. apply nth_In. lia. }
  destruct (nth i pop1 (0%Q, dummy)) as [ci pi] eqn:N.
  match goal with |- context [cross true idx pmin pmax ?c pop1 i ?b ?f ?cr ?t] =>
    pose proof (cross_allowed c pop1 i b f cr t (C i) L Hi G A) as AC;
    set (t' := cross true idx pmin pmax c pop1 i b f cr t) in * end.
  destruct (qltb (costf t') (min_cost g)); (split; [exact AC|split]);
    cbn [pop2 evals]; try (constructor; auto);
    apply Forall_app; split; auto; constructor; auto;
    destruct (Qle_bool (costf t') ci); auto.
Qed.

Lemma gen_fold_length : forall pop1 chs l g,
  length (pop2 (fold_left (gen_step true costf idx pmin pmax pop1 chs) l g)) = length (pop2 g) + length l.
Proof.
  intros pop1 chs. induction l; intros g; simpl; [lia|]. rewrite IHl. unfold gen_step.
  destruct (nth a pop1 (0%Q, dummy)). destruct (qltb _ _); cbn [pop2]; rewrite app_length; simpl; lia.
Qed.

Definition dinv (s : dstate) : Prop :=
  Forall good (d_pop s) /\ length (d_pop s) = NP /\ allowed (d_trial s) /\ Forall allowed (d_evals s).

Lemma generation_inv : forall chs jump flag s s', (forall i, choice_ok (chs i)) -> dinv s ->
  generation true costf idx pmin pmax xi0 chs jump flag s = Some s' -> dinv s'.
Proof.
  intros chs jump flag s s' C (G & L & A & E) H. unfold generation in H. cbn [andb] in H.
  set (g := fold_left _ _ _) in H.
  assert (I : ginv g).
  { unfold g. apply fold_inv.
    - split; [exact A|split; [constructor|exact E]].
    - intros g0 i Hi I0. apply in_seq in Hi. apply gen_step_inv; auto. lia. }
  assert (Lg : length (pop2 g) = NP).
  { unfold g. rewrite gen_fold_length, seq_length. reflexivity. }
  clearbody g. destruct I as (Ig1 & Ig2 & Ig3). destruct jump.
  - destruct (opposite_check costf idx pmin pmax xi0 false (pop2 g)) as [[p ev]|] eqn:Q; [|discriminate].
    injection H as <-. destruct (opposite_check_good _ _ _ _ Lg Ig2 Q) as (P1 & P2 & P3).
    split; [exact P1|split; [exact P3|split; [exact Ig1|]]]. apply Forall_app; auto.
  - injection H as <-. split; [exact Ig2|split; [exact Lg|split; [exact Ig1|exact Ig3]]].
Qed.

Lemma start_pop_good : forall nd uf uc, Forall (fun p => allowed (vec p)) (start_pop true idx pmin pmax xi0 nd uf uc).
Proof.
  intros. unfold start_pop. rewrite Forall_map, Forall_forall. intros i _. cbn [vec].
  destruct (i =? 0); [apply allowed_start | apply allowed_init].
Qed.

Lemma start_pop_length : forall b nd uf uc, length (start_pop b idx pmin pmax xi0 nd uf uc) = NP.
Proof. intros. unfold start_pop. rewrite map_length, seq_length. auto. Qed.

Lemma de_start_inv : forall nd uf uc s,
  de_start true costf idx pmin pmax xi0 nd uf uc = Some s -> dinv s.
Proof.
  intros nd uf uc s. unfold de_start, init_population.
  destruct (opposite_check _ _ _ _ _ _ _) as [[p ev]|] eqn:E; [|discriminate].
  destruct (scan_best xi0 p) as [[b mn] mx]. intros [= <-].
  apply opposite_check_good in E.
  - destruct E as (G & A & L). split; [exact G|split; [exact L|split; [exact allowed_start|]]].
    cbn [d_evals]. apply Forall_app; split; auto. rewrite Forall_map. apply start_pop_good.
  - rewrite map_length. apply start_pop_length.
  - rewrite Forall_map. apply start_pop_good.
Qed.

Lemma loop_inv : forall thr ch jump flag n count s s', (forall c i, choice_ok (ch c i)) -> dinv s ->
  loop true costf idx pmin pmax xi0 thr ch jump flag n count s = Some s' -> dinv s'.
Proof.
  intros thr ch jump flag. induction n; intros count s s' C I H; simpl in H.
  - injection H as <-; auto.
  - destruct (goes_on thr s); [|injection H as <-; auto].
    destruct (generation _ _ _ _ _ _ _ _ _ s) as [s1|] eqn:E; [|discriminate].
    apply (IHn _ _ _ C (generation_inv _ _ _ _ _ (C count) I E) H).
Qed.

(** Every vector ever evaluated is allowed. *)
Theorem de_bounds : forall thr nd uf uc ch jump flag n s s', (forall c i, choice_ok (ch c i)) ->
  de_start true costf idx pmin pmax xi0 nd uf uc = Some s ->
  loop true costf idx pmin pmax xi0 thr ch jump flag n 0 s = Some s' ->
  Forall allowed (d_evals s').
Proof.
  intros. exact (proj2 (proj2 (proj2 (loop_inv _ _ _ _ _ _ _ _ H (de_start_inv _ _ _ _ H0) H1)))).
Qed.

End Bounds.

(** ** The best candidate *)
Section Best.
Variable bounded : bool.
Variable costf : list Q -> Q.
Variable idx : list nat.
Variables pmin pmax : nat -> Q.
Variable xi0 : list Q.
Notation NP := (NP xi0).
Notation paired := (paired costf).

Lemma scan_spec : forall pop (b0 : ind) mn0 mx0 b mn mx,
  fold_left (fun '(b, mn, mx) cp =>
     let '(b, mn) := if qltb (fst cp) mn then (snd cp, fst cp) else (b, mn) in
     (b, mn, if qltb mx (fst cp) then fst cp else mx)) pop (b0, mn0, mx0) = (b, mn, mx) ->
  (mn <= mn0)%Q /\ (forall cp, In cp pop -> (mn <= fst cp)%Q) /\
  ((b = b0 /\ mn = mn0) \/ In (mn, b) pop).
Proof.
  induction pop as [|cp pop]; intros b0 mn0 mx0 b mn mx H; cbn [fold_left] in H.
  - injection H as <- <- <-. repeat split; auto; [lra|]. intros ? [].
  - qcase (fst cp) mn0; apply IHpop in H; destruct H as (H1 & H2 & H3).
    + split; [lra|]. split.
      * intros c [<-|Hc]; auto.
      * right. destruct H3 as [[-> ->]|H3]; [left; destruct cp; auto|right; auto].
    + split; [lra|]. split.
      * intros c [<-|Hc]; auto. lra.
      * destruct H3 as [H3|H3]; auto. right; right; auto.
Qed.

Lemma opp_paired : forall do_init pop p ev, length pop = NP -> Forall paired pop ->
  opposite_check costf idx pmin pmax xi0 do_init pop = Some (p, ev) -> Forall paired p /\ length p = NP.
Proof.
  intros do_init pop p ev L G E.
  destruct (opposite_check_spec costf idx pmin pmax xi0 do_init pop L) as (p' & dr & ev' & E' & P & Lp & _).
  rewrite E in E'. injection E' as <- <-. split; auto.
  assert (T : Forall paired (p ++ dr)).
  { rewrite P. unfold tot_of. apply Forall_app. split; auto. rewrite Forall_map, Forall_forall. intros q _. reflexivity. }
  apply Forall_app in T. tauto.
Qed.

(** Invariant of a generation: the best candidate carries its own cost (unless nothing
    ever beat 10e10), the minimum never grew, it is below every trial of the generation. *)
Definition binv (b : ind) (mn : Q) : Prop := mn = costf (vec b) \/ mn = ten10.

Record bg (m0 : Q) (n0 : nat) (g : gstate) : Prop := {
  bg_best : binv (best g) (min_cost g);
  bg_le : (min_cost g <= m0)%Q;
  bg_strict : min_cost g = ten10 -> m0 = ten10 \/ min_cost g = costf (vec (best g));
  bg_pop : Forall paired (pop2 g) }.

Lemma gen_step_bg : forall pop1 chs m0 n0 g i, Forall paired pop1 -> i < length pop1 -> bg m0 n0 g ->
  bg m0 n0 (gen_step bounded costf idx pmin pmax pop1 chs g i) /\
  (min_cost (gen_step bounded costf idx pmin pmax pop1 chs g i) <= costf (trial (gen_step bounded costf idx pmin pmax pop1 chs g i)))%Q.
Proof.
  intros pop1 chs m0 n0 g i P Hi [B L T F]. unfold gen_step.
  assert (Pi : paired (nth i pop1 (0%Q, dummy))).
  { rewrite Forall_forall in P. apply P, nth_In. auto. }
  destruct (nth i pop1 (0%Q, dummy)) as [ci pi].
  match goal with |- context [cross ?b idx pmin pmax ?c pop1 i ?bb ?f ?cr ?t] =>
    set (t' := cross b idx pmin pmax c pop1 i bb f cr t) in * end.
  qcase (costf t') (min_cost g); (split; [constructor|]); cbn [best min_cost pop2 trial vec]; auto; try lra;
    try (left; reflexivity);
    try (apply Forall_app; split; auto; constructor; auto; destruct (Qle_bool (costf t') ci); auto; reflexivity).
Qed.

Lemma gen_fold_bg : forall pop1 chs m0 n0 l g, Forall paired pop1 -> (forall i, In i l -> i < length pop1) ->
  bg m0 n0 g -> bg m0 n0 (fold_left (gen_step bounded costf idx pmin pmax pop1 chs) l g).
Proof.
  intros pop1 chs m0 n0 l. induction l; intros g P H B; simpl; auto.
  apply IHl; auto; [intros; apply H; right; auto|]. apply gen_step_bg; auto. apply H; left; auto.
Qed.

Lemma gen_fold_length' : forall pop1 chs l g,
  length (pop2 (fold_left (gen_step bounded costf idx pmin pmax pop1 chs) l g)) = length (pop2 g) + length l.
Proof.
  intros pop1 chs. induction l; intros g; simpl; [lia|]. rewrite IHl. unfold gen_step.
  destruct (nth a pop1 (0%Q, dummy)). destruct (qltb _ _); cbn [pop2]; rewrite app_length; simpl; lia.
Qed.

(** Invariant between generations. *)
Definition dbest (s : dstate) : Prop :=
  binv (d_best s) (d_min s) /\ Forall paired (d_pop s) /\ length (d_pop s) = NP.

Lemma generation_best : forall chs jump flag s s', dbest s ->
  generation bounded costf idx pmin pmax xi0 chs jump flag s = Some s' ->
  dbest s' /\ (d_min s' <= d_min s)%Q /\
  (d_min s = costf (vec (d_best s)) -> d_min s' = costf (vec (d_best s'))).
Proof.
  intros chs jump flag s s' (B & P & L) H. unfold generation in H.
  set (g := fold_left _ _ _) in H.
  assert (I : bg (d_min s) 0 g).
  { unfold g. apply gen_fold_bg; auto.
    - intros i Hi. apply in_seq in Hi. lia.
    - constructor; cbn [best min_cost pop2]; auto; lra. }
  assert (K : d_min s = costf (vec (d_best s)) -> min_cost g = costf (vec (best g))).
  { intro E. unfold g. apply (fold_inv _ (fun g => min_cost g = costf (vec (best g)))).
    - exact E.
    - intros a b _ Ha. unfold gen_step. destruct (nth b (d_pop s) (0%Q, dummy)).
      destruct (qltb _ _); cbn [min_cost best vec]; auto. }
  assert (Lg : length (pop2 g) = NP).
  { unfold g. rewrite gen_fold_length', seq_length. reflexivity. }
  clearbody g. destruct I as [I1 I2 I3 I4].
  destruct (bounded && jump).
  - destruct (opposite_check costf idx pmin pmax xi0 false (pop2 g)) as [[p ev]|] eqn:Q; [|discriminate].
    injection H as <-. destruct (opp_paired _ _ _ _ Lg I4 Q) as (P1 & P2).
    split; [split; [exact I1|split; [exact P1|exact P2]]|]. auto.
  - injection H as <-. split; [split; [exact I1|split; [exact I4|exact Lg]]|]. auto.
Qed.

Lemma loop_best : forall thr ch jump flag n count s s', dbest s ->
  loop bounded costf idx pmin pmax xi0 thr ch jump flag n count s = Some s' ->
  dbest s' /\ (d_min s' <= d_min s)%Q /\
  (d_min s = costf (vec (d_best s)) -> d_min s' = costf (vec (d_best s'))).
Proof.
  intros thr ch jump flag. induction n; intros count s s' I H; simpl in H.
  - injection H as <-. split; [exact I|]. split; [lra|auto].
  - destruct (goes_on thr s); [|injection H as <-; split; [exact I|]; split; [lra|auto]].
    destruct (generation _ _ _ _ _ _ _ _ _ s) as [s1|] eqn:E; [|discriminate].
    destruct (generation_best _ _ _ _ _ I E) as (I1 & L1 & K1).
    destruct (IHn _ _ _ I1 H) as (I2 & L2 & K2). split; auto. split; [lra|auto].
Qed.

Lemma de_start_best : forall nd uf uc s, de_start bounded costf idx pmin pmax xi0 nd uf uc = Some s ->
  dbest s /\ (forall c p, In (c, p) (d_pop s) -> (d_min s <= c)%Q) /\
  (forall c p, In (c, p) (d_pop s) -> (c < ten10)%Q -> d_min s = costf (vec (d_best s))) /\
  (bounded = false -> exists p, In (costf xi0, p) (d_pop s)).
Proof.
  intros nd uf uc s. unfold de_start.
  destruct (init_population _ _ _ _ _ _ _ _ _) as [[p ev]|] eqn:E; [|discriminate].
  destruct (scan_best xi0 p) as [[b mn] mx] eqn:Sc. intros [= <-]. cbn [d_pop d_min d_best].
  assert (PP : Forall paired p /\ length p = NP /\ (bounded = false -> exists q, In (costf xi0, q) p)).
  { unfold init_population in E. destruct bounded.
    - destruct (opposite_check _ _ _ _ _ _ _) as [[p' ev']|] eqn:E'; [|discriminate].
      injection E as <- <-. apply opp_paired in E'; [split; [tauto|split; [tauto|discriminate]]| |].
      + rewrite map_length. apply start_pop_length.
      + rewrite Forall_map, Forall_forall. intros; reflexivity.
    - injection E as <- <-. split; [|split].
      + rewrite Forall_map, Forall_forall. intros; reflexivity.
      + rewrite map_length. apply start_pop_length.
      + intros _. unfold start_pop. unfold DiffEvoModel.NP.
        replace (15 * (length xi0 + 2)) with (S (14 + 15 * (length xi0 + 1))) by lia.
        cbn [seq map]. eexists. left. reflexivity. }
  destruct PP as (P & L & F). apply scan_spec in Sc. destruct Sc as (S1 & S2 & S3).
  split; [|split; [|split]]; auto.
  - split; [|auto]. unfold binv. cbn [d_best d_min]. destruct S3 as [[_ ->]|S3]; auto. left.
    rewrite Forall_forall in P. apply (P _ S3).
  - intros c q H. apply (S2 _ H).
  - intros c q H Hc. destruct S3 as [[_ ->]|S3].
    + apply S2 in H. cbn [fst] in H. lra.
    + rewrite Forall_forall in P. apply (P _ S3).
Qed.

Theorem de_monotone : forall thr nd uf uc ch jump flag n m s s1 s2,
  de_start bounded costf idx pmin pmax xi0 nd uf uc = Some s ->
  loop bounded costf idx pmin pmax xi0 thr ch jump flag n 0 s = Some s1 ->
  loop bounded costf idx pmin pmax xi0 thr ch jump flag m n s1 = Some s2 ->
  (d_min s2 <= d_min s1)%Q.
Proof.
  intros. apply de_start_best in H. apply loop_best in H0; [|tauto]. apply loop_best in H1; tauto.
Qed.

Theorem de_result : forall thr nd uf uc ch jump flag n s x c p,
  ~ (thr == 0)%Q ->
  de_start bounded costf idx pmin pmax xi0 nd uf uc = Some s ->
  In (c, p) (d_pop s) -> (c < ten10)%Q ->
  run_de bounded costf idx pmin pmax xi0 thr nd uf uc ch jump flag n = Some x ->
  (costf x <= c)%Q /\ exists s', loop bounded costf idx pmin pmax xi0 thr ch jump flag n 0 s = Some s' /\ d_min s' = costf x.
Proof.
  intros thr nd uf uc ch jump flag n s x c p T Es Hin Hc. unfold run_de.
  destruct (Qeq_bool thr 0) eqn:Q. { apply Qeq_bool_iff in Q. contradiction. }
  rewrite Es. destruct (loop _ _ _ _ _ _ _ _ _ _ _ _ s) as [s'|] eqn:El; [|discriminate].
  destruct (goes_on thr s'); [discriminate|]. intros [= <-].
  apply de_start_best in Es. destruct Es as (I & B1 & B2 & _).
  apply loop_best in El; auto. destruct El as (I' & L & K). specialize (K (B2 _ _ Hin Hc)).
  split; [|eauto]. rewrite <- K. specialize (B1 _ _ Hin). lra.
Qed.

Theorem de_result_tab : forall thr nd uf uc ch jump flag n x,
  bounded = false -> (costf xi0 < ten10)%Q ->
  run_de bounded costf idx pmin pmax xi0 thr nd uf uc ch jump flag n = Some x ->
  (costf x <= costf xi0)%Q.
Proof.
  intros thr nd uf uc ch jump flag n x F C H.
  destruct (Qeq_bool thr 0) eqn:Q.
  - unfold run_de in H. rewrite Q in H. injection H as <-. lra.
  - destruct (de_start bounded costf idx pmin pmax xi0 nd uf uc) as [s|] eqn:E.
    + destruct (de_start_best _ _ _ _ E) as (_ & _ & _ & K). destruct (K F) as [p Hp].
      eapply de_result in H; eauto; [tauto|]. intro Z. apply Qeq_bool_iff in Z. congruence.
    + unfold run_de in H. rewrite Q, E in H. discriminate.
Qed.

(** Every start value is evaluated, and the run always gets through initialisation and
    every generation: no failure outcome. *)
Lemma de_start_total : forall nd uf uc, exists s, de_start bounded costf idx pmin pmax xi0 nd uf uc = Some s.
Proof.
  intros. unfold de_start, init_population. destruct bounded.
  - destruct (opposite_check_spec costf idx pmin pmax xi0 true (map (with_cost costf) (start_pop true idx pmin pmax xi0 nd uf uc)))
      as (p & dr & ev & E & _). { rewrite map_length. apply start_pop_length. }
    rewrite E. destruct (scan_best xi0 p) as [[b mn] mx]. eauto.
  - destruct (scan_best xi0 _) as [[b mn] mx]. eauto.
Qed.

Lemma generation_total : forall chs jump flag s, exists s', generation bounded costf idx pmin pmax xi0 chs jump flag s = Some s'.
Proof.
  intros. unfold generation. destruct (bounded && jump); [|eauto].
  match goal with |- context [opposite_check _ _ _ _ _ _ (pop2 ?g)] =>
    destruct (opposite_check_spec costf idx pmin pmax xi0 false (pop2 g)) as (p & dr & ev & E & _) end.
  { rewrite gen_fold_length', seq_length. reflexivity. }
  rewrite E. eauto.
Qed.
End Best.

(** ** Witnesses: one free parameter between 0 and 1, start value 3/10 *)
Definition w_cost (v : list Q) : Q := ((nth 0 v 0 - (3#10)) * (nth 0 v 0 - (3#10)) + 1)%Q.
Definition w_nd (i j : nat) : Q := (3 * (Z.of_nat i # 50))%Q.
Definition w_zero (i : nat) : Q := 0%Q.
Definition w_ch (c i : nat) : choice := mk_choice 0 0 0 None None (fun _ => 0%Q).
Definition w_run : option (list Q) :=
  run_de true w_cost [0] (fun _ => 0%Q) (fun _ => 1%Q) [3#10] 1000 w_nd w_zero w_zero w_ch
    (fun _ => false) (fun _ => false) 0.

Definition w_best : list Q := match w_run with Some x => x | None => [] end.

Lemma w_run_def : w_run = Some w_best.
Proof. vm_compute. reflexivity. Qed.

Lemma w_worse : (w_cost [3#10] < w_cost w_best)%Q.
Proof. vm_compute. reflexivity. Qed.

Lemma w_setup : setup [0] (fun _ => 0%Q) (fun _ => 1%Q) [3#10].
Proof.
  constructor.
  - constructor; [intros []|constructor].
  - intros p [<-|[]]; simpl; lia.
  - intros j Hj. simpl in Hj. assert (j = 0) by lia. subst. simpl. lra.
  - intros. split; vm_compute; discriminate.
Qed.

Lemma start_lost : exists costf idx pmin pmax xi0 thr nd uf uc ch jump flag x,
  setup idx pmin pmax xi0 /\ (costf xi0 < ten10)%Q /\
  run_de true costf idx pmin pmax xi0 thr nd uf uc ch jump flag 0 = Some x /\
  (costf xi0 < costf x)%Q.
Proof.
  exists w_cost, [0], (fun _ => 0%Q), (fun _ => 1%Q), [3#10], 1000%Q, w_nd, w_zero, w_zero, w_ch,
    (fun _ => false), (fun _ => false), w_best.
  split; [exact w_setup|]. split; [vm_compute; reflexivity|]. split; [exact w_run_def|exact w_worse].
Qed.

(** The opposition step of this run drops a candidate that is cheaper than all kept ones. *)
Definition w_pop : list (Q * ind) :=
  map (with_cost w_cost) (start_pop true [0] (fun _ => 0%Q) (fun _ => 1%Q) [3#10] w_nd w_zero w_zero).
Definition w_kept : list (Q * ind) :=
  match opposite_check w_cost [0] (fun _ => 0%Q) (fun _ => 1%Q) [3#10] true w_pop with
  | Some (p, _) => p | None => [] end.

Lemma w_kept_all : forallb (fun cp => qltb (w_cost [3#10]) (fst cp)) w_kept = true.
Proof. vm_compute. reflexivity. Qed.

Lemma opposition_refuted : exists costf idx pmin pmax xi0 pop kept ev,
  setup idx pmin pmax xi0 /\ length pop = NP xi0 /\
  Forall (fun cp => fst cp = costf (vec (snd cp)) /\ allowed idx pmin pmax xi0 (vec (snd cp))) pop /\
  opposite_check costf idx pmin pmax xi0 true pop = Some (kept, ev) /\
  exists cp, In cp pop /\ forall k, In k kept -> (fst cp < fst k)%Q.
Proof.
  exists w_cost, [0], (fun _ => 0%Q), (fun _ => 1%Q), [3#10], w_pop.
  destruct (opposite_check_spec w_cost [0] (fun _ => 0%Q) (fun _ => 1%Q) [3#10] true w_pop) as (p & dr & ev & E & _).
  { vm_compute. reflexivity. }
  exists p, ev. split; [exact w_setup|]. split; [vm_compute; reflexivity|]. split.
  - unfold w_pop. rewrite Forall_map. rewrite Forall_forall. intros q Hq. split; [reflexivity|].
    cbn [with_cost snd]. pose proof (start_pop_good [0] (fun _ => 0%Q) (fun _ => 1%Q) [3#10] w_setup w_nd w_zero w_zero) as G.
    rewrite Forall_forall in G. apply G. exact Hq.
  - split; [exact E|]. exists (nth 0 w_pop (0%Q, dummy)). split.
    + apply nth_In. vm_compute. lia.
    + intros k Hk. pose proof w_kept_all as W. unfold w_kept in W. rewrite E in W.
      rewrite forallb_forall in W. specialize (W _ Hk). apply qltb_t in W. exact W.
Qed.

(** All costs at or above 10e10: the start vector is overwritten by zeros, fixed entries too. *)
Lemma zeros_returned : exists costf idx pmin pmax xi0 thr nd uf uc ch jump flag,
  setup idx pmin pmax xi0 /\
  run_de true costf idx pmin pmax xi0 thr nd uf uc ch jump flag 0 = Some [0; 0]%Q /\
  (0 < pmin O)%Q /\ ~ In 1 idx /\ nth 1 xi0 0%Q = 7%Q.
Proof.
  exists (fun _ => (2 * ten10)%Q), [0], (fun _ => (1#10)%Q), (fun _ => 1%Q), [3#10; 7]%Q, (100 * ten10)%Q,
    w_nd, w_zero, w_zero, w_ch, (fun _ => false), (fun _ => false).
  split; [|split; [vm_compute; reflexivity|]].
  - constructor.
    + constructor; [intros []|constructor].
    + intros p [<-|[]]; simpl; lia.
    + intros j Hj. simpl in Hj. assert (j = 0) by lia. subst. simpl. lra.
    + intros. split; vm_compute; discriminate.
  - split; [vm_compute; reflexivity|]. split; [intros [H|[]]; discriminate|reflexivity].
Qed.
