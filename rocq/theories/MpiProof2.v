From Coq Require Import ZArith List Lia Reals Bool.
From Verif Require Import MpiModel MpiProof.
Import ListNotations.
Open Scope Z_scope.

Lemma distribute_accepts : forall ncpu inconf, 1 <= ncpu ->
  ((exists l, distribute ncpu inconf = MpiOk l) <-> 2 <= ncpu <= Z.of_nat (length inconf)).
Proof.
  intros ncpu inconf H. unfold distribute.
  destruct (Z.eqb_spec ncpu 1).
  - split; [intros [l E]; discriminate|lia].
  - destruct (ncpu >? Z.of_nat (length inconf)) eqn:G; rewrite Z.gtb_ltb in G.
    + apply Z.ltb_lt in G. split; [intros [l E]; discriminate|lia].
    + apply Z.ltb_ge in G. split; [lia|]. intros _. eexists. reflexivity.
Qed.

Lemma firstn_cnfstart : forall l c, fold_right Z.add 0 (firstn c l) = cnfstart l c.
Proof. induction l as [|n l IH]; intros [|c]; cbn; try reflexivity. rewrite IH. reflexivity. Qed.

Lemma nth_error_shares : forall inconf ncpu p s, 
  nth_error (map (fun p => share_of inconf ncpu (Z.of_nat p)) (seq 0 (Z.to_nat ncpu))) p = Some s ->
  (p < Z.to_nat ncpu)%nat /\ s = share_of inconf ncpu (Z.of_nat p).
Proof.
  intros inconf ncpu p s H.
  assert (L : (p < Z.to_nat ncpu)%nat).
  { apply nth_error_Some_lt in H || (assert (nth_error (map (fun p => share_of inconf ncpu (Z.of_nat p)) (seq 0 (Z.to_nat ncpu))) p <> None) as X by congruence;
    apply nth_error_Some in X; rewrite map_length, seq_length in X; exact X). }
  split; [exact L|].
  rewrite nth_error_map in H.
  rewrite (nth_error_nth' _ O) in H by (rewrite seq_length; exact L).
  rewrite seq_nth in H by exact L. cbn in H. congruence.
Qed.

Lemma nth_error_shares_ex : forall inconf ncpu p, (p < Z.to_nat ncpu)%nat ->
  nth_error (map (fun p => share_of inconf ncpu (Z.of_nat p)) (seq 0 (Z.to_nat ncpu))) p
  = Some (share_of inconf ncpu (Z.of_nat p)).
Proof.
  intros inconf ncpu p L. rewrite nth_error_map.
  rewrite (nth_error_nth' _ O) by (rewrite seq_length; exact L).
  rewrite seq_nth by exact L. reflexivity.
Qed.

Lemma distribute_partition : forall ncpu inconf l, 1 <= ncpu ->
  (forall n, In n inconf -> 0 <= n) ->
  distribute ncpu inconf = MpiOk l ->
  length l = Z.to_nat ncpu /\
  (forall c, (c < length inconf)%nat ->
     exists p s, nth_error l p = Some s /\ (first_conf s <= Z.of_nat c < first_conf s + my_conf s) /\
       forall q t, nth_error l q = Some t -> (first_conf t <= Z.of_nat c < first_conf t + my_conf t) -> q = p) /\
  (forall p s c, nth_error l p = Some s -> (first_conf s <= Z.of_nat c < first_conf s + my_conf s) -> (c < length inconf)%nat) /\
  (forall p q s t, nth_error l p = Some s -> nth_error l q = Some t ->
     1 <= my_conf s /\ my_conf s - my_conf t <= 1) /\
  (forall p s c a, nth_error l p = Some s -> (c < length inconf)%nat ->
     (let before := fold_right Z.add 0 (firstn c inconf) in before <= a < before + nth c inconf 0) ->
     (first_atom s <= a < first_atom s + my_atoms s <-> first_conf s <= Z.of_nat c < first_conf s + my_conf s)).
Proof.
  intros ncpu inconf l Hcpu Hpos HD.
  assert (HA : 2 <= ncpu <= Z.of_nat (length inconf)) by (apply distribute_accepts; [lia|eexists; exact HD]).
  apply shares_eq in HD. subst l. 
  set (N := Z.of_nat (length inconf)) in *. assert (HN : 0 <= N) by lia.
  split; [rewrite map_length, seq_length; reflexivity|].
  split; [|split; [|split]].
  - intros c Hc.
    destruct (block_exists ncpu N Hcpu HN (Z.of_nat c) ltac:(lia)) as (p & Hp & B).
    exists (Z.to_nat p), (share_of inconf ncpu p). split; [|split; [exact B|]].
    + rewrite nth_error_shares_ex by lia. rewrite Z2Nat.id by lia. reflexivity.
    + intros q t Ht Bt. apply nth_error_shares in Ht. destruct Ht as [Lq ->].
      enough (Z.of_nat q = p) by lia.
      apply (block_unique ncpu N Hcpu HN (Z.of_nat c)); [lia|lia|exact Bt|exact B].
  - intros p s c Hp B. apply nth_error_shares in Hp. destruct Hp as [Lp ->].
    cbn [share_of first_conf my_conf] in B. fold N in B. rewrite conf_len_eq in B by lia.
    pose proof (conf_dist_mono ncpu N Hcpu HN (Z.of_nat p + 1) ncpu ltac:(lia)) as M.
    rewrite conf_dist_end in M by lia. lia.
  - intros p q s t Hp Hq. apply nth_error_shares in Hp, Hq.
    destruct Hp as [Lp ->]. destruct Hq as [Lq ->]. cbn [share_of my_conf]. fold N.
    assert (E1 : 1 <= each ncpu N).
    { unfold each. rewrite Z.quot_div_nonneg by lia. apply Z.div_le_lower_bound; lia. }
    destruct (conf_len_cases ncpu N Hcpu HN (Z.of_nat p) ltac:(lia));
    destruct (conf_len_cases ncpu N Hcpu HN (Z.of_nat q) ltac:(lia)); lia.
  - intros p s c a Hp Hc B. cbv zeta in B. rewrite firstn_cnfstart in B.
    apply nth_error_shares in Hp. destruct Hp as [Lp ->].
    apply (atom_owner ncpu inconf Hcpu Hpos (Z.of_nat p) c a); [lia|exact Hc|exact B].
Qed.

Lemma parallel_vector_eq : forall (stress : bool) ncpu inconf val l old v k, 1 <= ncpu ->
  (forall n, In n inconf -> 0 <= n) ->
  distribute ncpu inconf = MpiOk l ->
  0 <= k < 3 * fold_right Z.add 0 inconf + Z.of_nat (length inconf)
    + (if stress then 6 * Z.of_nat (length inconf) else 0) ->
  parallel_vec stress inconf val l old k = serial_vec stress inconf val v k.
Proof.
  intros stress ncpu inconf val l old v k Hcpu Hpos HD HR.
  apply (parallel_serial stress inconf val Hpos ncpu Hcpu); [exact HD|].
  unfold region, energy_p, natoms. exact HR.
Qed.

Lemma serial_entries : forall (stress : bool) inconf val v c k,
  (forall n, In n inconf -> 0 <= n) -> (c < length inconf)%nat ->
  ((exists a j, (let before := fold_right Z.add 0 (firstn c inconf) in before <= a < before + nth c inconf 0)
      /\ 0 <= j < 3 /\ k = 3 * a + j) \/
   k = 3 * fold_right Z.add 0 inconf + Z.of_nat c \/
   (stress = true /\ exists j, 0 <= j < 6 /\
      k = 3 * fold_right Z.add 0 inconf + Z.of_nat (length inconf) + 6 * Z.of_nat c + j)) ->
  serial_vec stress inconf val v k = val c k.
Proof.
  intros stress inconf val v c k Hpos Hc H. assert (O : owns stress inconf c k = true); [|apply (serial_in stress inconf val Hpos v c k Hc O)].
  apply (owns_spec stress inconf val). unfold stress_p, energy_p, natoms, nconf.
  destruct H as [(a & j & Ha & Hj & E)|[E|[Hs (j & Hj & E)]]].
  - left. cbv zeta in Ha. rewrite firstn_cnfstart in Ha. lia.
  - right. left. exact E.
  - right. right. split; [exact Hs|]. lia.
Qed.
