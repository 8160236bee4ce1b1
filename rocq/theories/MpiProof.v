From Coq Require Import ZArith List Lia Reals Lra Bool.
From Verif Require Import MpiModel.
Import ListNotations.
Open Scope Z_scope.

Section Arith.
  Variables ncpu nconf : Z.
  Hypothesis Hcpu : 1 <= ncpu.
  Hypothesis Hconf : 0 <= nconf.

  Lemma each_rem : nconf = ncpu * each ncpu nconf + (odd ncpu nconf + ncpu) /\
                   0 <= odd ncpu nconf + ncpu < ncpu /\ 0 <= each ncpu nconf.
  Proof.
    unfold each, odd. rewrite Z.quot_div_nonneg, Z.rem_mod_nonneg by lia.
    pose proof (Z_div_mod_eq_full nconf ncpu).
    pose proof (Z.mod_pos_bound nconf ncpu ltac:(lia)).
    pose proof (Z.div_pos nconf ncpu Hconf ltac:(lia)). lia.
  Qed.

  Lemma conf_dist_0 : conf_dist ncpu nconf 0 = 0.
  Proof.
    destruct each_rem as (E & B & P). unfold conf_dist.
    destruct (0 + odd ncpu nconf >? 0) eqn:G; [apply Z.gtb_lt in G|]; lia.
  Qed.

  Lemma conf_dist_end : conf_dist ncpu nconf ncpu = nconf.
  Proof.
    destruct each_rem as (E & B & P). unfold conf_dist.
    destruct (ncpu + odd ncpu nconf >? 0) eqn:G; [apply Z.gtb_lt in G|rewrite Z.gtb_ltb in G; apply Z.ltb_ge in G]; lia.
  Qed.

  Lemma conf_dist_step : forall i,
    conf_dist ncpu nconf (i + 1) - conf_dist ncpu nconf i = each ncpu nconf \/
    conf_dist ncpu nconf (i + 1) - conf_dist ncpu nconf i = each ncpu nconf + 1.
  Proof.
    intros i. unfold conf_dist.
    destruct (i + 1 + odd ncpu nconf >? 0) eqn:G1; destruct (i + odd ncpu nconf >? 0) eqn:G2;
    rewrite ?Z.gtb_ltb in *; rewrite ?Z.ltb_lt, ?Z.ltb_ge in *; lia.
  Qed.

  Lemma conf_dist_mono : forall i j, i <= j -> conf_dist ncpu nconf i <= conf_dist ncpu nconf j.
  Proof.
    intros i j H. destruct each_rem as (E & B & P).
    replace j with (i + (j - i)) by lia.
    remember (j - i) as d. assert (Hd : 0 <= d) by lia. clear Heqd H.
    revert d Hd. apply natlike_ind.
    - rewrite Z.add_0_r. lia.
    - intros d Hd IH. unfold Z.succ. rewrite Z.add_assoc.
      destruct (conf_dist_step (i + d)); lia.
  Qed.

  Lemma conf_len_eq : forall i, i < ncpu ->
    conf_len ncpu nconf i = conf_dist ncpu nconf (i + 1) - conf_dist ncpu nconf i.
  Proof.
    intros i H. unfold conf_len. destruct (Z.ltb_spec i (ncpu - 1)); [reflexivity|].
    replace i with (ncpu - 1) by lia. replace (ncpu - 1 + 1) with ncpu by lia.
    rewrite conf_dist_end. lia.
  Qed.

  Lemma conf_len_cases : forall i, i < ncpu ->
    conf_len ncpu nconf i = each ncpu nconf \/ conf_len ncpu nconf i = each ncpu nconf + 1.
  Proof. intros i H. rewrite conf_len_eq by lia. apply conf_dist_step. Qed.

  (** every configuration index lies in exactly one block *)
  Lemma block_exists : forall c, 0 <= c < nconf ->
    exists p, 0 <= p < ncpu /\ conf_dist ncpu nconf p <= c < conf_dist ncpu nconf p + conf_len ncpu nconf p.
  Proof.
    intros c Hc.
    assert (G : forall m, 0 <= m -> m <= ncpu -> c < conf_dist ncpu nconf m ->
       exists p, 0 <= p < m /\ conf_dist ncpu nconf p <= c < conf_dist ncpu nconf (p + 1)).
    { apply (natlike_ind (fun m => m <= ncpu -> c < conf_dist ncpu nconf m ->
        exists p, 0 <= p < m /\ conf_dist ncpu nconf p <= c < conf_dist ncpu nconf (p + 1))).
      - rewrite conf_dist_0. lia.
      - intros m Hm IH Hle Hlt. unfold Z.succ in *.
        destruct (Z.lt_ge_cases c (conf_dist ncpu nconf m)) as [L|L].
        + destruct IH as (p & Hp & H); [lia|exact L|]. exists p. split; [lia|exact H].
        + exists m. split; [lia|]. lia. }
    destruct (G ncpu) as (p & Hp & H); [lia|lia|rewrite conf_dist_end; lia|].
    exists p. split; [exact Hp|]. rewrite conf_len_eq by lia. lia.
  Qed.

  Lemma block_unique : forall c p q, 0 <= p < ncpu -> 0 <= q < ncpu ->
    conf_dist ncpu nconf p <= c < conf_dist ncpu nconf p + conf_len ncpu nconf p ->
    conf_dist ncpu nconf q <= c < conf_dist ncpu nconf q + conf_len ncpu nconf q -> p = q.
  Proof.
    intros c p q Hp Hq Bp Bq. rewrite conf_len_eq in Bp, Bq by lia.
    destruct (Z.lt_trichotomy p q) as [L|[L|L]]; [exfalso|exact L|exfalso].
    - pose proof (conf_dist_mono (p + 1) q ltac:(lia)). lia.
    - pose proof (conf_dist_mono (q + 1) p ltac:(lia)). lia.
  Qed.
End Arith.

(** ** atoms *)
Lemma cnfstart_all : forall l, cnfstart l (length l) = natoms l.
Proof. induction l as [|n l IH]; cbn; [reflexivity|]. rewrite IH. reflexivity. Qed.

Lemma cnfstart_S : forall l c, (c < length l)%nat -> cnfstart l (S c) = cnfstart l c + nth c l 0.
Proof.
  induction l as [|n l IH]; intros c H; [cbn in H; lia|].
  destruct c as [|c].
  - cbn. destruct l; cbn; lia.
  - cbn in H. change (cnfstart (n :: l) (S (S c))) with (n + cnfstart l (S c)).
    change (cnfstart (n :: l) (S c)) with (n + cnfstart l c). cbn [nth]. rewrite IH by lia. lia.
Qed.

Lemma cnfstart_mono : forall l, (forall n, In n l -> 0 <= n) ->
  forall a b, (a <= b)%nat -> cnfstart l a <= cnfstart l b.
Proof.
  induction l as [|n l IH]; intros H a b Hab; destruct a, b; cbn; try lia.
  - assert (0 <= cnfstart l b).
    { specialize (IH (fun m Hm => H m (or_intror Hm)) O b ltac:(lia)).
      destruct l; cbn in *; lia. }
    specialize (H n (or_introl eq_refl)). lia.
  - specialize (IH (fun m Hm => H m (or_intror Hm)) a b ltac:(lia)). lia.
Qed.

Lemma cnfstart_nonneg : forall l, (forall n, In n l -> 0 <= n) -> forall c, 0 <= cnfstart l c.
Proof.
  intros l H c. pose proof (cnfstart_mono l H O c ltac:(lia)). destruct l; cbn in *; lia.
Qed.

Lemma cnfstart_ge_length : forall l c, (length l <= c)%nat -> cnfstart l c = natoms l.
Proof.
  induction l as [|n l IH]; intros c H; [destruct c; reflexivity|].
  destruct c; cbn in *; [lia|]. rewrite IH by lia. reflexivity.
Qed.

Section Atoms.
  Variable ncpu : Z.
  Variable inconf : list Z.
  Hypothesis Hcpu : 1 <= ncpu.
  Let nconf := Z.of_nat (length inconf).

  Lemma atom_dist_end : atom_dist ncpu inconf ncpu = natoms inconf.
  Proof.
    unfold atom_dist. rewrite conf_dist_end by lia. rewrite Nat2Z.id. apply cnfstart_all.
  Qed.

  Lemma atom_len_eq : forall i, i < ncpu ->
    atom_len ncpu inconf i = atom_dist ncpu inconf (i + 1) - atom_dist ncpu inconf i.
  Proof.
    intros i H. unfold atom_len. destruct (Z.ltb_spec i (ncpu - 1)); [reflexivity|].
    replace i with (ncpu - 1) by lia. replace (ncpu - 1 + 1) with ncpu by lia.
    rewrite atom_dist_end. lia.
  Qed.

  Hypothesis Hpos : forall n, In n inconf -> 0 <= n.

  (** an atom of configuration [c] lives on the process that owns [c], and only there *)
  Lemma atom_owner : forall p c a, 0 <= p < ncpu -> (c < length inconf)%nat ->
    cnfstart inconf c <= a < cnfstart inconf c + nth c inconf 0 ->
    (atom_dist ncpu inconf p <= a < atom_dist ncpu inconf p + atom_len ncpu inconf p
     <-> conf_dist ncpu nconf p <= Z.of_nat c < conf_dist ncpu nconf p + conf_len ncpu nconf p).
  Proof.
    intros p c a Hp Hc Ha. fold nconf.
    rewrite atom_len_eq, conf_len_eq by (try unfold nconf; lia).
    set (d0 := conf_dist ncpu nconf p). set (d1 := conf_dist ncpu nconf (p + 1)).
    assert (H0 : 0 <= d0).
    { unfold d0. rewrite <- (conf_dist_0 ncpu nconf Hcpu ltac:(unfold nconf; lia)).
      apply conf_dist_mono; unfold nconf; lia. }
    assert (H1 : d0 <= d1) by (unfold d0, d1; apply conf_dist_mono; unfold nconf; lia).
    assert (A0 : atom_dist ncpu inconf p = cnfstart inconf (Z.to_nat d0)) by reflexivity.
    assert (A1 : atom_dist ncpu inconf (p + 1) = cnfstart inconf (Z.to_nat d1)) by reflexivity.
    rewrite A0, A1.
    pose proof (cnfstart_S inconf c Hc) as HS.
    split; intros H.
    - split.
      + destruct (Z.lt_ge_cases (Z.of_nat c) d0) as [L|L]; [exfalso|lia].
        pose proof (cnfstart_mono inconf Hpos (S c) (Z.to_nat d0) ltac:(lia)). lia.
      + destruct (Z.lt_ge_cases (Z.of_nat c) d1) as [L|L]; [lia|exfalso].
        pose proof (cnfstart_mono inconf Hpos (Z.to_nat d1) c ltac:(lia)). lia.
    - pose proof (cnfstart_mono inconf Hpos (Z.to_nat d0) c ltac:(lia)).
      pose proof (cnfstart_mono inconf Hpos (S c) (Z.to_nat d1) ltac:(lia)). lia.
  Qed.
End Atoms.

(** ** gathering *)
Section GatherProof.
  Variable stress : bool.
  Variable inconf : list Z.
  Variable val : nat -> Z -> R.
  Hypothesis Hpos : forall n, In n inconf -> 0 <= n.
  Let N := Z.of_nat (length inconf).

  Notation eval_conf := (eval_conf stress inconf val).
  Notation eval_range := (eval_range stress inconf val).
  Notation owns := (owns stress inconf).
  Notation energy_p := (energy_p inconf).
  Notation stress_p := (stress_p inconf).

  Lemma owns_spec : forall c k, owns c k = true <->
    (3 * cnfstart inconf c <= k < 3 * (cnfstart inconf c + nth c inconf 0)) \/
    k = energy_p + Z.of_nat c \/
    (stress = true /\ stress_p + 6 * Z.of_nat c <= k < stress_p + 6 * Z.of_nat c + 6).
  Proof.
    intros c k. unfold MpiModel.owns.
    rewrite !orb_true_iff, !andb_true_iff, !Z.leb_le, !Z.ltb_lt, Z.eqb_eq. tauto.
  Qed.

  Lemma cnf_end : forall c, (c < length inconf)%nat ->
    0 <= cnfstart inconf c /\ cnfstart inconf c + nth c inconf 0 <= natoms inconf.
  Proof.
    intros c H. split; [apply cnfstart_nonneg; exact Hpos|].
    rewrite <- cnfstart_S by exact H.
    rewrite <- (cnfstart_all inconf). apply cnfstart_mono; [exact Hpos|lia].
  Qed.

  (** different configurations own different entries *)
  Lemma owns_unique : forall c d k, (c < length inconf)%nat -> (d < length inconf)%nat ->
    owns c k = true -> owns d k = true -> c = d.
  Proof.
    intros c d k Hc Hd Oc Od.
    apply owns_spec in Oc; apply owns_spec in Od.
    pose proof (cnf_end c Hc). pose proof (cnf_end d Hd).
    pose proof (cnfstart_S inconf c Hc). pose proof (cnfstart_S inconf d Hd).
    destruct (Nat.lt_trichotomy c d) as [L|[L|L]]; [exfalso|exact L|exfalso].
    - pose proof (cnfstart_mono inconf Hpos (S c) d ltac:(lia)).
      unfold MpiModel.stress_p, MpiModel.energy_p, MpiModel.nconf in *.
      destruct Oc as [Oc|[Oc|[? Oc]]]; destruct Od as [Od|[Od|[? Od]]]; lia.
    - pose proof (cnfstart_mono inconf Hpos (S d) c ltac:(lia)).
      unfold MpiModel.stress_p, MpiModel.energy_p, MpiModel.nconf in *.
      destruct Oc as [Oc|[Oc|[? Oc]]]; destruct Od as [Od|[Od|[? Od]]]; lia.
  Qed.

  Lemma fold_eval_notin : forall l v k,
    (forall c, In c l -> owns c k = false) -> fold_left eval_conf l v k = v k.
  Proof.
    induction l as [|c l IH]; intros v k H; [reflexivity|]. cbn [fold_left].
    rewrite IH by (intros; apply H; right; assumption).
    unfold MpiModel.eval_conf. rewrite (H c (or_introl eq_refl)). reflexivity.
  Qed.

  Lemma fold_eval_in : forall l v c k,
    (forall d, In d l -> (d < length inconf)%nat) -> In c l -> owns c k = true ->
    fold_left eval_conf l v k = val c k.
  Proof.
    induction l as [|d l IH]; intros v c k Hb Hin Ho; [destruct Hin|]. cbn [fold_left].
    destruct (in_dec Nat.eq_dec c l) as [Hl|Hl].
    - apply IH; [intros; apply Hb; right; assumption|exact Hl|exact Ho].
    - destruct Hin as [->|Hin]; [|contradiction].
      rewrite fold_eval_notin.
      + unfold MpiModel.eval_conf. rewrite Ho. reflexivity.
      + intros e He. destruct (owns e k) eqn:E; [|reflexivity]. exfalso. apply Hl.
        rewrite (owns_unique c e k); [exact He| | |exact Ho|exact E].
        * apply Hb; left; reflexivity.
        * apply Hb; right; exact He.
  Qed.

  Lemma eval_range_in : forall v s n c k, 0 <= s -> s + n <= N ->
    s <= Z.of_nat c < s + n -> owns c k = true -> eval_range v s n k = val c k.
  Proof.
    intros v s n c k H0 H1 Hc Ho. unfold MpiModel.eval_range.
    apply fold_eval_in; [|apply in_seq; lia|exact Ho].
    intros d Hd. apply in_seq in Hd. unfold N in *. lia.
  Qed.

  Lemma serial_in : forall v c k, (c < length inconf)%nat -> owns c k = true ->
    serial_vec stress inconf val v k = val c k.
  Proof.
    intros v c k Hc Ho. unfold serial_vec. apply eval_range_in; try exact Ho;
    unfold MpiModel.nconf, N; lia.
  Qed.

  (** every entry of the force/energy/stress regions is owned by some configuration *)
  Definition region (k : Z) : Prop :=
    0 <= k < energy_p + N + (if stress then 6 * N else 0).

  Lemma atom_in_conf : forall l, (forall n, In n l -> 0 <= n) -> forall a, 0 <= a < natoms l ->
    exists c, (c < length l)%nat /\ cnfstart l c <= a < cnfstart l c + nth c l 0.
  Proof.
    induction l as [|n l IH]; intros Hp a Ha; [cbn in Ha; lia|].
    cbn [natoms fold_right] in Ha. fold (natoms l) in Ha.
    destruct (Z.lt_ge_cases a n) as [L|L].
    - exists O. cbn. split; [lia|]. lia.
    - destruct (IH (fun m Hm => Hp m (or_intror Hm)) (a - n) ltac:(unfold natoms in *; cbn in Ha; lia)) as (c & Hc & H).
      exists (S c). cbn. split; [lia|]. lia.
  Qed.

  Lemma region_owned : forall k, region k -> exists c, (c < length inconf)%nat /\ owns c k = true.
  Proof.
    intros k H. unfold region in H.
    destruct (Z.lt_ge_cases k energy_p) as [L|L].
    - destruct (atom_in_conf inconf Hpos (k / 3)) as (c & Hc & B).
      { unfold MpiModel.energy_p in L. split; [apply Z.div_pos; lia|]. apply Z.div_lt_upper_bound; lia. }
      exists c. split; [exact Hc|]. apply owns_spec. left.
      pose proof (Z_div_mod_eq_full k 3). pose proof (Z.mod_pos_bound k 3 ltac:(lia)). lia.
    - destruct (Z.lt_ge_cases k (energy_p + N)) as [L2|L2].
      + exists (Z.to_nat (k - energy_p)). unfold N in *. split; [lia|]. apply owns_spec. right. left. lia.
      + assert (Es : stress = true) by (destruct stress; [reflexivity|lia]).
        rewrite Es in H.
        exists (Z.to_nat ((k - stress_p) / 6)).
        assert (Hq : 0 <= (k - stress_p) / 6 < N).
        { unfold MpiModel.stress_p, MpiModel.nconf. fold N.
          split; [apply Z.div_pos; lia|]. apply Z.div_lt_upper_bound; lia. }
        unfold N in Hq. split; [lia|]. apply owns_spec. right. right. split; [exact Es|].
        rewrite Z2Nat.id by lia.
        pose proof (Z_div_mod_eq_full (k - stress_p) 6).
        pose proof (Z.mod_pos_bound (k - stress_p) 6 ltac:(lia)). lia.
  Qed.

  (** ** shares *)
  Variable ncpu : Z.
  Hypothesis Hcpu : 1 <= ncpu.
  Definition share_of (i : Z) : share :=
    {| first_conf := conf_dist ncpu N i; my_conf := conf_len ncpu N i;
       first_atom := atom_dist ncpu inconf i; my_atoms := atom_len ncpu inconf i |}.

  Definition mine (s : share) (c : nat) : Prop :=
    first_conf s <= Z.of_nat c < first_conf s + my_conf s.

  Definition slice_of (s : share) (k : Z) : Prop :=
    (3 * first_atom s <= k < 3 * first_atom s + 3 * my_atoms s) \/
    (energy_p + first_conf s <= k < energy_p + first_conf s + my_conf s) \/
    (stress = true /\ stress_p + 6 * first_conf s <= k < stress_p + 6 * first_conf s + 6 * my_conf s).

  Lemma gather_one_in : forall dst s w k, slice_of s k -> gather_one stress inconf dst (s, w) k = w k.
  Proof.
    intros dst s w k H. unfold gather_one, copy_slice.
    destruct H as [H|[H|[Hs H]]]; [| |rewrite Hs].
    - destruct stress;
      repeat (match goal with |- context [(?a <=? k) && (k <? ?b)] =>
        destruct ((a <=? k) && (k <? b)) eqn:?; try reflexivity end);
      rewrite ?andb_false_iff, ?Z.leb_gt, ?Z.ltb_ge in *; lia.
    - destruct stress;
      repeat (match goal with |- context [(?a <=? k) && (k <? ?b)] =>
        destruct ((a <=? k) && (k <? b)) eqn:?; try reflexivity end);
      rewrite ?andb_false_iff, ?Z.leb_gt, ?Z.ltb_ge in *; lia.
    - repeat (match goal with |- context [(?a <=? k) && (k <? ?b)] =>
        destruct ((a <=? k) && (k <? b)) eqn:?; try reflexivity end);
      rewrite ?andb_false_iff, ?Z.leb_gt, ?Z.ltb_ge in *; lia.
  Qed.

  Lemma gather_one_out : forall dst s w k, ~ slice_of s k -> gather_one stress inconf dst (s, w) k = dst k.
  Proof.
    intros dst s w k H. unfold gather_one, copy_slice. unfold slice_of in H.
    destruct stress;
    repeat (match goal with |- context [(?a <=? k) && (k <? ?b)] =>
        destruct ((a <=? k) && (k <? b)) eqn:?; try reflexivity end);
    exfalso; apply H; rewrite ?andb_true_iff, ?Z.leb_le, ?Z.ltb_lt in *; intuition lia.
  Qed.

  (** the slices sent by process [p] are exactly the entries of its configurations *)
  Lemma slice_owned : forall p c k, 0 <= p < ncpu -> (c < length inconf)%nat -> owns c k = true ->
    (slice_of (share_of p) k <-> mine (share_of p) c).
  Proof.
    intros p c k Hp Hc Ho. unfold slice_of, mine, share_of; cbn [first_conf my_conf first_atom my_atoms].
    pose proof (cnf_end c Hc) as CE.
    assert (D0 : 0 <= conf_dist ncpu N p).
    { rewrite <- (conf_dist_0 ncpu N Hcpu ltac:(unfold N; lia)). apply conf_dist_mono; unfold N; lia. }
    assert (D1 : conf_dist ncpu N p + conf_len ncpu N p <= N).
    { rewrite conf_len_eq by (unfold N; lia).
      rewrite <- (conf_dist_end ncpu N Hcpu ltac:(unfold N; lia)) at 4.
      pose proof (conf_dist_mono ncpu N Hcpu ltac:(unfold N; lia) (p+1) ncpu ltac:(lia)). lia. }
    assert (LN : 0 <= conf_len ncpu N p).
    { rewrite conf_len_eq by (unfold N; lia). pose proof (conf_dist_mono ncpu N Hcpu ltac:(unfold N; lia) p (p+1) ltac:(lia)). lia. }
    assert (A1 : atom_dist ncpu inconf p + atom_len ncpu inconf p <= natoms inconf).
    { rewrite atom_len_eq by lia. rewrite <- (atom_dist_end ncpu inconf Hcpu). unfold atom_dist.
      fold N. pose proof (cnfstart_mono inconf Hpos (Z.to_nat (conf_dist ncpu N (p+1))) (Z.to_nat (conf_dist ncpu N ncpu))).
      pose proof (conf_dist_mono ncpu N Hcpu ltac:(unfold N; lia) (p+1) ncpu ltac:(lia)). lia. }
    assert (A0 : 0 <= atom_dist ncpu inconf p) by (unfold atom_dist; apply cnfstart_nonneg; exact Hpos).
    apply owns_spec in Ho.
    unfold MpiModel.stress_p, MpiModel.energy_p, MpiModel.nconf in *. fold N in Ho |- *.
    destruct Ho as [Ho|[Ho|[Hs Ho]]].
    - pose proof (atom_owner ncpu inconf Hcpu Hpos p c (k / 3) Hp Hc) as AO. cbv zeta in AO. fold N in AO.
      pose proof (Z_div_mod_eq_full k 3). pose proof (Z.mod_pos_bound k 3 ltac:(lia)).
      split.
      + intros [X|[X|[_ X]]]; [|lia|lia]. apply AO; lia.
      + intros X. left. apply AO in X; lia.
    - split; [intros [X|[X|[_ X]]]; lia|]. intros X. right. left. lia.
    - split; [intros [X|[X|[_ X]]]; lia|]. intros X. right. right. split; [exact Hs|lia].
  Qed.

  Lemma shares_eq : forall l, distribute ncpu inconf = MpiOk l ->
    l = map (fun p => share_of (Z.of_nat p)) (seq 0 (Z.to_nat ncpu)).
  Proof.
    intros l H. unfold distribute in H.
    destruct (ncpu =? 1); [discriminate|]. destruct (ncpu >? _); [discriminate|].
    injection H as H. rewrite <- H. reflexivity.
  Qed.

  (** fold of gathers: the entry is that of the (unique) worker whose slice holds it *)
  Lemma fold_gather : forall (ps : list nat) (W : nat -> vec) dst k c,
    (c < length inconf)%nat -> owns c k = true ->
    (forall p, In p ps -> 0 <= Z.of_nat p < ncpu) ->
    (forall p, In p ps -> mine (share_of (Z.of_nat p)) c -> W p k = val c k) ->
    ((forall p, In p ps -> ~ mine (share_of (Z.of_nat p)) c) -> dst k = val c k) ->
    fold_left (gather_one stress inconf) (map (fun p => (share_of (Z.of_nat p), W p)) ps) dst k = val c k.
  Proof.
    induction ps as [|p ps IH]; intros W dst k c Hc Ho Hb HW Hd; cbn [map fold_left].
    - apply Hd. intros p [].
    - apply IH; [exact Hc|exact Ho|intros; apply Hb; right; assumption
               |intros; apply HW; [right; assumption|assumption]|].
      intros Hno.
      assert (Dec : mine (share_of (Z.of_nat p)) c \/ ~ mine (share_of (Z.of_nat p)) c)
        by (unfold mine; lia).
      destruct Dec as [M|M].
      + rewrite gather_one_in; [apply HW; [left; reflexivity|exact M]|].
        apply (slice_owned _ c); [apply Hb; left; reflexivity|exact Hc|exact Ho|exact M].
      + rewrite gather_one_out.
        * apply Hd. intros q [<-|Hq]; [exact M|apply Hno; exact Hq].
        * intros S. apply M. apply (slice_owned _ c k); [apply Hb; left; reflexivity|exact Hc|exact Ho|exact S].
  Qed.

  Lemma mine_dec_eval : forall p v c k, 0 <= Z.of_nat p < ncpu ->
    owns c k = true -> mine (share_of (Z.of_nat p)) c ->
    eval_range v (first_conf (share_of (Z.of_nat p))) (my_conf (share_of (Z.of_nat p))) k = val c k.
  Proof.
    intros p v c k Hp Ho M. cbn [share_of first_conf my_conf] in *. unfold mine in M. cbn in M.
    apply (eval_range_in _ _ _ c); [| |exact M|exact Ho].
    - rewrite <- (conf_dist_0 ncpu N Hcpu ltac:(unfold N; lia)). apply conf_dist_mono; unfold N; lia.
    - rewrite conf_len_eq by (unfold N; lia).
      rewrite <- (conf_dist_end ncpu N Hcpu ltac:(unfold N; lia)) at 4.
      pose proof (conf_dist_mono ncpu N Hcpu ltac:(unfold N; lia) (Z.of_nat p+1) ncpu ltac:(lia)). lia.
  Qed.

  Lemma combine_map_seq : forall (A : Type) (f : nat -> A) m k,
    combine (seq k m) (map f (seq k m)) = map (fun p => (p, f p)) (seq k m).
  Proof. induction m as [|m IH]; intros k; cbn; [reflexivity|]. rewrite IH. reflexivity. Qed.

  Lemma parallel_serial : forall l old v k, distribute ncpu inconf = MpiOk l -> region k ->
    parallel_vec stress inconf val l old k = serial_vec stress inconf val v k.
  Proof.
    intros l old v k HD HR. apply shares_eq in HD. subst l.
    destruct (region_owned k HR) as (c & Hc & Ho).
    rewrite (serial_in v c k Hc Ho).
    destruct (Z.to_nat ncpu) as [|m] eqn:Em; [lia|]. cbn [seq map]. unfold parallel_vec.
    rewrite map_length, seq_length.
    rewrite combine_map_seq. rewrite map_map. cbn [fst snd].
    apply fold_gather with (W := fun p => eval_range (old p) (first_conf (share_of (Z.of_nat p))) (my_conf (share_of (Z.of_nat p)))).
    - exact Hc.
    - exact Ho.
    - intros p Hp. apply in_seq in Hp. lia.
    - intros p Hp M. apply in_seq in Hp. apply mine_dec_eval; [lia|exact Ho|exact M].
    - intros Hno. apply mine_dec_eval; [lia|exact Ho|].
      destruct (block_exists ncpu N Hcpu ltac:(unfold N; lia) (Z.of_nat c) ltac:(unfold N; lia)) as (p & Hp & B).
      destruct (Z.eq_dec p 0) as [->|Hp0]; [exact B|].
      exfalso. apply (Hno (Z.to_nat p)); [apply in_seq; lia|].
      rewrite Z2Nat.id by lia. exact B.
  Qed.
End GatherProof.

(** ** error sums *)
Section ErrProof.
  Variable inconf : list Z.
  Variable err : nat -> R.
  Variable root_extra : R.
  Variable ncpu : Z.
  Hypothesis Hcpu : 1 <= ncpu.
  Let N := Z.of_nat (length inconf).

  Definition sum_seq (a n : nat) : R := fold_right (fun c s => (err c + s)%R) 0%R (seq a n).

  Lemma fold_left_sum : forall l s, fold_left (fun s c => (s + err c)%R) l s = (s + fold_right (fun c s => (err c + s)%R) 0%R l)%R.
  Proof.
    induction l as [|c l IH]; intros s; cbn; [lra|]. rewrite IH. lra.
  Qed.

  Lemma err_range_sum : forall s n, err_range err s n = sum_seq (Z.to_nat s) (Z.to_nat n).
  Proof. intros. unfold err_range, sum_seq. rewrite fold_left_sum. lra. Qed.

  Lemma sum_seq_app : forall a n m, sum_seq a (n + m) = (sum_seq a n + sum_seq (a + n) m)%R.
  Proof.
    intros a n m. unfold sum_seq. rewrite seq_app, fold_right_app.
    generalize (seq a n) as l. induction l as [|c l IH]; cbn; [lra|]. rewrite IH. lra.
  Qed.

  Lemma workers_sum : forall m k s, Z.of_nat (k + m) <= ncpu ->
    fold_left (fun s w => (s + err_range err (first_conf w) (my_conf w))%R)
      (map (fun p => share_of inconf ncpu (Z.of_nat p)) (seq k m)) s =
    (s + sum_seq (Z.to_nat (conf_dist ncpu N (Z.of_nat k)))
                 (Z.to_nat (conf_dist ncpu N (Z.of_nat (k + m))) - Z.to_nat (conf_dist ncpu N (Z.of_nat k))))%R.
  Proof.
    induction m as [|m IH]; intros k s H; cbn [seq map fold_left].
    - rewrite Nat.add_0_r, Nat.sub_diag. unfold sum_seq. cbn. lra.
    - rewrite IH by lia. cbn [share_of first_conf my_conf].
      rewrite err_range_sum. fold N.
      rewrite conf_len_eq by (unfold N; lia).
      replace (Z.of_nat k + 1) with (Z.of_nat (S k)) by lia.
      pose proof (conf_dist_mono ncpu N Hcpu ltac:(unfold N; lia) (Z.of_nat k) (Z.of_nat (S k)) ltac:(lia)).
      pose proof (conf_dist_mono ncpu N Hcpu ltac:(unfold N; lia) (Z.of_nat (S k)) (Z.of_nat (k + S m)) ltac:(lia)).
      pose proof (conf_dist_mono ncpu N Hcpu ltac:(unfold N; lia) 0 (Z.of_nat k) ltac:(lia)) as H2.
      rewrite (conf_dist_0 ncpu N) in H2 by (unfold N; lia).
      replace (S k + m)%nat with (k + S m)%nat by lia.
      set (d0 := conf_dist ncpu N (Z.of_nat k)) in *.
      set (d1 := conf_dist ncpu N (Z.of_nat (S k))) in *.
      set (d2 := conf_dist ncpu N (Z.of_nat (k + S m))) in *.
      replace (Z.to_nat d2 - Z.to_nat d0)%nat with (Z.to_nat (d1 - d0) + (Z.to_nat d2 - Z.to_nat d1))%nat by lia.
      rewrite sum_seq_app. replace (Z.to_nat d0 + Z.to_nat (d1 - d0))%nat with (Z.to_nat d1) by lia. lra.
  Qed.

  Lemma parallel_err_eq : forall l, distribute ncpu inconf = MpiOk l ->
    parallel_err err root_extra l = serial_err inconf err root_extra.
  Proof.
    intros l HD. apply shares_eq in HD. subst l.
    destruct (Z.to_nat ncpu) as [|m] eqn:Em; [lia|].
    unfold serial_err, MpiModel.nconf. fold N.
    cbn [seq map]. unfold parallel_err.
    rewrite workers_sum by lia.
    cbn [share_of first_conf my_conf]. fold N. rewrite !err_range_sum.
    change (Z.of_nat 0) with 0. rewrite conf_len_eq by (unfold N; lia).
    rewrite conf_dist_0 by (unfold N; lia).
    replace (Z.of_nat (1 + m)) with ncpu by lia. rewrite conf_dist_end by (unfold N; lia).
    change (0 + 1) with (Z.of_nat 1).
    set (d1 := conf_dist ncpu N (Z.of_nat 1)).
    assert (D : 0 <= d1 <= N).
    { split; [rewrite <- (conf_dist_0 ncpu N Hcpu ltac:(unfold N; lia)); apply conf_dist_mono; unfold N; lia|].
      rewrite <- (conf_dist_end ncpu N Hcpu ltac:(unfold N; lia)). apply conf_dist_mono; unfold N; lia. }
    replace (Z.to_nat (d1 - 0)) with (Z.to_nat d1) by lia.
    replace (Z.to_nat N) with (Z.to_nat d1 + (Z.to_nat N - Z.to_nat d1))%nat at 2 by lia.
    rewrite sum_seq_app. change (Z.to_nat 0) with O. rewrite Nat.add_0_l. lra.
  Qed.
End ErrProof.
