(** Which entries of a trial come from the mutant. *)
From Coq Require Import List Arith QArith Lia Lqa Bool.
From Verif Require Import ListUtil DiffEvoModel DiffEvoProof DiffEvoProof2.
Import ListNotations.
Local Open Scope nat_scope.

Lemma forced_iff : forall n j0 q, j0 < n -> q < n -> (S q =? (j0 + q) mod n) = ((j0 =? 1) && (S q <? n))%bool.
Proof.
  intros n j0 q J Q. destruct (Nat.eqb_spec j0 1) as [->|N]; cbn [andb].
  - destruct (Nat.ltb_spec (S q) n) as [L|L].
    + rewrite Nat.mod_small by lia. apply Nat.eqb_refl.
    + replace (1 + q) with (1 * n) by lia. rewrite Nat.mod_mul by lia. reflexivity.
  - apply Nat.eqb_neq. destruct (Nat.lt_ge_cases (j0 + q) n).
    + rewrite Nat.mod_small by lia. lia.
    + replace (j0 + q) with ((j0 + q - n) + 1 * n) by lia. rewrite Nat.mod_add by lia. rewrite Nat.mod_small by lia. lia.
Qed.

Section Which.
Variables (bounded : bool) (idx : list nat) (pmin pmax : nat -> Q) (xi0 : list Q).
Hypothesis distinct : NoDup idx.
Hypothesis range : forall i, In i idx -> i < length xi0.
Local Notation get := (get idx).
Local Notation put := (put idx).
Local Notation ndim := (ndim idx).
Local Notation mutant := (mutant bounded idx pmin pmax).
(** entry by entry in the order of the loop *)
Theorem trial_exact : forall c pop1 i b f cr t, length t = length xi0 -> ch_j c < ndim -> forall q, q < ndim ->
  let j := (ch_j c + q) mod ndim in
  get (cross bounded idx pmin pmax c pop1 i b f cr t) j =
  if (qltb (ch_cross c (S q)) cr || ((ch_j c =? 1) && (S q <? ndim)))%bool then mutant c pop1 b f j else get (vec (snd (nth i pop1 (0%Q, dummy)))) j.
Proof.
  intros c pop1 i b f cr t L Hj. unfold cross. match goal with |- context [fold_left ?f (seq 1 _) _] => set (body := f) end.
  assert (G : forall m, m <= ndim -> let s := fold_left body (seq 1 m) (t, ch_j c) in
    snd s = (ch_j c + m) mod ndim /\ length (fst s) = length xi0 /\
    forall q, q < m -> let j := (ch_j c + q) mod ndim in
      get (fst s) j = if (qltb (ch_cross c (S q)) cr || ((ch_j c =? 1) && (S q <? ndim)))%bool then mutant c pop1 b f j else get (vec (snd (nth i pop1 (0%Q, dummy)))) j).
  { induction m as [|m IH]; intros Hm s.
    - subst s. simpl. rewrite Nat.add_0_r, Nat.mod_small by auto. repeat split; auto. intros; lia.
    - subst s. rewrite seq_S, fold_left_app. cbn [fold_left].
      destruct (IH ltac:(lia)) as (A & B & C). destruct (fold_left body (seq 1 m) (t, ch_j c)) as [t1 j1]. cbn [fst snd] in A, B, C.
      assert (J : j1 < ndim) by (rewrite A; apply Nat.mod_upper_bound; lia).
      unfold body. cbn [fst snd]. split; [|split].
      + rewrite A. rewrite Nat.add_mod_idemp_l by lia. f_equal. lia.
      + unfold DiffEvoModel.put. rewrite upd_length. auto.
      + intros q Hq. set (jq := (ch_j c + q) mod ndim). assert (JQ : jq < ndim) by (apply Nat.mod_upper_bound; lia).
        rewrite (get_put2 idx xi0 distinct range) by auto. destruct (Nat.eq_dec q m) as [->|N].
        * assert (E : jq = j1) by (subst jq; auto). rewrite E, Nat.eqb_refl.
          rewrite <- (forced_iff ndim (ch_j c) m) by auto. rewrite A. reflexivity.
        * destruct (Nat.eqb_spec jq j1) as [E|E]; [|apply (C q); lia]. exfalso.
          subst jq. rewrite A in E. clear -E N Hq Hm Hj.
          assert (D : forall z, z < ndim -> (ch_j c + z) mod ndim = if ch_j c + z <? ndim then ch_j c + z else ch_j c + z - ndim).
          { intros z Z. destruct (Nat.ltb_spec (ch_j c + z) ndim); [apply Nat.mod_small; auto|].
            replace (ch_j c + z) with ((ch_j c + z - ndim) + 1 * ndim) at 1 by lia. rewrite Nat.mod_add by lia. apply Nat.mod_small. lia. }
          rewrite !D in E by lia. destruct (Nat.ltb_spec (ch_j c + q) ndim), (Nat.ltb_spec (ch_j c + m) ndim); lia. }
  intros q Q. exact (proj2 (proj2 (G ndim (le_n _))) q Q).
Qed.
(** no random number below CR and the loop does not start at entry 1: the trial is the parent *)
Theorem trial_is_parent : forall c pop1 i b f cr t, length t = length xi0 -> ch_j c < ndim -> ch_j c <> 1 ->
  (forall k, 1 <= k <= ndim -> (cr <= ch_cross c k)%Q) ->
  forall j, j < ndim -> get (cross bounded idx pmin pmax c pop1 i b f cr t) j = get (vec (snd (nth i pop1 (0%Q, dummy)))) j.
Proof.
  intros c pop1 i b f cr t L Hj N CR j J.
  pose proof (trial_exact c pop1 i b f cr t L Hj ((j + (ndim - ch_j c)) mod ndim)) as T. cbv zeta in T.
  assert (M : (j + (ndim - ch_j c)) mod ndim < ndim) by (apply Nat.mod_upper_bound; lia). specialize (T M).
  assert (E : (ch_j c + (j + (ndim - ch_j c)) mod ndim) mod ndim = j).
  { rewrite Nat.add_mod_idemp_r by lia. replace (ch_j c + (j + (ndim - ch_j c))) with (j + 1 * ndim) by lia.
    rewrite Nat.mod_add by lia. apply Nat.mod_small; auto. }
  rewrite E in T. rewrite T. apply Nat.eqb_neq in N. rewrite N, andb_false_l, orb_false_r.
  unfold qltb. rewrite (proj2 (Qle_bool_iff _ _)) by (apply CR; lia). reflexivity.
Qed.
(** the loop starts at entry 1: every entry but entry 0 is mutated, however small CR is *)
Theorem trial_is_mutant : forall c pop1 i b f cr t, length t = length xi0 -> ch_j c < ndim -> ch_j c = 1 ->
  forall j, 0 < j -> j < ndim -> get (cross bounded idx pmin pmax c pop1 i b f cr t) j = mutant c pop1 b f j.
Proof.
  intros c pop1 i b f cr t L Hj O j J0 J.
  pose proof (trial_exact c pop1 i b f cr t L Hj (j - 1) ltac:(lia)) as T. cbv zeta in T. rewrite O in T.
  replace (1 + (j - 1)) with j in T by lia. rewrite Nat.mod_small in T by auto. rewrite T.
  replace (S (j - 1)) with j by lia. rewrite Nat.eqb_refl, (proj2 (Nat.ltb_lt j ndim)) by auto. cbn [andb]. rewrite orb_true_r. auto.
Qed.
End Which.

(** two parameters, CR = 0: the trial is its parent although the mutant is another vector *)
Definition w_choice : choice := mk_choice 1 2 0 None None (fun _ => 1#2).
Definition w_pop : list (Q * ind) := [(0%Q, mk_ind [0; 0]%Q 1 0); (0%Q, mk_ind [1; 1]%Q 1 0); (0%Q, mk_ind [2; 2]%Q 1 0)].
Theorem same_trial : let t := cross false [0; 1] (fun _ => 0%Q) (fun _ => 0%Q) w_choice w_pop 0 [5; 5]%Q 1 0 [7; 7]%Q in
  t = [0; 0]%Q /\ forall j, j < 2 -> (mutant false [0; 1]%nat (fun _ => 0%Q) (fun _ => 0%Q) w_choice w_pop [5; 5]%Q 1 j == 4)%Q.
Proof. split; [reflexivity|]. intros [|[|]] H; [reflexivity|reflexivity|lia]. Qed.
Theorem same_trial_ex : exists idx c pop1 i b f cr t, ch_j c < length idx /\
  cross false idx (fun _ => 0%Q) (fun _ => 0%Q) c pop1 i b f cr t = vec (snd (nth i pop1 (0%Q, dummy))) /\
  forall j, j < length idx -> ~ (mutant false idx (fun _ => 0%Q) (fun _ => 0%Q) c pop1 b f j == get idx (vec (snd (nth i pop1 (0%Q, dummy)))) j)%Q.
Proof.
  exists [0; 1], w_choice, w_pop, 0, [5; 5]%Q, 1%Q, 0%Q, [7; 7]%Q. split; [cbn; lia|]. destruct same_trial as [A B]. split; [exact A|].
  intros j J. rewrite (B j J). destruct j as [|[|]]; [discriminate|discriminate|cbn in J; lia].
Qed.
