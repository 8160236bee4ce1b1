(** Composition of the trials and selection in differential evolution. *)
From Coq Require Import List Arith QArith Lia Lqa Bool.
From Verif Require Import ListUtil DiffEvoModel DiffEvoProof.
Import ListNotations.
Local Open Scope nat_scope.

Section Compose.
Variables (bounded : bool) (costf : list Q -> Q) (idx : list nat) (pmin pmax : nat -> Q) (xi0 : list Q).
Hypothesis distinct : NoDup idx.
Hypothesis range : forall i, In i idx -> i < length xi0.
Local Notation get := (get idx).
Local Notation put := (put idx).
Local Notation ndim := (ndim idx).

Lemma get_put2 : forall v j k x, length v = length xi0 -> j < ndim -> k < ndim ->
  get (put v j x) k = if k =? j then x else get v k.
Proof.
  intros v j k x L Hj Hk. unfold DiffEvoModel.get, DiffEvoModel.put. destruct (Nat.eqb_spec k j) as [->|N].
  - apply nth_upd_eq. rewrite L. apply range, nth_In. auto.
  - apply nth_upd_neq. intro E. apply N. apply (NoDup_nth idx 0); auto.
Qed.

Definition mutant (c : choice) (pop1 : list (Q * ind)) (b : list Q) (f : Q) (j : nat) : Q :=
  clamp bounded pmin pmax j (get b j + f * (get (vec (snd (nth (ch_a c) pop1 (0%Q, dummy)))) j
                                          - get (vec (snd (nth (ch_b c) pop1 (0%Q, dummy)))) j)).
Theorem trial_composed : forall c pop1 i b f cr t, length t = length xi0 -> ch_j c < ndim ->
  forall j, j < ndim ->
  let x := get (cross bounded idx pmin pmax c pop1 i b f cr t) j in
  x = mutant c pop1 b f j \/ x = get (vec (snd (nth i pop1 (0%Q, dummy)))) j.
Proof.
  intros c pop1 i b f cr t L Hj. unfold cross. match goal with |- context [fold_left ?f (seq 1 _) _] => set (body := f) end.
  assert (G : forall m, m <= ndim -> let s := fold_left body (seq 1 m) (t, ch_j c) in
    snd s = (ch_j c + m) mod ndim /\ length (fst s) = length xi0 /\
    forall q, q < m -> let j := (ch_j c + q) mod ndim in
      get (fst s) j = mutant c pop1 b f j \/ get (fst s) j = get (vec (snd (nth i pop1 (0%Q, dummy)))) j).
  { induction m as [|m IH]; intros Hm s.
    - subst s. simpl. rewrite Nat.add_0_r, Nat.mod_small by auto. repeat split; auto. intros; lia.
    - subst s. rewrite seq_S, fold_left_app. cbn [fold_left].
      destruct (IH ltac:(lia)) as (A & B & C). destruct (fold_left body (seq 1 m) (t, ch_j c)) as [t1 j1]. cbn [fst snd] in A, B, C.
      assert (J : j1 < ndim) by (rewrite A; apply Nat.mod_upper_bound; lia).
      unfold body. cbn [fst snd]. split; [|split].
      + rewrite A. rewrite Nat.add_mod_idemp_l by lia. f_equal. lia.
      + unfold DiffEvoModel.put. rewrite upd_length. auto.
      + intros q Hq. set (jq := (ch_j c + q) mod ndim). assert (JQ : jq < ndim) by (apply Nat.mod_upper_bound; lia).
        rewrite get_put2 by auto. destruct (Nat.eqb_spec jq j1) as [E|E].
        * rewrite E. destruct (_ || _)%bool; [left; reflexivity|right; reflexivity].
        * apply (C q). destruct (Nat.eq_dec q m) as [->|]; [|lia]. exfalso. apply E. subst jq. auto. }
  intros j J. cbv zeta.
  destruct (G ndim (le_n _)) as (_ & _ & C).
  specialize (C ((j + (ndim - ch_j c)) mod ndim)).
  assert (E : (ch_j c + (j + (ndim - ch_j c)) mod ndim) mod ndim = j).
  { rewrite Nat.add_mod_idemp_r by lia. replace (ch_j c + (j + (ndim - ch_j c))) with (j + 1 * ndim) by lia.
    rewrite Nat.mod_add by lia. apply Nat.mod_small; auto. }
  cbv zeta in C. rewrite E in C. apply C. apply Nat.mod_upper_bound. lia.
Qed.

(** selection: without opposition step no candidate gets worse *)
Lemma gen_step_pop2 : forall pop1 chs g i, exists cp,
  pop2 (gen_step bounded costf idx pmin pmax pop1 chs g i) = pop2 g ++ [cp] /\
  (fst cp <= fst (nth i pop1 (0%Q, dummy)))%Q.
Proof.
  intros pop1 chs g i. unfold gen_step. destruct (nth i pop1 (0%Q, dummy)) as [ci pi]. cbn [fst].
  set (t := cross _ _ _ _ _ _ _ _ _ _ _). destruct (qltb (costf t) (min_cost g)); cbn [pop2];
  (eexists; split; [reflexivity|]);
  (destruct (Qle_bool (costf t) ci) eqn:E; cbn [fst]; [apply Qle_bool_iff; exact E|lra]).
Qed.
Lemma gen_fold_sel : forall pop1 chs n g, pop2 g = [] ->
  let g' := fold_left (gen_step bounded costf idx pmin pmax pop1 chs) (seq 0 n) g in
  length (pop2 g') = n /\ forall i, i < n -> (fst (nth i (pop2 g') (0%Q, dummy)) <= fst (nth i pop1 (0%Q, dummy)))%Q.
Proof.
  intros pop1 chs n g E. induction n as [|n [IH1 IH2]]; intros g'.
  - subst g'. simpl. rewrite E. split; auto. intros; lia.
  - subst g'. rewrite seq_S, fold_left_app. cbn [fold_left Nat.add].
    destruct (gen_step_pop2 pop1 chs (fold_left (gen_step bounded costf idx pmin pmax pop1 chs) (seq 0 n) g) n) as (cp & P & C).
    rewrite P. split; [rewrite app_length, IH1; simpl; lia|]. intros i Hi. destruct (Nat.eq_dec i n) as [->|N].
    + rewrite app_nth2 by lia. rewrite IH1, Nat.sub_diag. exact C.
    + rewrite app_nth1 by lia. apply IH2. lia.
Qed.
Theorem selection : forall chs jump flag s s', (bounded && jump)%bool = false ->
  generation bounded costf idx pmin pmax xi0 chs jump flag s = Some s' ->
  length (d_pop s') = NP xi0 /\
  forall i, i < NP xi0 -> (fst (nth i (d_pop s') (0%Q, dummy)) <= fst (nth i (d_pop s) (0%Q, dummy)))%Q.
Proof.
  intros chs jump flag s s' B H. unfold generation in H. rewrite B in H.
  destruct (gen_fold_sel (d_pop s) chs (NP xi0) (mk_g (d_trial s) (d_best s) (d_min s) 0 [] (d_evals s)) eq_refl) as (A & C).
  set (g := fold_left _ _ _) in *. clearbody g. injection H as <-. cbn [d_pop]. auto.
Qed.
End Compose.
