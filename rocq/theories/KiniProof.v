(** Proofs for C166. *)
From Coq Require Import Reals List Bool Arith Lia Lra.
From Verif Require Import KiniModel KiniSpec.
Import ListNotations.
Local Open Scope R_scope.

Section P.
Context {name : Type}.
Implicit Types (l : library name) (k : kim name).

Lemma species_some : forall s : list (option (name * option bool)),
  (forall x, In x s -> exists n b, x = Some (n, Some b)) <-> exists r, get_species s = Some r.
Proof.
  induction s as [|x s IH]; [split; [intros _; exists []; reflexivity|intros _ x []]|]. split.
  - intros H. destruct (H x (or_introl eq_refl)) as (n & b & ->). destruct (proj1 IH) as (r & R); [intros y Y; apply H; right; exact Y|].
    cbn. rewrite R. eexists. reflexivity.
  - intros (r & R) y Y. destruct x as [(n & [b|])|]; cbn in R; try discriminate. destruct (get_species s) as [q|] eqn:E; [|discriminate].
    destruct Y as [<-|Y]; [eauto|]. apply (proj2 IH); eauto.
Qed.
Lemma species_are : forall (s : list (option (name * option bool))) r, get_species s = Some r ->
  r = flat_map (fun x => match x with Some (n, Some true) => [n] | _ => [] end) s.
Proof.
  induction s as [|x s IH]; intros r H; [injection H as <-; reflexivity|]. destruct x as [(n & [b|])|]; cbn in H; try discriminate.
  destruct (get_species s) as [q|]; [|discriminate]. injection H as <-. cbn [flat_map]. rewrite <- (IH q eq_refl). destruct b; reflexivity.
Qed.
Lemma params_some : forall p t, (forall x, In x p -> usable x) <-> exists r, get_params p t = Some r.
Proof.
  induction p as [|x p IH]; intros t; [split; [intros _; eexists; reflexivity|intros _ x []]|]. split.
  - intros H. destruct (H x (or_introl eq_refl)) as (q & -> & E & T). destruct (proj1 (IH (t + p_extent q)%nat)) as ((r & n) & R); [intros y Y; apply H; right; exact Y|].
    cbn. destruct (Nat.eqb_spec (p_extent q) 0); [lia|]. rewrite R. destruct (p_type q); [eexists; reflexivity|eexists; reflexivity|contradiction].
  - intros (r & R) y Y. destruct x as [q|]; cbn in R; [|discriminate]. destruct (Nat.eqb_spec (p_extent q) 0); [discriminate|].
    destruct Y as [<-|Y].
    + exists q. split; [reflexivity|]. split; [lia|]. intro T. rewrite T in R. discriminate.
    + apply (proj2 (IH (t + p_extent q)%nat)); [|exact Y]. destruct (p_type q); try discriminate; (destruct (get_params p (t + p_extent q)) as [z|]; [eauto|discriminate]).
Qed.
Lemma accepted : forall l, acceptable l <-> exists k, init_kim_model l = Some k.
Proof.
  intros l. unfold init_kim_model, check_model_routines, acceptable. split.
  - intros (A & B & C & D & E & F & G). rewrite A, C. destruct (l_extension l) as [e|]; [|contradiction]. destruct (l_write l) as [w|]; [|contradiction].
    apply species_some in E. destruct E as (s & ->). destruct (Nat.ltb_spec (length (l_params l)) 1) as [L|L]; [destruct (l_params l); [contradiction|cbn in L; lia]|].
    apply (params_some _ 0) in G. destruct G as ((p & n) & ->). eauto.
  - intros (k & K). destruct (l_create l) as [[|]|]; try discriminate. destruct (l_extension l) as [e|]; [|discriminate]. destruct (l_refresh l) as [[|]|]; try discriminate.
    destruct (l_write l) as [w|]; [|discriminate]. destruct (get_species (l_species l)) as [s|] eqn:S; [|discriminate].
    destruct (Nat.ltb_spec (length (l_params l)) 1) as [L|L]; [discriminate|]. destruct (get_params (l_params l) 0) as [(p & n)|] eqn:P; [|discriminate].
    split; [reflexivity|]. split; [discriminate|]. split; [reflexivity|]. split; [discriminate|]. split; [apply species_some; eauto|].
    split; [intro X; rewrite X in L; cbn in L; lia|]. apply (params_some _ 0). eauto.
Qed.

Lemma init_parts : forall l k, init_kim_model l = Some k ->
  l_extension l = Some (k_extension k) /\ l_write l = Some (k_write k) /\
  get_species (l_species l) = Some (k_species k) /\ get_params (l_params l) 0 = Some (k_params k, k_total k).
Proof.
  intros l k K. unfold init_kim_model, check_model_routines in K.
  destruct (l_create l) as [[|]|]; try discriminate. destruct (l_extension l) as [e|]; [|discriminate]. destruct (l_refresh l) as [[|]|]; try discriminate.
  destruct (l_write l) as [w|]; [|discriminate]. destruct (get_species (l_species l)) as [s|] eqn:S; [|discriminate].
  destruct (Nat.ltb_spec (length (l_params l)) 1) as [L|L]; [discriminate|]. destruct (get_params (l_params l) 0) as [(p & n)|] eqn:P; [|discriminate].
  injection K as <-. cbn. auto.
Qed.
Lemma species_supported : forall l k, init_kim_model l = Some k ->
  l_extension l = Some (k_extension k) /\ l_write l = Some (k_write k) /\
  k_species k = flat_map (fun x => match x with Some (n, Some true) => [n] | _ => [] end) (l_species l).
Proof. intros l k K. destruct (init_parts l k K) as (A & B & C & _). split; [exact A|]. split; [exact B|]. apply species_are. exact C. Qed.

Definition vals (r : list (dtype * list R)) : list R := flat_map snd r.
Lemma params_vals : forall p t r n, get_params p t = Some (r, n) ->
  (n = t + length (vals r))%nat /\ length r = length p /\
  forall i q, nth_error p i = Some (Some q) ->
    (exists v, nth_error r i = Some (p_type q, v)) /\
    forall j, (j < p_extent q)%nat -> nth_error (vals r) (offset p i + j) = Some (get_value q j).
Proof.
  induction p as [|x p IH]; intros t r n H.
  - injection H as <- <-. split; [cbn; lia|]. split; [reflexivity|]. intros [|i] q Q; discriminate.
  - destruct x as [q|]; cbn in H; [|discriminate]. destruct (Nat.eqb_spec (p_extent q) 0) as [Z|Z]; [discriminate|].
    destruct (get_params p (t + p_extent q)) as [(r' & n')|] eqn:E.
    2: { destruct (p_type q); discriminate. }
    assert (H' : r = (p_type q, map (get_value q) (seq 0 (p_extent q))) :: r' /\ n = n') by (destruct (p_type q); inversion H; auto).
    destruct H' as (-> & ->). destruct (IH _ _ _ E) as (A & B & C). unfold vals. cbn [flat_map snd]. fold (vals r').
    set (v := map (get_value q) (seq 0 (p_extent q))). assert (V : length v = p_extent q) by (unfold v; rewrite map_length, seq_length; reflexivity).
    split; [rewrite app_length, V; lia|]. split; [cbn; lia|]. intros [|i] w W.
    + injection W as <-. split; [eexists; reflexivity|]. intros j J. cbn [offset plus]. rewrite nth_error_app1 by lia. unfold v.
      erewrite map_nth_error; [reflexivity|]. rewrite nth_error_nth' with (d := 0%nat) by (rewrite seq_length; exact J). rewrite seq_nth by exact J. reflexivity.
    + cbn in W. destruct (C i w W) as (C1 & C2). split; [exact C1|]. intros j J. cbn [offset]. rewrite nth_error_app2 by lia. rewrite V.
      replace (p_extent q + offset p i + j - p_extent q)%nat with (offset p i + j)%nat by lia. apply C2. exact J.
Qed.
Lemma defaults_vals : forall k, defaults k = map (fun v => (v, v, v)) (vals (k_params k)).
Proof.
  intros k. unfold defaults, vals. induction (k_params k) as [|p r IH]; [reflexivity|]. cbn [flat_map]. rewrite map_app, IH. reflexivity.
Qed.
Lemma free_all : forall v n, free_index v (fun _ => false) n = seq n (length v).
Proof. induction v as [|x v IH]; intros n; [reflexivity|]. cbn. rewrite IH. reflexivity. Qed.

Lemma default_values : forall l k, init_kim_model l = Some k ->
  length (defaults k) = k_total k /\
  fst (default_table k) = map (fun p => fst (fst p)) (defaults k) /\ snd (default_table k) = seq 0 (k_total k) /\
  forall i q j r, nth_error (l_params l) i = Some (Some q) -> (j < p_extent q)%nat -> p_get q j = Some r ->
    nth_error (defaults k) (offset (l_params l) i + j) = Some (r, r, r).
Proof.
  intros l k K. destruct (init_parts l k K) as (_ & _ & _ & P). destruct (params_vals _ _ _ _ P) as (A & B & C).
  assert (L : length (defaults k) = k_total k) by (rewrite defaults_vals, map_length; lia).
  split; [exact L|]. split; [reflexivity|]. split; [unfold default_table; cbn; rewrite free_all, map_length, L; reflexivity|].
  intros i q j r Q J G. rewrite defaults_vals. destruct (C i q Q) as (_ & C2). erewrite map_nth_error; [|apply C2; exact J].
  unfold get_value. rewrite G. reflexivity.
Qed.
Lemma default_range : forall k v a b, In (v, a, b) (defaults k) -> a = v /\ b = v.
Proof. intros k v a b H. rewrite defaults_vals in H. apply in_map_iff in H. destruct H as (w & W & _). injection W as <- <- <-. auto. Qed.
End P.

(** one parameter of which the second value is not available *)
Definition broken : library nat := Library (Some true) (Some false) (Some true) (Some false) [Some (7%nat, Some true); Some (8%nat, Some false)]
  [Some (Param Double 2 (fun j => match j with O => Some 5 | _ => None end))].
Lemma broken_taken : exists k, init_kim_model broken = Some k /\ nth_error (defaults k) 1 = Some (0, 0, 0).
Proof. eexists. split; reflexivity. Qed.
