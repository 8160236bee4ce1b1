(** Proofs about the checks of analytic potentials. *)
From Coq Require Import Reals ZArith List Bool String Lia Lra.
From Verif Require Import PairIndexModel PairIndexProof Vec NbrModel LoopUtil PairModel LammpsModel SwModel TersModel FuncModel ChkModel ChkSpec.
Import ListNotations.
Local Open Scope R_scope.

Lemma not_gt_iff : forall x y, not_gt x y = true <-> x <= y.
Proof. intros x y. unfold not_gt. destruct (Rlt_dec y x); split; intro; try discriminate; try reflexivity; lra. Qed.
Lemma not_lt_iff : forall x y, not_lt x y = true <-> y <= x.
Proof. intros x y. unfold not_lt. destruct (Rlt_dec x y); split; intro; try discriminate; try reflexivity; lra. Qed.
Lemma forallb_seq : forall f k, forallb f (seq 0 k) = true <-> forall i, (i < k)%nat -> f i = true.
Proof.
  intros f k. rewrite forallb_forall. split; intros H i I; apply H.
  - apply in_seq. lia.
  - apply in_seq in I. lia.
Qed.

Lemma col_lt : forall n a b, (a < n)%nat -> (b < n)%nat -> (col n a b < pcol n)%nat.
Proof.
  intros n a b A B. unfold col, pcol.
  destruct (pair_index_range (Z.of_nat n) (Z.of_nat a) (Z.of_nat b)) as [L H]; lia.
Qed.

(** ** acceptance *)
Lemma stiweb_accepts : forall n names pmax endr, check_stiweb n names pmax endr = true <->
  (forall i, (i < pcol n)%nat -> names i = "stiweb_2"%string /\ names (pcol n + i)%nat = "stiweb_3"%string /\
     pmax i 5%nat <= endr i /\ pmax (pcol n + i)%nat 1%nat <= endr (pcol n + i)%nat) /\
  names (2 * pcol n)%nat = "lambda"%string.
Proof.
  intros n names pmax endr. unfold check_stiweb. rewrite !andb_true_iff, !forallb_seq, String.eqb_eq. split.
  - intros [[A B] C]. split; [|exact B]. intros i I. specialize (A i I). specialize (C i I).
    rewrite andb_true_iff, !String.eqb_eq in A. rewrite andb_true_iff, !not_gt_iff in C. tauto.
  - intros [A B]. split; [split; [|exact B]|]; intros i I; destruct (A i I) as (A1 & A2 & A3 & A4).
    + rewrite andb_true_iff, !String.eqb_eq. auto.
    + rewrite andb_true_iff, !not_gt_iff. auto.
Qed.
Lemma tersoff_accepts : forall n names pmin pmax, check_tersoff n names pmin pmax = true <->
  (forall i, (i < pcol n)%nat -> names i = "tersoff_pot"%string /\ pmin i 10%nat <= pmax i 9%nat) /\
  (forall i, (i < n * (n - 1) / 2)%nat -> names (pcol n + i)%nat = "tersoff_mix"%string).
Proof.
  intros n names pmin pmax. unfold check_tersoff. rewrite !andb_true_iff, !forallb_seq. split.
  - intros [[A B] C]. split.
    + intros i I. specialize (A i I). specialize (C i I). rewrite String.eqb_eq in A. rewrite not_lt_iff in C. auto.
    + intros i I. apply String.eqb_eq. apply B. exact I.
  - intros [A B]. split; [split|]; intros i I.
    + apply String.eqb_eq. apply A. exact I.
    + apply String.eqb_eq. apply B. exact I.
    + apply not_lt_iff. apply A. exact I.
Qed.
Lemma tersoffmod_accepts : forall n names pmin pmax, check_tersoffmod n names pmin pmax = true <->
  forall i, (i < pcol n)%nat -> names i = "tersoff_mod_pot"%string /\ pmin i 14%nat <= pmax i 15%nat.
Proof.
  intros n names pmin pmax. unfold check_tersoffmod. rewrite !andb_true_iff, !forallb_seq. split.
  - intros [A C] i I. specialize (A i I). specialize (C i I). rewrite String.eqb_eq in A. rewrite not_lt_iff in C. auto.
  - intros A. split; intros i I; [apply String.eqb_eq|apply not_lt_iff]; apply A; exact I.
Qed.

(** ** steps that do nothing *)
Lemma fold_filter : forall {S A} (f : S -> A -> S) (keep : A -> bool) l s,
  (forall s x, In x l -> keep x = false -> f s x = s) -> fold_left f (filter keep l) s = fold_left f l s.
Proof.
  intros S A f keep l. induction l as [|x l IH]; intros s H; [reflexivity|]. cbn [filter].
  assert (H' : forall s y, In y l -> keep y = false -> f s y = s) by (intros s' y Y; apply H; right; exact Y).
  destruct (keep x) eqn:E; cbn [fold_left]; rewrite IH by exact H'; [reflexivity|]. rewrite H by (auto; left; reflexivity). reflexivity.
Qed.
Lemma picks_filter : forall {S A} (f : S -> A * list A -> S) (keep : A -> bool) l pre s,
  (forall s x o, In x l -> keep x = false -> f s (x, o) = s) ->
  (forall s x o, In x l -> (forall y, In y o -> In y (pre ++ l)) -> f s (x, filter keep o) = f s (x, o)) ->
  fold_left f (picks (filter keep pre) (filter keep l)) s = fold_left f (picks pre l) s.
Proof.
  intros S A f keep l. induction l as [|x l IH]; intros pre s H1 H2; [reflexivity|]. cbn [filter picks fold_left].
  assert (R : forall s, fold_left f (picks (filter keep (pre ++ [x])) (filter keep l)) s = fold_left f (picks (pre ++ [x]) l) s).
  { intro s0. apply IH.
    - intros s1 y o Y. apply H1. right. exact Y.
    - intros s1 y o Y O. apply H2; [right; exact Y|]. intros z Z. specialize (O z Z). rewrite <- app_assoc in O. exact O. }
  rewrite filter_app in R. cbn [filter] in R. destruct (keep x) eqn:E.
  - cbn [picks fold_left]. rewrite R. rewrite <- filter_app. rewrite H2; [reflexivity|left; reflexivity|].
    intros y Y. apply in_app_or in Y. apply in_or_app. destruct Y as [Y|Y]; [left; exact Y|right; right; exact Y].
  - rewrite app_nil_r in R. rewrite R. rewrite H1; [reflexivity|left; reflexivity|exact E].
Qed.

Section Near.
Variable bld : build.
Variable pow0 : R -> R -> R.
Variable V : nat -> nat -> R.
Variable n : nat.
Variables eweight sweight punish : R.
Variable reach : nat -> R.

Lemma body_near : forall ci c (atom : nat -> conf -> nat -> dev -> dev) s,
  (forall i s, atom ci (near n reach c) i s = atom ci c i s) ->
  config_body bld eweight sweight atom ci (near n reach c) s = config_body bld eweight sweight atom ci c s.
Proof.
  intros ci c atom s H. unfold config_body. cbv zeta.
  change (cnfstart (near n reach c)) with (cnfstart c). change (inconf (near n reach c)) with (inconf c).
  change (reset_conf bld (fun _ => 0) ci (near n reach c) s) with (reset_conf bld (fun _ => 0) ci c s).
  change (reset_atom (near n reach c)) with (reset_atom c).
  change (score_atom bld (near n reach c)) with (score_atom bld c).
  rewrite (for_up_ext _ _ (atom ci (near n reach c)) (atom ci c)) by (intros; apply H). reflexivity.
Qed.
Lemma frame_near : forall atom cs nconf s,
  (forall ci i s, (ci < nconf)%nat -> atom ci (near n reach (cs ci)) i s = atom ci (cs ci) i s) ->
  frame bld eweight sweight punish atom (fun ci => near n reach (cs ci)) nconf s = frame bld eweight sweight punish atom cs nconf s.
Proof.
  intros atom cs nconf s H. unfold frame. cbv zeta.
  rewrite (for_up_ext _ _ (fun ci => config_body bld eweight sweight atom ci (near n reach (cs ci)))
             (fun ci => config_body bld eweight sweight atom ci (cs ci))); [reflexivity|].
  intros ci s0 I. apply body_near. intros i s1. apply H. lia.
Qed.

Definition kept (c : conf) (i : nat) (e : neigh) : bool :=
  if Rlt_dec (n_r e) (reach (col n (typ c i) (n_type e))) then true else false.
Lemma kept_false : forall c i e, kept c i e = false -> reach (col n (typ c i) (n_type e)) <= n_r e.
Proof. intros c i e. unfold kept. destruct (Rlt_dec (n_r e) (reach (col n (typ c i) (n_type e)))); [discriminate|]. intros _. lra. Qed.

Section StiWeb.
Variable lam : nat -> nat -> nat -> R.
Hypothesis R1 : forall k, (k < pcol n)%nat -> V k 5%nat <= reach k.
Hypothesis R2 : forall k, (k < pcol n)%nat -> V (pcol n + k)%nat 1%nat <= reach k.
Lemma sw_triples_near : forall ci c i l s, (typ c i < n)%nat -> (forall e, In e l -> (n_type e < n)%nat) ->
  SwModel.triples bld V lam n ci c i (filter (kept c i) l) s = SwModel.triples bld V lam n ci c i l s.
Proof using R2.
  intros ci c i l. induction l as [|x l IH]; intros s T H; [reflexivity|]. cbn [filter].
  assert (H' : forall e, In e l -> (n_type e < n)%nat) by (intros e E; apply H; right; exact E).
  assert (F : forall s, fold_left (SwModel.tri_body bld V lam n ci c i x) (filter (kept c i) l) s = fold_left (SwModel.tri_body bld V lam n ci c i x) l s).
  { intro s0. apply fold_filter. intros s1 y Y K. apply kept_false in K. unfold SwModel.tri_body. cbv zeta.
    destruct (Req_EM_T 0 (lam (typ c i) (n_type x) (n_type y))); [reflexivity|].
    destruct (Rlt_dec (n_r y) (V (pcol n + col n (typ c i) (n_type y))%nat 1%nat)) as [L|L]; [|reflexivity].
    pose proof (R2 _ (col_lt n _ _ T (H' y Y))). lra. }
  destruct (kept c i x) eqn:E; cbn [SwModel.triples]; rewrite IH by assumption.
  - destruct (Rlt_dec (n_r x) (V (pcol n + col n (typ c i) (n_type x))%nat 1%nat)); [rewrite F|]; reflexivity.
  - apply kept_false in E. destruct (Rlt_dec (n_r x) (V (pcol n + col n (typ c i) (n_type x))%nat 1%nat)) as [L|L]; [|reflexivity].
    pose proof (R2 _ (col_lt n _ _ T (H x (or_introl eq_refl)))). lra.
Qed.
Lemma sw_atom_near : forall ci c i s, typed n c ->
  SwModel.atom_body bld pow0 V lam n ci (near n reach c) i s = SwModel.atom_body bld pow0 V lam n ci c i s.
Proof using R1 R2.
  intros ci c i s T. destruct (T i) as [T1 T2].
  assert (X : forall l s, SwModel.triples bld V lam n ci (near n reach c) i l s = SwModel.triples bld V lam n ci c i l s).
  { induction l as [|x l IH]; intro s0; [reflexivity|]. cbn [SwModel.triples]. rewrite IH. reflexivity. }
  change (SwModel.atom_body bld pow0 V lam n ci (near n reach c) i s) with
    (SwModel.triples bld V lam n ci (near n reach c) i (filter (kept c i) (nb c i)) (fold_left (SwModel.pair_body bld pow0 V n ci c i) (filter (kept c i) (nb c i)) s)).
  unfold SwModel.atom_body. rewrite X. rewrite sw_triples_near by assumption. f_equal. apply fold_filter.
  intros s1 y Y K. apply kept_false in K. unfold SwModel.pair_body. cbv zeta.
  destruct (Rlt_dec (n_r y) (V (col n (typ c i) (n_type y)) 5%nat)) as [L|L]; [|reflexivity].
  pose proof (R1 _ (col_lt n _ _ T1 (T2 y Y))). lra.
Qed.
Lemma sw_near : forall cs nconf s, (forall ci, (ci < nconf)%nat -> typed n (cs ci)) ->
  SwModel.calc_forces bld pow0 V lam n eweight sweight punish (fun ci => near n reach (cs ci)) nconf s =
  SwModel.calc_forces bld pow0 V lam n eweight sweight punish cs nconf s.
Proof using R1 R2.
  intros cs nconf s T. apply (frame_near (SwModel.atom_body bld pow0 V lam n)). intros ci i s0 C. apply sw_atom_near. apply T. exact C.
Qed.
End StiWeb.

Section Tersoff.
Variable omega : nat -> R.
Hypothesis R9 : forall k, (k < pcol n)%nat -> V k 9%nat <= reach k.
Lemma ters_near : forall cs nconf s, (forall ci, (ci < nconf)%nat -> typed n (cs ci)) ->
  TersModel.calc_forces bld pow0 V n eweight sweight punish omega (fun ci => near n reach (cs ci)) nconf s =
  TersModel.calc_forces bld pow0 V n eweight sweight punish omega cs nconf s.
Proof using R9.
  intros cs nconf s T. apply (frame_near (TersModel.atom_body bld pow0 V n omega)). intros ci i s0 C. specialize (T ci C).
  generalize (cs ci) T. clear T C cs. intros c T. destruct (T i) as [T1 T2].
  change (TersModel.atom_body bld pow0 V n omega ci (near n reach c) i s0) with
    (fold_left (TersModel.bond_body bld pow0 V n omega ci c i) (picks (filter (kept c i) []) (filter (kept c i) (nb c i)))
      (fold_left (TersModel.pair_body bld V n ci c i) (filter (kept c i) (nb c i)) s0)).
  unfold TersModel.atom_body. rewrite picks_filter.
  - f_equal. apply fold_filter. intros s1 y Y K. apply kept_false in K. unfold TersModel.pair_body. cbv zeta.
    destruct (Rlt_dec (n_r y) (V (col n (typ c i) (n_type y)) 9%nat)) as [L|L]; [|reflexivity].
    pose proof (R9 _ (col_lt n _ _ T1 (T2 y Y))). lra.
  - intros s1 y o Y K. apply kept_false in K. unfold TersModel.bond_body. cbv zeta. cbn [fst].
    destruct (Rlt_dec (n_r y) (V (col n (typ c i) (n_type y)) 9%nat)) as [L|L]; [|reflexivity].
    pose proof (R9 _ (col_lt n _ _ T1 (T2 y Y))). lra.
  - intros s1 y o Y O. unfold TersModel.bond_body. cbv zeta. cbn [fst snd]. rewrite fold_filter; [reflexivity|].
    intros z x X K. apply kept_false in K. unfold TersModel.inner. cbv zeta.
    destruct (Rlt_dec (n_r x) (V (col n (typ c i) (n_type x)) 9%nat)) as [L|L]; [|reflexivity].
    pose proof (R9 _ (col_lt n _ _ T1 (T2 x (O x X)))). lra.
Qed.
End Tersoff.
Section Mod.
Hypothesis R15 : forall k, (k < pcol n)%nat -> V k 15%nat <= reach k.
Lemma mod_near : forall cs nconf s, (forall ci, (ci < nconf)%nat -> typed n (cs ci)) ->
  TersModel.mod_calc_forces bld pow0 V n eweight sweight punish (fun ci => near n reach (cs ci)) nconf s =
  TersModel.mod_calc_forces bld pow0 V n eweight sweight punish cs nconf s.
Proof using R15.
  intros cs nconf s T. apply (frame_near (TersModel.mod_atom_body bld pow0 V n)). intros ci i s0 C. specialize (T ci C).
  generalize (cs ci) T. clear T C cs. intros c T. destruct (T i) as [T1 T2].
  change (TersModel.mod_atom_body bld pow0 V n ci (near n reach c) i s0) with
    (fold_left (TersModel.mod_bond_body bld pow0 V n ci c i) (picks (filter (kept c i) []) (filter (kept c i) (nb c i)))
      (fold_left (TersModel.mod_pair_body bld V n ci c i) (filter (kept c i) (nb c i)) s0)).
  unfold TersModel.mod_atom_body. rewrite picks_filter.
  - f_equal. apply fold_filter. intros s1 y Y K. apply kept_false in K. unfold TersModel.mod_pair_body. cbv zeta.
    destruct (Rlt_dec (n_r y) (V (col n (typ c i) (n_type y)) 15%nat)) as [L|L]; [|reflexivity].
    pose proof (R15 _ (col_lt n _ _ T1 (T2 y Y))). lra.
  - intros s1 y o Y K. apply kept_false in K. unfold TersModel.mod_bond_body. cbv zeta. cbn [fst].
    destruct (Rlt_dec (n_r y) (V (col n (typ c i) (n_type y)) 15%nat)) as [L|L]; [|reflexivity].
    pose proof (R15 _ (col_lt n _ _ T1 (T2 y Y))). lra.
  - intros s1 y o Y O. unfold TersModel.mod_bond_body. cbv zeta. cbn [fst snd]. rewrite fold_filter; [reflexivity|].
    intros [d z] x X K. apply kept_false in K. unfold TersModel.mod_inner. cbv zeta.
    destruct (Rlt_dec (n_r x) (V (col n (typ c i) (n_type x)) 15%nat)) as [L|L]; [|reflexivity].
    pose proof (R15 _ (col_lt n _ _ T1 (T2 x (O x X)))). lra.
Qed.
End Mod.
End Near.

(** ** witnesses *)
Definition at_r (r : R) : neigh := mk_neigh 0 1 r (r * r) (/ r) (V3 1 0 0) (V3 r 0 0) (0, 0, 0)%Z.
Definition one_atom (r : R) : conf :=
  mk_conf 0 1 false false 1 1 (fun _ => [at_r r]) (fun _ => 0%nat) (fun _ => true) (fun _ => 0) (fun _ => v0) 0 (fun _ => 0).
Definition V_ex (k j : nat) : R := match j with 0%nat => 1 | 9%nat => 3 | 10%nat => 2 | _ => 0 end.
Lemma ters_cutoff : exists n names pmin pmax endr V c,
  check_tersoff n names pmin pmax = true /\ (forall k j, pmin k j <= V k j <= pmax k j) /\ typed n c /\
  forall bld pow0 omega s,
    en (TersModel.atom_body bld pow0 V n omega 0 (near n endr c) 0 s) 0 <> en (TersModel.atom_body bld pow0 V n omega 0 c 0 s) 0.
Proof.
  exists 1%nat, (fun _ => "tersoff_pot"%string), V_ex, V_ex, (fun _ => 1), V_ex, (one_atom 1).
  split.
  { apply tersoff_accepts. split.
    - intros i I. split; [reflexivity|]. cbn. lra.
    - intros i I. cbn in I. lia. }
  split; [intros; lra|].
  split. { intro i. split; [cbn; lia|]. intros e [<-|[]]. cbn. lia. }
  intros bld pow0 omega s.
  unfold TersModel.atom_body. cbn [nb near one_atom filter n_r at_r].
  destruct (Rlt_dec 1 1) as [L|_]; [lra|]. cbn [picks fold_left].
  unfold TersModel.bond_body. cbv zeta. cbn [fst snd n_r at_r V_ex].
  destruct (Rlt_dec 1 3) as [_|L]; [|lra]. destruct (Req_EM_T 0 0) as [_|N]; [|lra].
  unfold TersModel.pair_body, rep_body, TersModel.cut_f. cbv zeta. cbn [n_r at_r V_ex n_nr uf one_atom Nat.eqb].
  destruct (Rlt_dec 1 3) as [_|L]; [|lra]. destruct (Rlt_dec 1 2) as [_|L]; [|lra].
  cbn [en]. unfold setf. cbn [Nat.eqb]. replace (- 0 * 1) with 0 by ring. rewrite exp_0. lra.
Qed.
Lemma refused_order : forall n names pmin pmax,
  (forall i, (i < pcol n)%nat -> names i = "tersoff_pot"%string) ->
  (forall i, (i < n * (n - 1) / 2)%nat -> names (pcol n + i)%nat = "tersoff_mix"%string) ->
  check_tersoff n names pmin pmax = false ->
  exists i, (i < pcol n)%nat /\ forall V : nat -> nat -> R, (forall k j, pmin k j <= V k j <= pmax k j) -> V i 9%nat < V i 10%nat.
Proof.
  intros n names pmin pmax N1 N2 C.
  destruct (forallb (fun i => not_lt (pmax i 9%nat) (pmin i 10%nat)) (seq 0 (pcol n))) eqn:E.
  - exfalso. assert (T : check_tersoff n names pmin pmax = true); [|congruence].
    apply tersoff_accepts. split; [|exact N2]. intros i I. split; [apply N1; exact I|]. apply not_lt_iff. revert i I. apply forallb_seq. exact E.
  - assert (X : existsb (fun i => negb (not_lt (pmax i 9%nat) (pmin i 10%nat))) (seq 0 (pcol n)) = true).
    { clear - E. induction (seq 0 (pcol n)) as [|x l IH]; [discriminate|]. cbn in *. destruct (not_lt (pmax x 9%nat) (pmin x 10%nat)); cbn in *; auto. }
    apply existsb_exists in X. destruct X as (i & I & X). apply in_seq in I. exists i. split; [lia|]. intros V B.
    apply negb_true_iff in X. unfold not_lt in X. destruct (Rlt_dec (pmax i 9%nat) (pmin i 10%nat)) as [L|]; [|discriminate].
    pose proof (B i 9%nat). pose proof (B i 10%nat). lra.
Qed.
Lemma no_order : exists n names pmin pmax, check_tersoff n names pmin pmax = true /\
  forall V : nat -> nat -> R, (forall k j, pmin k j <= V k j <= pmax k j) -> ~ V 0%nat 10%nat < V 0%nat 9%nat.
Proof.
  exists 1%nat, (fun _ => "tersoff_pot"%string), (fun _ _ => 2), (fun _ _ => 2). split.
  - apply tersoff_accepts. split; [|intros i I; cbn in I; lia]. intros i I. split; [reflexivity|lra].
  - intros V B. pose proof (B 0%nat 9%nat). pose proof (B 0%nat 10%nat). lra.
Qed.
Lemma exchange : exists n names pmin pmax p p', check_tersoff n names pmin pmax = true /\
  (forall j, (j < 11)%nat -> pmin 0%nat j <= p (2 + j)%nat <= pmax 0%nat j) /\
  apot_check_params 0 true [(TersoffPot, false)] p = Some p' /\ pmax 0%nat 9%nat < p' 11%nat.
Proof.
  exists 1%nat, (fun _ => "tersoff_pot"%string), (fun _ _ => 1), (fun _ j => if Nat.eqb j 9 then 2 else 3),
    (fun a => if Nat.eqb a 12 then 3 else 2).
  eexists. split.
  - apply tersoff_accepts. split; [|intros i I; cbn in I; lia]. intros i I. split; [reflexivity|cbn; lra].
  - split.
    + intros j J. do 11 (destruct j as [|j]; [cbn; lra|]). lia.
    + split; [cbn; reflexivity|]. cbn. destruct (Rlt_dec 2 3) as [_|L]; [|lra]. cbn. lra.
Qed.
Lemma mod_order : exists n names pmin pmax V, check_tersoffmod n names pmin pmax = true /\
  (forall k j, pmin k j <= V k j <= pmax k j) /\ V 0%nat 15%nat < V 0%nat 14%nat /\
  (forall r, r < V 0%nat 15%nat -> mod_f V 0 r = 1) /\ mod_f V 0 (V 0%nat 15%nat) = 0.
Proof.
  exists 1%nat, (fun _ => "tersoff_mod_pot"%string), (fun _ _ => 1), (fun _ _ => 3), (fun _ j => if Nat.eqb j 15 then 1 else 2).
  split; [|split; [|split; [cbn; lra|split]]].
  - apply tersoffmod_accepts. intros i I. split; [reflexivity|lra].
  - intros k j. destruct (Nat.eqb j 15); lra.
  - intros r L. cbn in L. unfold mod_f. cbn. destruct (Rlt_dec r 1) as [_|N]; [|lra]. destruct (Rlt_dec r 2) as [_|N]; [reflexivity|lra].
  - unfold mod_f. cbn. destruct (Rlt_dec 1 1) as [N|_]; [lra|reflexivity].
Qed.
Lemma stiweb_near : forall bld pow0 V n eweight sweight punish reach lam names pmax endr,
  check_stiweb n names pmax endr = true ->
  (forall k j, (k < 2 * pcol n)%nat -> V k j <= pmax k j) ->
  (forall k, (k < pcol n)%nat -> endr k <= reach k /\ endr (pcol n + k)%nat <= reach k) ->
  forall cs nconf s, (forall ci, (ci < nconf)%nat -> typed n (cs ci)) ->
  SwModel.calc_forces bld pow0 V lam n eweight sweight punish (fun ci => near n reach (cs ci)) nconf s =
  SwModel.calc_forces bld pow0 V lam n eweight sweight punish cs nconf s.
Proof.
  exact (fun bld pow0 V n eweight sweight punish reach lam names pmax endr C B R =>
    sw_near bld pow0 V n eweight sweight punish reach lam
      (fun k K => Rle_trans _ _ _ (B k 5%nat ltac:(lia)) (Rle_trans _ _ _ (proj1 (proj2 (proj2 (proj1 (proj1 (stiweb_accepts n names pmax endr) C) k K)))) (proj1 (R k K))))
      (fun k K => Rle_trans _ _ _ (B (pcol n + k)%nat 1%nat ltac:(lia)) (Rle_trans _ _ _ (proj2 (proj2 (proj2 (proj1 (proj1 (stiweb_accepts n names pmax endr) C) k K)))) (proj2 (R k K))))).
Qed.
