(** Proofs about the LAMMPS export: Tersoff. *)
From Coq Require Import Reals ZArith List Bool Lia Lra.
From Verif Require Import Vec PairIndexModel LammpsModel LammpsSpec LammpsProof.
Import ListNotations.
Local Open Scope R_scope.

Definition as_pairs (l : list nbk) : list (nat * R) := map (fun e => (k_typ e, k_r e)) l.
Lemma as_pairs_r : forall l k, nb_r (as_pairs l) k = k_r (nth k l (mk_nbk 0 0)).
Proof. intros. unfold nb_r, as_pairs. change (0%nat, 0) with ((fun e => (k_typ e, k_r e)) (mk_nbk 0 0)). rewrite map_nth. auto. Qed.
Lemma as_pairs_typ : forall l k, nb_typ (as_pairs l) k = k_typ (nth k l (mk_nbk 0 0)).
Proof. intros. unfold nb_typ, as_pairs. change (0%nat, 0) with ((fun e => (k_typ e, k_r e)) (mk_nbk 0 0)). rewrite map_nth. auto. Qed.
Lemma sum_others : forall (f : nat -> R) l j,
  rsumf f (others (as_pairs l) j) = rsumf (fun k => if Nat.eqb k j then 0 else f k) (seq 0 (length l)).
Proof.
  intros f l j. unfold others. rewrite rsumf_filter. unfold as_pairs. rewrite map_length. apply rsumf_ext.
  intros k _. destruct (Nat.eqb k j); auto.
Qed.
Lemma shifted_cos : forall S R r, R < S ->
  cos (PI / (S - R) * (r - R)) = - sin (PI / 2 * ((r - 1 / 2 * (S + R)) / (1 / 2 * (S - R)))).
Proof.
  intros S R r H. rewrite sin_cos. rewrite Ropp_involutive. f_equal. field. lra.
Qed.
Lemma sin_end : forall S R, R < S -> sin (PI / 2 * ((S - 1 / 2 * (S + R)) / (1 / 2 * (S - R)))) = 1.
Proof. intros S R H. replace ((S - 1 / 2 * (S + R)) / (1 / 2 * (S - R))) with 1 by (field; lra). rewrite Rmult_1_r. apply sin_PI2. Qed.

Section TS.
Variable pow0 : R -> R -> R.
Hypothesis zero_pow : forall y, 0 < y -> pow0 0 y = 0.
Variables (V : nat -> nat -> R) (n : nat) (omega chi : nat -> R).
Notation file := (write_ts (fun x => x) V n omega chi).

Definition ts_exported (i j k : nat) : ts_entry :=
  let c := col n i j in
  mk_ts 1 (omega c) 0 (V c 6%nat) (V c 7%nat) (V c 8%nat) (V c 5%nat) (V c 4%nat) (V c 3%nat) (V c 1%nat * chi c)
    (1 / 2 * (V c 9%nat + V c 10%nat)) (1 / 2 * (V c 9%nat - V c 10%nat)) (V c 2%nat) (V c 0%nat).
Lemma ts_entry_ok : forall i j k, (i < n)%nat -> (j < n)%nat -> (k < n)%nat ->
  ts_of (lookup file i j k) = Some (ts_exported i j k).
Proof.
  intros i j k Li Lj Lk. unfold write_ts. change (@triples_of n line) with (@triples_of n entry_line).
  rewrite lookup_triples by (auto; intros; reflexivity). reflexivity.
Qed.

Definition ts_good (c : nat) : Prop := V c 10%nat < V c 9%nat /\ 0 < V c 4%nat /\ 0 < V c 5%nat /\ V c 7%nat <> 0 /\ 0 <= omega c.
Lemma fC_eq : forall i j k r, V (col n i j) 10%nat < V (col n i j) 9%nat -> ts_fC (ts_exported i j k) r = ts_f V (col n i j) r.
Proof.
  intros i j k r H. unfold ts_fC, ts_f, ts_exported. cbv zeta. cbn [t_R t_D]. set (c := col n i j) in *.
  destruct (Rlt_dec r (1 / 2 * (V c 9%nat + V c 10%nat) - 1 / 2 * (V c 9%nat - V c 10%nat))) as [A|A].
  - destruct (Rlt_dec r (V c 9%nat)); [|lra]. destruct (Rlt_dec r (V c 10%nat)); [auto|lra].
  - destruct (Rlt_dec (1 / 2 * (V c 9%nat + V c 10%nat) + 1 / 2 * (V c 9%nat - V c 10%nat)) r) as [B|B].
    + destruct (Rlt_dec r (V c 9%nat)); [lra|auto].
    + destruct (Rlt_dec r (V c 9%nat)) as [L|L].
      * destruct (Rlt_dec r (V c 10%nat)); [lra|]. rewrite shifted_cos by auto. ring.
      * replace r with (V c 9%nat) by lra. rewrite sin_end by auto. lra.
Qed.
Lemma ts_f_nonneg : forall c r, 0 <= ts_f V c r.
Proof.
  intros c r. unfold ts_f. destruct (Rlt_dec _ _); [|lra]. cbv zeta. destruct (Rlt_dec r (V c 10%nat)); [lra|].
  pose proof (COS_bound (PI / (V c 9%nat - V c 10%nat) * (r - V c 10%nat))). lra.
Qed.
Lemma ts_g_ge1 : forall c x, V c 7%nat <> 0 -> 1 <= ts_g V c x.
Proof.
  intros c x D. unfold ts_g. cbv zeta. set (d := V c 7%nat) in *. set (t := V c 8%nat - x). set (a := V c 6%nat).
  assert (0 < d * d) by (pose proof (Rsqr_pos_lt d D); unfold Rsqr in *; auto).
  assert (0 <= t * t) by (pose proof (Rle_0_sqr t); unfold Rsqr in *; auto).
  assert (0 <= a * a) by (pose proof (Rle_0_sqr a); unfold Rsqr in *; auto).
  assert (/ (d * d + t * t) <= / (d * d)) by (apply Rinv_le_contravar; lra).
  assert (a * a * (/ (d * d + t * t)) <= a * a * / (d * d)) by (apply Rmult_le_compat_l; auto).
  unfold Rdiv. lra.
Qed.
Lemma zeta_nonneg : forall i j l cosjk, (forall c, 0 <= omega c) -> V (col n i (k_typ (nth j l (mk_nbk 0 0)))) 7%nat <> 0 ->
  0 <= ts_zeta V n omega i j l cosjk.
Proof.
  intros i j l cosjk W D. unfold ts_zeta. cbv zeta. apply rsumf_nonneg. intros k _. destruct (Nat.eqb k j); [lra|].
  destruct (Rlt_dec _ _); [|lra]. pose proof (ts_g_ge1 _ (cosjk j k) D). apply Rmult_le_pos; [|lra]. apply Rmult_le_pos; auto. apply ts_f_nonneg.
Qed.
Lemma cpow_mult : forall b z e, 0 < b -> 0 <= z -> 0 < e -> cpow pow0 (b * z) e = cpow pow0 b e * cpow pow0 z e.
Proof.
  intros b z e B Z E. unfold cpow. destruct (Rlt_dec 0 b); [|tauto]. destruct (Rlt_dec 0 z).
  - destruct (Rlt_dec 0 (b * z)) as [|N]; [|exfalso; apply N; apply Rmult_lt_0_compat; auto]. rewrite Rpower_mult_distr; auto.
  - replace z with 0 by lra. rewrite Rmult_0_r. destruct (Rlt_dec 0 0); [lra|]. rewrite zero_pow by auto. ring.
Qed.

(** The pairs of the central type share the cutoff and omega, and chi is one *)
Definition uniform (i : nat) : Prop := forall j k, (j < n)%nat -> (k < n)%nat ->
  V (col n i j) 9%nat = V (col n i k) 9%nat /\ V (col n i j) 10%nat = V (col n i k) 10%nat /\ omega (col n i j) = omega (col n i k).

Theorem ts_cutoff : forall i j, (i < n)%nat -> (j < n)%nat -> V (col n i j) 10%nat < V (col n i j) 9%nat ->
  exists e, ts_of (lookup file i j j) = Some e /\ forall r, ts_fC e r = ts_f V (col n i j) r.
Proof. intros i j Li Lj H. exists (ts_exported i j j). split; [apply ts_entry_ok; auto|]. intros r. apply fC_eq; auto. Qed.

Theorem ts_same_bond : forall i, (i < n)%nat -> (forall j, (j < n)%nat -> ts_good (col n i j)) ->
  (forall c, 0 <= omega c) -> (forall c, chi c = 1) -> uniform i ->
  exists ent : nat -> nat -> ts_entry,
    (forall j k, (j < n)%nat -> (k < n)%nat -> ts_of (lookup file i j k) = Some (ent j k)) /\
    forall l cosjk j, (j < length l)%nat -> (forall e, In e l -> (k_typ e < n)%nat) ->
      let tj := k_typ (nth j l (mk_nbk 0 0)) in
      lbond (cpow pow0) (as_pairs l) cosjk (ent tj tj) (ent tj) j = ts_bond pow0 V n omega i j l cosjk.
Proof.
  intros i Li G W C U. exists (ts_exported i). split; [intros; apply ts_entry_ok; auto|].
  intros l cosjk j Lj T. cbv zeta. set (ej := nth j l (mk_nbk 0 0)). set (tj := k_typ ej).
  assert (Tj : (tj < n)%nat) by (apply T, nth_In; auto).
  destruct (G tj Tj) as (SR & BE & N & D & _).
  assert (Z : lzeta (cpow pow0) (as_pairs l) cosjk (ts_exported i tj) j = ts_zeta V n omega i j l cosjk).
  { unfold lzeta, ts_zeta. rewrite sum_others. cbv zeta. apply rsumf_ext. intros k K. apply in_seq in K.
    destruct (Nat.eqb k j); auto. rewrite as_pairs_typ, !as_pairs_r. fold ej. fold tj. set (ek := nth k l (mk_nbk 0 0)).
    assert (Tk : (k_typ ek < n)%nat) by (apply T, nth_In; lia).
    rewrite fC_eq by auto. destruct (U tj (k_typ ek) Tj Tk) as (U1 & U2 & U3).
    assert (F : ts_f V (col n i tj) (k_r ek) = ts_f V (col n i (k_typ ek)) (k_r ek)) by (unfold ts_f; rewrite U1, U2; auto).
    rewrite F. unfold ts_gth, ts_exported. cbv zeta. cbn [t_gamma t_c t_d t_cos0 t_lambda3 t_m].
    replace (cpow pow0 0 1) with 0 by (unfold cpow; destruct (Rlt_dec 0 0); [lra|symmetry; apply zero_pow; lra]).
    rewrite Rmult_0_l, exp_0, U3. fold tj. 
    assert (GG : 1 + V (col n i tj) 6%nat ^ 2 / V (col n i tj) 7%nat ^ 2 - V (col n i tj) 6%nat ^ 2 / (V (col n i tj) 7%nat ^ 2 + (cosjk j k - V (col n i tj) 8%nat) ^ 2) = ts_g V (col n i tj) (cosjk j k)).
    { unfold ts_g. cbv zeta. set (a := V (col n i tj) 6%nat). set (d := V (col n i tj) 7%nat) in *. set (h := V (col n i tj) 8%nat).
      assert (0 < d * d) by (pose proof (Rsqr_pos_lt d D); unfold Rsqr in *; auto).
      assert (0 <= (h - cosjk j k) * (h - cosjk j k)) by (pose proof (Rle_0_sqr (h - cosjk j k)); unfold Rsqr in *; auto).
      replace (d ^ 2) with (d * d) by ring. replace ((cosjk j k - h) ^ 2) with ((h - cosjk j k) * (h - cosjk j k)) by ring. field. split; lra. }
    rewrite GG. destruct (Rlt_dec (k_r ek) (V (col n i (k_typ ek)) 9%nat)) as [L|L]; [ring|].
    unfold ts_f. destruct (Rlt_dec _ _); [tauto|ring]. }
  unfold lbond, ts_bond. rewrite Z. cbv zeta. rewrite as_pairs_r. fold ej. fold tj. rewrite fC_eq by auto.
  unfold ts_exported. cbv zeta. cbn [t_A t_B t_lambda1 t_lambda2 t_n t_beta]. rewrite C, Rmult_1_r.
  assert (ZN : 0 <= ts_zeta V n omega i j l cosjk) by (apply zeta_nonneg; auto).
  rewrite <- cpow_mult by auto.
  destruct (Rlt_dec (k_r ej) (V (col n i tj) 9%nat)) as [L|L].
  - destruct (Req_EM_T (V (col n i tj) 1%nat) 0) as [B|B]; [rewrite B; ring|].
    ring.
  - unfold ts_f. destruct (Rlt_dec _ _); [tauto|ring].
Qed.
End TS.

(** ** tersoff/mod *)
Section TM.
Variable pow0 : R -> R -> R.
Variables (V : nat -> nat -> R) (n : nat).
Notation file := (write_tm (fun x => x) V n).
Definition tm_exported (i j k : nat) : tm_entry :=
  let c := col n i j in
  mk_tm (V c 7%nat) (V c 6%nat) (V c 13%nat) (V c 4%nat) 1 (V c 3%nat) (V c 1%nat)
    (1 / 2 * (V c 14%nat + V c 15%nat)) (1 / 2 * (V c 15%nat - V c 14%nat)) (V c 2%nat) (V c 0%nat) (1 / (2 * V c 5%nat))
    (V c 8%nat) (V c 9%nat) (V c 10%nat) (V c 11%nat) (V c 12%nat).
Lemma tm_entry_ok : forall i j k, (i < n)%nat -> (j < n)%nat -> (k < n)%nat -> V (col n i j) 5%nat <> 0 ->
  tm_of (lookup file i j k) = Some (tm_exported i j k).
Proof.
  intros i j k Li Lj Lk D. unfold write_tm. change (@triples_of n line) with (@triples_of n entry_line).
  rewrite lookup_triples by (auto; intros; reflexivity). unfold tm_line. cbv zeta. cbn [snd map]. unfold put, quot.
  destruct (Req_EM_T (2 * V (col n i j) 5%nat) 0); [lra|]. reflexivity.
Qed.
Lemma mfC_eq : forall i j k r, V (col n i j) 14%nat < V (col n i j) 15%nat -> tm_fC (tm_exported i j k) r = tm_f V (col n i j) r.
Proof.
  intros i j k r H. unfold tm_fC, tm_f, tm_exported. cbv zeta. cbn [m_R m_D]. set (c := col n i j) in *.
  set (R1 := V c 14%nat) in *. set (R2 := V c 15%nat) in *.
  assert (C3 : forall x, cos (3 * (PI / 2 + x)) = sin (3 * x)).
  { intros x. rewrite (sin_cos (3 * x)). replace (3 * (PI / 2 + x)) with ((PI / 2 + 3 * x) + PI) by lra. rewrite neg_cos. auto. }
  assert (A3 : forall x : R, 3 * PI / 2 * x = 3 * (PI / 2 * x)) by (intros; lra).
  destruct (Rlt_dec r (1 / 2 * (R1 + R2) - 1 / 2 * (R2 - R1))) as [A|A].
  - destruct (Rlt_dec r R2); [|lra]. destruct (Rlt_dec r R1); [auto|lra].
  - destruct (Rlt_dec (1 / 2 * (R1 + R2) + 1 / 2 * (R2 - R1)) r) as [B|B].
    + destruct (Rlt_dec r R2); [lra|auto].
    + rewrite A3. set (y := PI / 2 * ((r - 1 / 2 * (R1 + R2)) / (1 / 2 * (R2 - R1)))).
      assert (Y : PI / (R2 - R1) * (r - R1) = PI / 2 + y) by (unfold y; field; lra).
      destruct (Rlt_dec r R2) as [L|L].
      * destruct (Rlt_dec r R1); [lra|]. rewrite Y, C3. rewrite (sin_cos y). lra.
      * assert (E : y = PI / 2) by (unfold y; replace r with R2 by lra; field; lra). rewrite E, sin_PI2.
        replace (3 * (PI / 2)) with (PI / 2 + PI) by lra. rewrite neg_sin, sin_PI2. lra.
Qed.

Definition tm_uniform (i : nat) : Prop := forall j k, (j < n)%nat -> (k < n)%nat ->
  V (col n i j) 14%nat = V (col n i k) 14%nat /\ V (col n i j) 15%nat = V (col n i k) 15%nat.

Theorem tm_cutoff : forall i j, (i < n)%nat -> (j < n)%nat -> V (col n i j) 14%nat < V (col n i j) 15%nat -> V (col n i j) 5%nat <> 0 ->
  exists e, tm_of (lookup file i j j) = Some e /\ forall r, tm_fC e r = tm_f V (col n i j) r.
Proof. intros i j Li Lj H D. exists (tm_exported i j j). split; [apply tm_entry_ok; auto|]. intros r. apply mfC_eq; auto. Qed.

Theorem tm_same_bond : forall i, (i < n)%nat ->
  (forall j, (j < n)%nat -> V (col n i j) 14%nat < V (col n i j) 15%nat /\ V (col n i j) 5%nat <> 0) -> tm_uniform i ->
  exists ent : nat -> nat -> tm_entry,
    (forall j k, (j < n)%nat -> (k < n)%nat -> tm_of (lookup file i j k) = Some (ent j k)) /\
    forall l cosjk j, (j < length l)%nat -> (forall e, In e l -> (k_typ e < n)%nat) ->
      let tj := k_typ (nth j l (mk_nbk 0 0)) in
      mbond (cpow pow0) (as_pairs l) cosjk (ent tj tj) (ent tj) j = tm_bond pow0 V n i j l cosjk.
Proof.
  intros i Li G U. exists (tm_exported i). split; [intros j k Lj Lk; apply tm_entry_ok; auto; apply G; auto|].
  intros l cosjk j Lj T. cbv zeta. set (ej := nth j l (mk_nbk 0 0)). set (tj := k_typ ej).
  assert (Tj : (tj < n)%nat) by (apply T, nth_In; auto).
  destruct (G tj Tj) as (SR & D).
  assert (Z : mzeta (cpow pow0) (as_pairs l) cosjk (tm_exported i tj) j = tm_zeta pow0 V n i j l cosjk).
  { unfold mzeta, tm_zeta. rewrite sum_others. cbv zeta. apply rsumf_ext. intros k K. apply in_seq in K.
    destruct (Nat.eqb k j); auto. rewrite as_pairs_typ, !as_pairs_r. fold ej. fold tj. set (ek := nth k l (mk_nbk 0 0)).
    assert (Tk : (k_typ ek < n)%nat) by (apply T, nth_In; lia).
    rewrite mfC_eq by auto. destruct (U tj (k_typ ek) Tj Tk) as (U1 & U2).
    assert (F : tm_f V (col n i tj) (k_r ek) = tm_f V (col n i (k_typ ek)) (k_r ek)) by (unfold tm_f; rewrite U1, U2; auto).
    rewrite F. unfold tm_gth, tm_exported. cbv zeta. cbn [m_c1 m_c2 m_c3 m_c4 m_c5 m_h m_alpha m_beta].
    assert (GG : forall a b c d e t, a + b * t ^ 2 / (c + t ^ 2) * (1 + d * exp (- (e * t ^ 2))) =
                               a + b * t * t * (1 / (c + t * t)) * (1 + d * exp (- e * t * t))).
    { intros a b c d e t. replace (t ^ 2) with (t * t) by ring. replace (- (e * (t * t))) with (- e * t * t) by ring. unfold Rdiv. ring. }
    rewrite GG. unfold tm_g. cbv zeta.
    destruct (Rlt_dec (k_r ek) (V (col n i (k_typ ek)) 15%nat)) as [L|L]; [ring|].
    unfold tm_f. destruct (Rlt_dec _ _); [tauto|ring]. }
  unfold mbond, tm_bond. rewrite Z. cbv zeta. rewrite as_pairs_r. fold ej. fold tj. rewrite mfC_eq by auto.
  unfold tm_exported. cbv zeta. cbn [m_A m_B m_lambda1 m_lambda2 m_n m_eta].
  replace (-1 / (2 * (1 / (2 * V (col n i tj) 5%nat)))) with (- V (col n i tj) 5%nat) by (field; auto).
  destruct (Rlt_dec (k_r ej) (V (col n i tj) 15%nat)) as [L|L].
  - destruct (Req_EM_T (V (col n i tj) 1%nat) 0) as [B|B]; [rewrite B; ring|ring].
  - unfold tm_f. destruct (Rlt_dec _ _); [tauto|ring].
Qed.
End TM.
