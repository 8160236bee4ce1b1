(** Proofs about the IMD export: all files, charges, parameters. *)
From Coq Require Import Reals ZArith List Bool Lia Lra String.
From Verif Require Import PairIndexModel PairIndexProof SplineModel SplineProof3 FuncModel ImdModel ImdSpec ImdProof.
Import ListNotations.
Local Open Scope R_scope.

Lemma square_ext : forall f n N b1 e1 v1 b2 e2 v2, square_table f n N b1 e1 v1 ->
  (forall i j, (i < n)%nat -> (j < n)%nat -> b1 i j = b2 i j /\ e1 i j = e2 i j /\ forall r, v1 i j r = v2 i j r) -> square_table f n N b2 e2 v2.
Proof.
  intros f n N b1 e1 v1 b2 e2 v2 (H & I & D & T) Q. split; auto. split; auto. split; auto. intros i j Hi Hj. destruct (Q i j Hi Hj) as (Q1 & Q2 & Q3).
  specialize (T i j Hi Hj). cbv zeta in *. rewrite <- Q1, <- Q2. destruct T as (T1 & d & T2 & T3 & T4 & T5). split; auto. exists d. split; auto. split; auto. split; auto.
  intros k Hk. rewrite <- Q3. auto.
Qed.
Lemma plain_ext : forall f n N b1 e1 v1 b2 e2 v2, plain_table f n N b1 e1 v1 ->
  (forall i, (i < n)%nat -> b1 i = b2 i /\ e1 i = e2 i /\ forall r, v1 i r = v2 i r) -> plain_table f n N b2 e2 v2.
Proof.
  intros f n N b1 e1 v1 b2 e2 v2 (H & I & D & T) Q. split; auto. split; auto. split; auto. intros i Hi. destruct (Q i Hi) as (Q1 & Q2 & Q3).
  specialize (T i Hi). cbv zeta in *. rewrite <- Q1, <- Q2. destruct T as (T1 & d & T2 & T3 & T4). split; auto. exists d. split; auto. split; auto.
  intros k Hk. rewrite <- Q3. auto.
Qed.
Lemma n_pairs_nat : forall n, (n_pairs n * 2 = n * (n + 1))%nat.
Proof.
  intros n. unfold n_pairs. pose proof (paircol_spec (Z.of_nat n) ltac:(lia)) as P.
  assert (0 <= paircol (Z.of_nat n))%Z by nia. nia.
Qed.
Lemma half_eq : forall a b, (b * 2 = a)%nat -> (a / 2 = b)%nat.
Proof. intros a b <-. apply Nat.div_mul. lia. Qed.
Lemma trans_col_eq : forall n i j, trans_col n i j = (n_pairs n + j)%nat.
Proof. intros. unfold trans_col. rewrite (half_eq _ (n_pairs n)); auto. apply n_pairs_nat. Qed.
Lemma embed_col_eq : forall n i, embed_col n i = (n_pairs n + n + i)%nat.
Proof. intros. unfold embed_col. rewrite (half_eq _ (n_pairs n + n)%nat); auto. pose proof (n_pairs_nat n). nia. Qed.
Lemma g_col_eq : forall n i, g_col n i = (2 * n_pairs n + 2 * n + i)%nat.
Proof. intros. unfold g_col. pose proof (n_pairs_nat n). nia. Qed.
Lemma f_col_eq : forall n i j, (i < n)%nat -> (j < n)%nat -> f_col n i j = (n_pairs n + 2 * n + pair_no n i j)%nat.
Proof. intros. unfold f_col. rewrite pair_col_spec by auto. rewrite (half_eq _ (n_pairs n + 2 * n)%nat); auto. pose proof (n_pairs_nat n). nia. Qed.
Lemma value_eq : forall APOT pt tab fv smooth aend lastp lin c r, value APOT pt tab fv smooth aend lastp lin c r = function APOT lin pt tab fv smooth aend lastp c r.
Proof. intros. unfold value, function, analytic. destruct APOT; [destruct (smooth c); ring|destruct lin; reflexivity]. Qed.

Section All.
Variables (APOT : bool) (n N : nat).
Variables (plotmin extend : R).
Variable pt : nat -> column.
Variable tab : arr.
Variable fv : nat -> R -> R.
Variable smooth : nat -> bool.
Variables aend lastp : nat -> R.
Variable len : nat.
Notation fn lin := (function APOT lin pt tab fv smooth aend lastp).
Notation fd := (first_distance APOT plotmin extend pt).
Notation rad := (radial APOT n N plotmin extend pt tab fv smooth aend lastp).
Lemma radial_col : forall lin col1 col2 a, (forall i j, (i < n)%nat -> (j < n)%nat -> col1 i j = col2 i j) ->
  square_table (fst (rad lin col1 a)) n N (fun i j => fd (col2 i j)) (fun i j => endr (pt (col2 i j))) (fun i j => fn lin (col2 i j)).
Proof.
  intros lin col1 col2 a E. eapply square_ext; [apply radial_spec|]. intros i j Hi Hj. cbv beta. rewrite (E i j Hi Hj).
  split; [reflexivity|]. split; [reflexivity|]. intros r. apply value_eq.
Qed.
Definition table (files : list (string * file)) (name : string) (lin : bool) (col : nat -> nat -> nat) : Prop :=
  forall f, In (name, f) files -> square_table f n N (fun i j => fd (col i j)) (fun i j => endr (pt (col i j))) (fun i j => fn lin (col i j)).
Theorem imd_tables : forall k a,
  (k = KMeam -> APOT = false /\ forall i, (i < n)%nat -> listed (pt (2 * n_pairs n + 2 * n + i)%nat) /\ (last (pt (2 * n_pairs n + 2 * n + i)%nat) < len)%nat) ->
  exists files, write_imd APOT n N plotmin extend pt tab fv smooth aend lastp len k a = Some files /\ map fst files = file_names k /\
    table files "phi" (match k with KMeam => true | _ => false end) (pair_no n) /\
    table files "rho" true (fun _ j => n_pairs n + j)%nat /\
    table files "upot" false (fun i j => n_pairs n + 2 * n + pair_no n i j)%nat /\
    table files "wpot" false (fun i j => 2 * n_pairs n + 2 * n + pair_no n i j)%nat /\
    table files "f_meam" true (fun i j => n_pairs n + 2 * n + pair_no n i j)%nat /\
    (forall f, In ("F"%string, f) files -> plain_table f n N
       (fun i => let c := (n_pairs n + n + i)%nat in if APOT then 0 else begin (pt c) - extend * step (pt c))
       (fun i => let c := (n_pairs n + n + i)%nat in if APOT then endr (pt c) else endr (pt c) + extend * step (pt c))
       (fun i x => let c := (n_pairs n + n + i)%nat in
          if APOT then fv c x else splint_ne_lin (pt c) tab x + (if Rlt_dec (endr (pt c)) x then 500 * (x - endr (pt c)) ^ 3 else 0))) /\
    (forall f, In ("g_meam"%string, f) files -> plain_table f n N
       (fun i => begin (pt (2 * n_pairs n + 2 * n + i)%nat)) (fun i => endr (pt (2 * n_pairs n + 2 * n + i)%nat))
       (fun i => splint_ne (pt (2 * n_pairs n + 2 * n + i)%nat) tab)).
Proof.
  intros k a K.
  assert (R1 : forall lin a, square_table (fst (rad lin (pair_col n) a)) n N (fun i j => fd (pair_no n i j)) (fun i j => endr (pt (pair_no n i j))) (fun i j => fn lin (pair_no n i j))).
  { intros lin a0. apply radial_col. apply pair_col_spec. }
  assert (R2 : forall lin a, square_table (fst (rad lin (trans_col n) a)) n N (fun i j => fd (n_pairs n + j)%nat) (fun i j => endr (pt (n_pairs n + j)%nat)) (fun i j => fn lin (n_pairs n + j)%nat)).
  { intros lin a0. exact (radial_col lin (trans_col n) (fun _ j => n_pairs n + j)%nat a0 (fun i j _ _ => trans_col_eq n i j)). }
  assert (R3 : forall lin a, square_table (fst (rad lin (u_col n) a)) n N (fun i j => fd (n_pairs n + 2 * n + pair_no n i j)%nat) (fun i j => endr (pt (n_pairs n + 2 * n + pair_no n i j)%nat)) (fun i j => fn lin (n_pairs n + 2 * n + pair_no n i j)%nat)).
  { intros lin a0. apply (radial_col lin (u_col n) (fun i j => n_pairs n + 2 * n + pair_no n i j)%nat). intros i j Hi Hj. unfold u_col. rewrite pair_col_spec by auto. unfold pairs, n_pairs. lia. }
  assert (R4 : forall lin a, square_table (fst (rad lin (w_col n) a)) n N (fun i j => fd (2 * n_pairs n + 2 * n + pair_no n i j)%nat) (fun i j => endr (pt (2 * n_pairs n + 2 * n + pair_no n i j)%nat)) (fun i j => fn lin (2 * n_pairs n + 2 * n + pair_no n i j)%nat)).
  { intros lin a0. apply (radial_col lin (w_col n) (fun i j => 2 * n_pairs n + 2 * n + pair_no n i j)%nat). intros i j Hi Hj. unfold w_col. rewrite pair_col_spec by auto. unfold pairs, n_pairs. lia. }
  assert (R5 : forall lin a, square_table (fst (rad lin (f_col n) a)) n N (fun i j => fd (n_pairs n + 2 * n + pair_no n i j)%nat) (fun i j => endr (pt (n_pairs n + 2 * n + pair_no n i j)%nat)) (fun i j => fn lin (n_pairs n + 2 * n + pair_no n i j)%nat)).
  { intros lin a0. apply (radial_col lin (f_col n) (fun i j => n_pairs n + 2 * n + pair_no n i j)%nat). apply f_col_eq. }
  assert (R6 : forall a, plain_table (fst (embedding APOT n N extend pt tab fv a)) n N
       (fun i => let c := (n_pairs n + n + i)%nat in if APOT then 0 else begin (pt c) - extend * step (pt c))
       (fun i => let c := (n_pairs n + n + i)%nat in if APOT then endr (pt c) else endr (pt c) + extend * step (pt c))
       (fun i x => let c := (n_pairs n + n + i)%nat in
          if APOT then fv c x else splint_ne_lin (pt c) tab x + (if Rlt_dec (endr (pt c)) x then 500 * (x - endr (pt c)) ^ 3 else 0))).
  { intros a0. eapply plain_ext; [apply embedding_spec|]. intros i Hi. unfold embed_bounds, embed_value. rewrite embed_col_eq. cbv zeta.
    destruct APOT; cbn [fst snd]; auto. split; auto. split; auto. intros r. f_equal.
    destruct (Rlt_dec 0 (r - endr (pt (n_pairs n + n + i)%nat))), (Rlt_dec (endr (pt (n_pairs n + n + i)%nat)) r); try lra; try ring. }
  unfold write_imd.
  specialize (R1 (match k with KMeam => true | _ => false end) a).
  destruct (rad (match k with KMeam => true | _ => false end) (pair_col n) a) as [phi a1]. cbn [fst] in R1.
  destruct k.
  1: { eexists. split; [reflexivity|]. split; [reflexivity|]. unfold table. cbn [In]. 
       repeat match goal with |- _ /\ _ => split end; intros f H; destruct H as [H|H]; try contradiction; try discriminate H; injection H as <-; auto. }
  all: specialize (R2 true a1); destruct (rad true (trans_col n) a1) as [rho a2]; cbn [fst] in R2;
       specialize (R6 a2); destruct (embedding APOT n N extend pt tab fv a2) as [F a3]; cbn [fst] in R6.
  - eexists. split; [reflexivity|]. split; [reflexivity|]. unfold table. cbn [In app]. 
    repeat match goal with |- _ /\ _ => split end; intros f H; repeat (destruct H as [H|H]; [try discriminate H; injection H as <-; auto|]); contradiction.
  - specialize (R3 false a3). destruct (rad false (u_col n) a3) as [u a4]. cbn [fst] in R3.
    specialize (R4 false a4). destruct (rad false (w_col n) a4) as [w a5]. cbn [fst] in R4.
    eexists. split; [reflexivity|]. split; [reflexivity|]. unfold table. cbn [In app]. 
    repeat match goal with |- _ /\ _ => split end; intros f H; repeat (destruct H as [H|H]; [try discriminate H; injection H as <-; auto|]); contradiction.
  - specialize (R5 true a3). destruct (rad true (f_col n) a3) as [ff a4]. cbn [fst] in R5.
    destruct (K eq_refl) as [TAB COLS].
    assert (C2 : forall i, (i < n)%nat -> listed (pt (g_col n i)) /\ (last (pt (g_col n i)) < len)%nat) by (intros i Hi; rewrite g_col_eq; auto).
    destruct (angular_spec APOT n N pt tab len TAB C2 a4) as (g & a5 & E & G). rewrite E.
    assert (G2 : plain_table g n N (fun i => begin (pt (2 * n_pairs n + 2 * n + i)%nat)) (fun i => endr (pt (2 * n_pairs n + 2 * n + i)%nat)) (fun i => splint_ne (pt (2 * n_pairs n + 2 * n + i)%nat) tab)).
    { eapply plain_ext; [exact G|]. intros i Hi. cbv beta. rewrite g_col_eq. auto. }
    eexists. split; [reflexivity|]. split; [reflexivity|]. unfold table. cbn [In app]. 
    repeat match goal with |- _ /\ _ => split end; intros f H; repeat (destruct H as [H|H]; [try discriminate H; injection H as <-; auto|]); contradiction.
Qed.
End All.

(** ** the last value *)
Theorem whole_table : forall f n N first last v, (0 < N)%nat -> square_table f n N first last v ->
  (forall i j, (i < n)%nat -> (j < n)%nat -> 0 <= last i j /\ v i j (last i j) = 0) -> square_table_of f n N first last v.
Proof.
  intros f n N first last v HN T Z. split; auto. intros i j d Hi Hj Hd b e k Hk. destruct T as (_ & _ & _ & T). destruct (T i j Hi Hj) as (_ & d' & D1 & D2 & D3 & D4).
  rewrite Hd in D1. injection D1 as <-. fold b e in D3. destruct (Nat.eq_dec k N) as [->|].
  - rewrite D4. destruct (Z i j Hi Hj) as [P Q]. f_equal. assert (INR N <> 0) by (apply not_0_INR; lia).
    replace (b + INR N * ((e - b) / INR N)) with e by (field; auto). unfold e. rewrite sqrt_square by auto. auto.
  - apply D3. lia.
Qed.
Lemma analytic_end : forall fv smooth aend h c r, smooth c = true -> aend c = r -> analytic fv smooth aend h c r = 0.
Proof. intros fv smooth aend h c r S E. unfold analytic, apot_cutoff. rewrite S, E. destruct (Rle_dec 0 (r - r)); [ring|lra]. Qed.
Lemma not_whole : forall f n N first last v i j, (0 < N)%nat -> (i < n)%nat -> (j < n)%nat -> 0 <= last i j -> v i j (last i j) <> 0 ->
  ~ square_table_of f n N first last v.
Proof.
  intros f n N first last v i j HN Hi Hj P Z ((_ & _ & _ & T) & W). destruct (T i j Hi Hj) as (_ & d & D1 & D2 & D3 & D4).
  specialize (W i j d Hi Hj D1 N (Nat.le_refl N)). rewrite D4 in W. injection W as W. assert (INR N <> 0) by (apply not_0_INR; lia).
  set (b := first i j * first i j) in *. set (e := last i j * last i j) in *.
  replace (b + INR N * ((e - b) / INR N)) with e in W by (field; auto). unfold e in W. rewrite sqrt_square in W by auto. congruence.
Qed.

(** ** g of analytic MEAM potentials *)
Lemma opt_first_le : forall npar c, (forall i, (npar i <= 300)%nat) -> (opt_first npar c <= 2 + c * 302)%nat.
Proof. intros npar c H. induction c as [|c IH]; cbn [opt_first]; [lia|]. specialize (H c). lia. Qed.
Theorem meam_analytic : forall n N plotmin extend pt tab fv smooth aend lastp npar globals a,
  (0 < n)%nat -> (forall i, (npar i <= 300)%nat) -> (globals <= 100)%nat ->
  write_imd true n N plotmin extend pt tab fv smooth aend lastp (opt_len npar (n * (n + 4)) globals) KMeam a = None.
Proof.
  intros n N plotmin extend pt tab fv smooth aend lastp npar globals a Hn Hp Hg. unfold write_imd.
  destruct (radial _ _ _ _ _ _ _ _ _ _ _ true (pair_col n) a) as [phi a1]. destruct (radial _ _ _ _ _ _ _ _ _ _ _ true (trans_col n) a1) as [rho a2].
  destruct (embedding _ _ _ _ _ _ _ a2) as [F a3]. destruct (radial _ _ _ _ _ _ _ _ _ _ _ true (f_col n) a3) as [f a4].
  unfold angular. destruct (fold_left _ (seq 0 n) (a4, [])) as [a' out].
  destruct n as [|n]; [lia|]. cbn [seq g_blocks g_samples].
  set (m := S n) in *. set (len := opt_len npar (m * (m + 4)) globals).
  assert (LEN : (len <= calc_first (g_col m 0))%nat).
  { unfold len, opt_len, calc_first, g_col. pose proof (opt_first_le npar (m * (m + 4) - 1) Hp). pose proof (Hp (m * (m + 4) - 1)%nat).
    change (APOT_STEPS + 2)%nat with 502%nat. assert (1 <= m)%nat by (unfold m; lia). clearbody m. nia. }
  assert (RS : read_spline true pt tab len (g_col m 0) (lb a' 0%nat) = None).
  { unfold read_spline. destruct (ne_find (calc_col true pt (g_col m 0)) (lb a' 0%nat)) as [klo khi] eqn:E. unfold ne_find in E.
    set (c := calc_col true pt (g_col m 0)) in *. assert (FL : first c = calc_first (g_col m 0) /\ last c = (calc_first (g_col m 0) + (APOT_STEPS - 1))%nat) by (split; reflexivity).
    assert (AS : APOT_STEPS = 500%nat) by reflexivity. rewrite AS in FL.
    destruct (bisect_spec (xcoord c) (lb a' 0%nat) (first c) (last c) (last c - first c) (first c) (last c)) as (k & E2 & B & _); try lia.
    rewrite E in E2. injection E2 as -> ->. destruct (Nat.ltb_spec k len); [lia|]. reflexivity. }
  rewrite RS. reflexivity.
Qed.
