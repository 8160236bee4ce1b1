(** Round trip: what is kept, what is not. *)
From Coq Require Import Reals ZArith List Bool String Ascii Lia Lra.
From Verif Require Import LoopUtil ApotModel RtModel RtSpec RtProof RtProof2.
Import ListNotations.
Local Open Scope R_scope.

Lemma pow10_pos : forall k, 0 < 10 ^ k.
Proof. intros k. apply pow_lt. lra. Qed.
Lemma close_eq : forall k y z, Rabs (IZR y / 10 ^ k - IZR z / 10 ^ k) <= 1 / 2 / 10 ^ k -> y = z.
Proof.
  intros k y z H. pose proof (pow10_pos k) as P. replace (IZR y / 10 ^ k - IZR z / 10 ^ k) with (IZR (y - z) * / 10 ^ k) in H by (rewrite minus_IZR; field; lra).
  rewrite Rabs_mult, (Rabs_pos_eq (/ 10 ^ k)) in H by (left; apply Rinv_0_lt_compat; auto).
  assert (A : Rabs (IZR (y - z)) <= 1 / 2).
  { apply (Rmult_le_reg_r (/ 10 ^ k)); [apply Rinv_0_lt_compat; auto|]. exact H. }
  rewrite <- abs_IZR in A. assert (B : (Z.abs (y - z) < 1)%Z) by (apply lt_IZR; lra). lia.
Qed.
Lemma Rabs_le_between : forall x y, Rabs x <= y -> - y <= x <= y.
Proof. intros x y H. unfold Rabs in H. destruct (Rcase_abs x); lra. Qed.
Section Decimals.
Variable pr : nat -> R -> R.
Hypothesis PR : forall k x, decimals k x (pr k x).
Lemma pr_multiple : forall k x, multiple k (pr k x).
Proof. intros k x. destruct (PR k x) as (z & E & _). exists z. auto. Qed.
Lemma pr_fix : forall k x, multiple k x -> pr k x = x.
Proof. intros k x (y & ->). destruct (PR k (IZR y / 10 ^ k)) as (z & -> & H). apply close_eq in H. subst. auto. Qed.
Lemma multiple_up : forall k m x, (k <= m)%nat -> multiple k x -> multiple m x.
Proof.
  intros k m x H (z & ->). exists (z * 10 ^ Z.of_nat (m - k))%Z. rewrite mult_IZR, <- pow_IZR. replace m with (k + (m - k))%nat at 2 by lia. rewrite pow_add.
  field. split; apply pow_nonzero; lra.
Qed.
Lemma pr_error : forall k x, Rabs (x - pr k x) <= 1 / 2 / 10 ^ k.
Proof. intros k x. destruct (PR k x) as (z & _ & H). auto. Qed.

Lemma pr_mono : forall k x y, x <= y -> pr k x <= pr k y.
Proof.
  intros k x y H. destruct H as [H| ->]; [|lra]. pose proof (pow10_pos k) as P. destruct (PR k x) as (a & Ea & A). destruct (PR k y) as (b & Eb & B). rewrite Ea, Eb in *.
  apply Rmult_le_compat_r; [left; apply Rinv_0_lt_compat; auto|]. destruct (Z_lt_le_dec b a) as [L|L]; [|apply IZR_le; auto]. exfalso.
  assert (D : 1 / 10 ^ k <= IZR a / 10 ^ k - IZR b / 10 ^ k).
  { replace (IZR a / 10 ^ k - IZR b / 10 ^ k) with (IZR (a - b) / 10 ^ k) by (rewrite minus_IZR; field; lra). apply Rmult_le_compat_r; [left; apply Rinv_0_lt_compat; auto|]. apply IZR_le. lia. }
  apply Rabs_le_between in A. apply Rabs_le_between in B. set (u := 1 / 2 / 10 ^ k) in *. assert (U : 1 / 10 ^ k = u + u) by (unfold u; field; lra). lra.
Qed.

Variable opt : bool.
Lemma back_sound : forall kv kb p a, (kb <= kv)%nat -> p_min p <= p_max p -> back pr opt kv kb p a -> sound_par opt kv kb a.
Proof.
  intros kv kb p a LE OR [B1 B2 B3 B4 B5]. apply (pr_mono kb) in OR. set (x := pr kb (p_min p)) in *. set (y := pr kb (p_max p)) in *. 
  assert (MX : multiple kb x) by apply pr_multiple. assert (MY : multiple kb y) by apply pr_multiple. assert (MV : multiple kv (pr kv (p_val p))) by apply pr_multiple.
  clearbody x y. set (v := pr kv (p_val p)) in *. clearbody v. rewrite (Rmin_left x y) in B2 by auto. rewrite (Rmax_right x y) in B3 by auto. constructor.
  - rewrite B2, B3. auto.
  - rewrite B4, B2, B3. tauto.
  - intros O. rewrite B5, B2, B3, O. intros L. unfold limited, Rmin, Rmax. destruct (Rlt_dec x y); [|lra]. destruct (Rle_dec x v); destruct (Rle_dec y _); lra.
  - rewrite B5. destruct opt; auto. destruct (Rlt_dec x y); auto. unfold limited, Rmin, Rmax. destruct (Rle_dec x v); destruct (Rle_dec y _); auto; apply (multiple_up kb kv); auto.
  - rewrite B2. auto.
  - rewrite B3. auto.
Qed.
Lemma back_same : forall kv kb p a, sound_par opt kv kb p -> back pr opt kv kb p a -> a = p.
Proof.
  intros kv kb p a [S1 S2 S3 S4 S5 S6] [B1 B2 B3 B4 B5]. rewrite (pr_fix kb (p_min p)), (pr_fix kb (p_max p)) in * by auto. rewrite (pr_fix kv (p_val p)) in B5 by auto.
  rewrite Rmin_left in B2 by auto. rewrite Rmax_right in B3 by auto. rewrite <- S2 in B4.
  assert (V : p_val a = p_val p).
  { rewrite B5. destruct opt; auto. destruct (Rlt_dec _ _) as [L|L]; auto. specialize (S3 eq_refl L). unfold limited. rewrite (Rmax_right (p_min p)), Rmin_right by lra. auto. }
  assert (I : p_inv a = p_inv p) by (destruct (p_inv a), (p_inv p); intuition congruence).
  destruct a as [a1 a2 a3 a4 a5], p as [b1 b2 b3 b4 b5]; cbn in *. f_equal; auto.
Qed.
Lemma Forall2_same : forall (A : Type) (P : A -> A -> Prop) l l', Forall2 P l l' -> (forall x y, In x l -> P x y -> y = x) -> l' = l.
Proof. intros A P l l' H. induction H; intros E; auto. f_equal; [apply (E x); auto; left; auto|apply IHForall2; intros; apply E; auto; right; auto]. Qed.
Lemma tab_same : forall els t a, sound opt els t -> tab_back pr opt els t a -> a = t.
Proof.
  intros els t a [S1 S2 S3 S4] [B1 B2 B3 B4].
  assert (G : globals_of a = globals_of t) by (apply (Forall2_same _ _ _ _ B3); intros g h I B; apply (back_same 8 4); auto).
  assert (PT : t_pots a = t_pots t).
  { apply (Forall2_same _ _ _ _ B4). intros q r Q [C1 C2 C3 C4]. assert (E : w_pars r = w_pars q).
    { apply (Forall2_same _ _ _ _ C4). intros p p' P B. unfold par_back in B. specialize (S4 q p Q P). destruct (has_bang (p_name p)).
      - destruct S4 as (l & L & SE). destruct B as (l' & L' & BE). rewrite G in L', BE. rewrite (bound_unique _ _ _ _ L' L) in BE. cbv zeta in *. congruence.
      - apply (back_same 8 4); auto. }
    rewrite pr_fix in C3 by (apply S3; auto). destruct q, r; cbn in *; subst; auto. }
  assert (CP : t_cp a = t_cp t).
  { destruct (t_cp t) as [c|], (t_cp a) as [d|]; auto; try contradiction. destruct B1 as [L B1]. f_equal. apply (nth_ext d c (Par "" 0 0 0 false) (Par "" 0 0 0 false)); auto. intros i Hi. rewrite L in Hi.
    specialize (B1 i Hi). destruct (S1 c eq_refl i Hi) as [N S]. cbv zeta in *. set (p := nth i c _) in *. replace (rename ("cp_" ++ els i) p) with p in B1 by (unfold rename; rewrite <- N; destruct p; auto). apply (back_same 10 2); auto. }
  assert (GG : t_globals a = t_globals t).
  { unfold globals_of in G. destruct (t_globals a), (t_globals t); auto; try congruence; exfalso; [apply (proj1 B2); congruence|apply (proj2 B2); congruence]. }
  destruct t, a; cbn in *; subst; auto.
Qed.

(** the table read back *)
Variable num_params : string -> option nat.
Variable els : nat -> string.
Lemma Forall2_in : forall (A : Type) (P : A -> A -> Prop) l l' y, Forall2 P l l' -> In y l' -> exists x, In x l /\ P x y.
Proof. intros A P l l' y H. induction H; intros I; [destruct I|]. destruct I as [<-|I]; [exists x; split; auto; left; auto|]. destruct (IHForall2 I) as (z & Z1 & Z2). exists z. split; auto. right. auto. Qed.
Lemma Forall2_in1 : forall (A : Type) (P : A -> A -> Prop) l l' x, Forall2 P l l' -> In x l -> exists y, In y l' /\ P x y.
Proof. intros A P l l' x H. induction H; intros I; [destruct I|]. destruct I as [<-|I]; [exists y; split; auto; left; auto|]. destruct (IHForall2 I) as (z & Z1 & Z2). exists z. split; auto. right. auto. Qed.
Lemma Forall2_len : forall (A : Type) (P : A -> A -> Prop) l l', Forall2 P l l' -> List.length l' = List.length l.
Proof. intros A P l l' H. induction H; cbn; auto. Qed.
Lemma Forall2_names : forall (P : par -> par -> Prop) l l', (forall x y : par, P x y -> p_name y = p_name x) -> Forall2 P l l' -> map p_name l' = map p_name l.
Proof. intros P l l' N H. induction H; cbn; auto. f_equal; auto. Qed.
Lemma par_back_name : forall gs p a, par_back pr opt gs p a -> p_name a = p_name p.
Proof. intros gs p a. unfold par_back. destruct (has_bang _); [intros (l & _ & ->); auto|intros []; auto]. Qed.
Lemma legal_back : forall t a, legal num_params t -> tab_back pr opt els t a -> legal num_params a.
Proof.
  intros t a [L1 L2 L3 L4 L5 L6 L7] [B1 B2 B3 B4].
  assert (GN : map p_name (globals_of a) = map p_name (globals_of t)) by (apply (Forall2_names _ _ _ (fun x y (H : back pr opt 8 4 x y) => bk_name _ _ _ _ _ _ H) B3)).
  assert (PQ : forall q', In q' (t_pots a) -> exists q, In q (t_pots t) /\ pot_back pr opt (globals_of a) q q') by (intros; eapply Forall2_in; eauto).
  assert (PP : forall q' p', In q' (t_pots a) -> In p' (w_pars q') -> exists q p, In q (t_pots t) /\ In p (w_pars q) /\ p_name p' = p_name p).
  { intros q' p' Q P. destruct (PQ q' Q) as (q & Q1 & [_ _ _ C4]). destruct (Forall2_in _ _ _ _ _ C4 P) as (p & P1 & PB). exists q, p. repeat split; auto. eapply par_back_name; eauto. }
  constructor.
  - intros q' Q'. destruct (PQ q' Q') as (q & Q & [C1 C2 C3 C4]). destruct (L1 q Q) as (n & N1 & N2). exists n. rewrite C1, C2, <- N2. split; auto. eapply Forall2_len; eauto.
  - intros q' Q'. destruct (PQ q' Q') as (q & Q & [C1 C2 C3 C4]). rewrite C1, C2. auto.
  - intros q' p' Q' P'. destruct (PP q' p' Q' P') as (q & p & Q & P & ->). eauto.
  - intros g' G'. destruct (Forall2_in _ _ _ _ _ B3 G') as (g & G & [-> _ _ _ _]). auto.
  - rewrite GN. auto.
  - intros q' p' Q' P' H. destruct (PP q' p' Q' P') as (q & p & Q & P & E). rewrite E in *. destruct (L6 q p Q P H) as (l & L). exists l. apply (bound_same _ (globals_of t)); auto.
  - rewrite B2, L7. split.
    + intros (q & p & Q & P & H). destruct (Forall2_in1 _ _ _ _ _ B4 Q) as (q' & Q' & [C1 C2 C3 C4]). destruct (Forall2_in1 _ _ _ _ _ C4 P) as (p' & P' & PB). exists q', p'. rewrite (par_back_name _ _ _ PB). auto.
    + intros (q' & p' & Q' & P' & H). destruct (PP q' p' Q' P') as (q & p & Q & P & E). exists q, p. rewrite <- E. auto.
Qed.
Lemma nth_in_dec : forall (c : list par) i z, (i < List.length c)%nat -> In (nth i c z) c.
Proof. intros. apply nth_In. auto. Qed.
Lemma sound_back : forall t a, tab_back pr opt els t a ->
  (forall c p, t_cp t = Some c -> In p c -> p_min p <= p_max p) -> (forall g, In g (globals_of t) -> p_min g <= p_max g) ->
  (forall q p, In q (t_pots t) -> In p (w_pars q) -> has_bang (p_name p) = false -> p_min p <= p_max p) -> sound opt els a.
Proof.
  intros t a [B1 B2 B3 B4] O1 O2 O3. constructor.
  - intros d D i Hi p. rewrite D in B1. destruct (t_cp t) as [c|]; [|contradiction]. destruct B1 as [LN B1]. rewrite LN in Hi. specialize (B1 i Hi). cbv zeta in B1. fold p in B1. split; [destruct B1; auto|].
    eapply back_sound; eauto; [lia|]. cbn [rename p_min p_max]. apply (O1 c); auto. apply nth_In. auto.
  - intros g' G'. destruct (Forall2_in _ _ _ _ _ B3 G') as (g & G & B). eapply back_sound; eauto; lia.
  - intros q' Q'. destruct (Forall2_in _ _ _ _ _ B4 Q') as (q & Q & [_ _ -> _]). apply pr_multiple.
  - intros q' p' Q' P'. destruct (Forall2_in _ _ _ _ _ B4 Q') as (q & Q & [_ _ _ C4]). destruct (Forall2_in _ _ _ _ _ C4 P') as (p & P & B). rewrite (par_back_name _ _ _ B).
    unfold par_back in B. destruct (has_bang (p_name p)) eqn:H.
    + destruct B as (l & L & E). exists l. rewrite E. cbn [p_name]. auto.
    + eapply back_sound; eauto; lia.
Qed.

(** ** theorems *)
Variable rmin : wpot -> R.
Notation trip t n := (read_table num_params opt (cp_of t) None n (List.length (t_pots t)) (write_table pr els rmin None t)).
Theorem trip_ok : forall t n, legal num_params t -> filled t -> ntypes_of t n -> exists t', trip t n = Some t' /\ tab_back pr opt els t t'.
Proof.
  intros t n LG [F1 F2] NT. unfold cp_of. apply round_trip; auto.
  - intros c C. apply (NT c C).
  - intros H. destruct (t_cp t) as [c|] eqn:C; [|contradiction]. apply (NT c). auto.
Qed.
Theorem trip_exact : forall t n, legal num_params t -> filled t -> ntypes_of t n -> sound opt els t -> trip t n = Some t.
Proof. intros t n LG F NT S. destruct (trip_ok t n LG F NT) as (t' & E & B). rewrite E. f_equal. apply (tab_same els); auto. Qed.
Theorem trip_stable : forall t n, legal num_params t -> filled t -> ntypes_of t n ->
  (forall c p, t_cp t = Some c -> In p c -> p_min p <= p_max p) -> (forall g, In g (globals_of t) -> p_min g <= p_max g) ->
  (forall q p, In q (t_pots t) -> In p (w_pars q) -> has_bang (p_name p) = false -> p_min p <= p_max p) ->
  exists t', trip t n = Some t' /\ trip t' n = Some t'.
Proof.
  intros t n LG F NT O1 O2 O3. destruct (trip_ok t n LG F NT) as (t' & E & B). exists t'. split; auto.
  assert (F' : filled t').
  { destruct F as [F1 F2]. destruct B as [_ _ _ B4]. split.
    - intros X. rewrite X in B4. inversion B4. symmetry in H0. auto.
    - intros q' Q'. destruct (Forall2_in _ _ _ _ _ B4 Q') as (q & Q & [_ _ _ C4]). intros X. rewrite X in C4. inversion C4. symmetry in H0. apply (F2 q Q). auto. }
  assert (NT' : ntypes_of t' n).
  { intros d D. destruct B as [B1 _ _ _]. rewrite D in B1. destruct (t_cp t) as [c|] eqn:C; [|contradiction]. destruct (NT c C) as [N1 N2]. destruct B1 as [B1 _]. split; [|congruence].
    intros X. subst d. cbn in B1. destruct c; [contradiction|discriminate]. }
  apply trip_exact; auto; [apply (legal_back t); auto|]. apply (sound_back t); auto.
Qed.
(** errors of one parameter *)
Theorem back_errors : forall kv kb p a, p_min p <= p_max p -> back pr opt kv kb p a ->
  Rabs (p_min p - p_min a) <= 1 / 2 / 10 ^ kb /\ Rabs (p_max p - p_max a) <= 1 / 2 / 10 ^ kb /\
  (p_min p = p_max p -> p_inv a = true) /\
  (p_min p + 1 / 10 ^ kb < p_max p -> p_inv a = false) /\
  (opt = false -> Rabs (p_val p - p_val a) <= 1 / 2 / 10 ^ kv).
Proof.
  intros kv kb p a OR [B1 B2 B3 B4 B5]. pose proof (pr_mono kb _ _ OR) as M. rewrite Rmin_left in B2 by auto. rewrite Rmax_right in B3 by auto. rewrite B2, B3. split; [apply pr_error|split; [apply pr_error|split; [|split]]].
  - intros E. apply B4. rewrite E. auto.
  - intros L. destruct (p_inv a); auto. exfalso. pose proof (proj1 B4 eq_refl) as E. pose proof (pr_error kb (p_min p)) as E1. pose proof (pr_error kb (p_max p)) as E2. rewrite E in E1.
    apply Rabs_le_between in E1. apply Rabs_le_between in E2. pose proof (pow10_pos kb). set (u := 1 / 2 / 10 ^ kb) in *. assert (U : 1 / 10 ^ kb = u + u) by (unfold u; field; lra). lra.
  - intros O. rewrite B5, O. apply pr_error.
Qed.
(** a free parameter that is read as a fixed one, and a value moved to a limit *)
Theorem free_lost : forall s v a, back pr opt 8 4 (Par s v (1/100000) (2/100000) false) a -> p_inv a = true.
Proof.
  intros s v a [_ _ _ B4 _]. apply B4. cbn [p_min p_max].
  assert (Z : forall x, 0 <= x <= 2/100000 -> pr 4 x = 0).
  { intros x X. destruct (PR 4 x) as (z & -> & H). assert (z = 0)%Z; [|subst; lra]. assert (A : Rabs (IZR z / 10 ^ 4) < 1 / 10 ^ 4).
    { apply Rabs_le_between in H. apply Rabs_def1; lra. }
    replace (IZR z / 10 ^ 4) with (IZR z * / 10 ^ 4) in A by (unfold Rdiv; auto). rewrite Rabs_mult, (Rabs_pos_eq (/ 10 ^ 4)) in A by (left; apply Rinv_0_lt_compat; lra).
    rewrite <- abs_IZR in A. assert (IZR (Z.abs z) < 1) by lra. assert (Z.abs z < 1)%Z by (apply lt_IZR; auto). lia. }
  rewrite !Z by lra. auto.
Qed.
Theorem value_moved : forall s a, opt = true -> back pr opt 8 4 (Par s (4/100000) (-1) (4/100000) false) a -> p_val a = 0.
Proof.
  intros s a O [_ _ _ _ B5]. rewrite B5, O. cbn [p_min p_max p_val].
  assert (M : pr 4 (-1) = -1) by (apply pr_fix; exists (-10000)%Z; lra). assert (V : pr 8 (4/100000) = 4/100000) by (apply pr_fix; exists 4000%Z; lra).
  assert (Z : pr 4 (4/100000) = 0).
  { destruct (PR 4 (4/100000)) as (z & -> & H). assert (z = 0)%Z; [|subst; lra]. apply Rabs_le_between in H. assert (A1 : IZR z < 1) by lra. assert (A2 : -1 < IZR z) by lra. apply lt_IZR in A1. apply lt_IZR in A2. lia. }
  rewrite M, V, Z. destruct (Rlt_dec (-1) 0); [|lra]. unfold limited, Rmin, Rmax. destruct (Rle_dec (-1) (4/100000)); [|lra]. destruct (Rle_dec 0 (4/100000)); lra.
Qed.
End Decimals.

(** ** electrostatics *)
Theorem elstat_unreadable : forall pr opt num_params els rmin t e n nd k,
  (e_charges e <> [] -> p_name (hd (Par "" 0 0 0 false) (e_charges e)) <> "ratio"%string) -> e_last_name e <> "ratio"%string ->
  (t_cp t = None) ->
  read_table num_params opt false (Some nd) n k (write_table pr els rmin (Some e) t) = None.
Proof.
  intros pr opt num_params els rmin t e n nd k H1 H2 C. unfold read_table.
  assert (P : parse_elstat n nd (write_table pr els rmin (Some e) t) = None).
  { unfold write_table, parse_elstat. rewrite C. cbn [write_cp]. set (r1 := write_globals _ _ ++ write_pots _ _ _). clearbody r1. unfold write_elstat. destruct (e_charges e) as [|p ps].
    - assert (X : String.eqb "ratio" (e_last_name e) = false) by (apply String.eqb_neq; congruence). cbn -[String.eqb]. rewrite String.eqb_refl. cbn -[String.eqb]. rewrite X. auto.
    - assert (X : String.eqb "ratio" (p_name p) = false) by (apply String.eqb_neq; intros E; apply H1; [discriminate|auto]). cbn -[String.eqb]. rewrite String.eqb_refl. cbn -[String.eqb]. rewrite X. auto. }
  rewrite P. auto.
Qed.
