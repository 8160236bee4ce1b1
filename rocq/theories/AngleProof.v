(** Proofs about stored angles. *)
From Coq Require Import Reals ZArith List Bool Arith Lia Lra.
From Verif Require Import Vec SplineModel SplineSpec SplineProof3 SplineProof4 SplineProof5 AngleModel.
From Verif Require NbrProof. From Verif Require Import SplineProof.
Import ListNotations.
Local Open Scope R_scope.

Section Atom.
Variable n : nat.
Variable dotp : nat -> nat -> R.
Variable checked : bool.
Hypothesis dot_range : forall j k, (j < n)%nat -> (k < n)%nat -> Rabs (dotp j k) <= 1.

Notation init := (init_angles n dotp checked).
(** the pairs of a nested loop *)
Definition pairs (js : list nat) (ks : nat -> list nat) : list (nat * nat) := flat_map (fun j => map (pair j) (ks j)) js.
Definition right (js : list nat) (ks : nat -> list nat) : list use :=
  map (fun p => (fst p, snd p, Some (new_angle (dotp (fst p) (snd p))))) (pairs js ks).

Lemma store_all : forall j ks s, (j < n)%nat -> (forall k, In k ks -> (k < n)%nat) ->
  fold_left (store dotp checked j) ks (Some s) = Some (Angles (parts s ++ map (fun k => new_angle (dotp j k)) ks) (start s)).
Proof.
  intros j ks. induction ks as [|k ks IH]; intros s J K; cbn [fold_left map].
  - rewrite app_nil_r. destruct s; reflexivity.
  - assert (E : store dotp checked j (Some s) k = Some (Angles (parts s ++ [new_angle (dotp j k)]) (start s))).
    { unfold store. pose proof (dot_range j k J (K k (or_introl eq_refl))).
      destruct (Rlt_dec _ _) as [L|L]; [|rewrite andb_false_r; reflexivity].
      exfalso. assert (0 < 1 / 10 ^ 10) by (apply Rdiv_lt_0_compat; [lra|apply pow_lt; lra]). lra. }
    rewrite E. rewrite IH; auto; [|intros; apply K; right; auto]. cbn [parts start]. rewrite <- app_assoc. reflexivity.
Qed.
Fixpoint start_in (js : list nat) (ks : nat -> list nat) (base : nat) (i : nat) : option nat :=
  match js with
  | [] => None
  | j :: js => if Nat.eqb i j then Some base else start_in js ks (base + List.length (ks j)) i
  end.
Lemma init_gen : forall ks js s, NoDup js -> (forall j, In j js -> (j < n)%nat) -> (forall j k, In k (ks j) -> (k < n)%nat) ->
  exists s', fold_left (fun st j => fold_left (store dotp checked j) (ks j) (mark j st)) js (Some s) = Some s' /\
   parts s' = parts s ++ map (fun p => new_angle (dotp (fst p) (snd p))) (pairs js ks) /\
   forall i, start s' i = match start_in js ks (List.length (parts s)) i with Some q => q | None => start s i end.
Proof.
  intros ks js. induction js as [|j js IH]; intros s N J K; cbn [fold_left pairs flat_map start_in].
  - exists s. cbn. rewrite app_nil_r. auto.
  - cbn [mark]. rewrite store_all; [|apply J; left; auto|intros; eapply K; eauto]. cbn [parts start].
    inversion N; subst.
    destruct (IH (Angles (parts s ++ map (fun k => new_angle (dotp j k)) (ks j)) (fun i => if Nat.eqb i j then List.length (parts s) else start s i)))
      as (s' & E & P & S); auto; [intros; apply J; right; auto|].
    exists s'. split; [exact E|]. cbn [parts start] in P, S. split.
    + rewrite P, map_app, map_map, <- app_assoc. reflexivity.
    + intros i. rewrite S, app_length, map_length. destruct (Nat.eqb_spec i j) as [->|D].
      * assert (Q : forall b, start_in js ks b j = None).
        { clear - H1. induction js as [|a js IH]; intros b; simpl; auto. destruct (Nat.eqb_spec j a) as [->|]; [exfalso; apply H1; left; auto|].
          apply IH. intros I; apply H1; right; auto. }
        rewrite Q. reflexivity.
      * reflexivity.
Qed.
(** a run of reads that starts at the right place *)
Lemma read_run : forall j ks pre suf l,
  fold_left (fun (p : nat * list use) k =>
     (S (fst p), snd p ++ [(j, k, nth_error (pre ++ map (fun k => new_angle (dotp j k)) ks ++ suf) (fst p))])) ks (List.length pre, l)
  = ((List.length pre + List.length ks)%nat, l ++ map (fun k => (j, k, Some (new_angle (dotp j k)))) ks).
Proof.
  intros j ks. induction ks as [|k ks IH]; intros pre suf l; cbn [fold_left map List.length].
  - rewrite app_nil_r, Nat.add_0_r. reflexivity.
  - cbn [fst snd app]. rewrite nth_error_app2 by auto. rewrite Nat.sub_diag. cbn [nth_error].
    specialize (IH (pre ++ [new_angle (dotp j k)]) suf (l ++ [(j, k, Some (new_angle (dotp j k)))])).
    rewrite app_length in IH. cbn [List.length] in IH. rewrite Nat.add_1_r in IH.
    rewrite <- app_assoc in IH. cbn [app] in IH. rewrite IH. f_equal; [lia|]. rewrite <- app_assoc. reflexivity.
Qed.
(** loops over filtered lists *)
Lemma fold_filter : forall {A B} (f : A -> B -> A) (p : B -> bool) l a,
  fold_left (fun a x => if p x then f a x else a) l a = fold_left f (filter p l) a.
Proof. intros A B f p l. induction l as [|x l IH]; intros a; simpl; auto. destruct (p x); simpl; auto. Qed.
Lemma fold_ext : forall {A B} (f g : A -> B -> A) l a, (forall a x, In x l -> f a x = g a x) -> fold_left f l a = fold_left g l a.
Proof. intros A B f g l. induction l as [|x l IH]; intros a H; simpl; auto. rewrite H by (left; auto). apply IH. intros; apply H; right; auto. Qed.

(** running pointer *)
Lemma run_gen : forall ks js pre suf l,
  snd (fold_left (fun (p : nat * list use) j =>
    fold_left (fun (p : nat * list use) k => (S (fst p), snd p ++ [(j, k, nth_error (pre ++ map (fun p => new_angle (dotp (fst p) (snd p))) (pairs js ks) ++ suf) (fst p))])) (ks j) p)
    js (List.length pre, l)) = l ++ right js ks.
Proof.
  intros ks js. induction js as [|j js IH]; intros pre suf l; cbn [fold_left].
  - unfold right. cbn. rewrite app_nil_r. reflexivity.
  - assert (E : pre ++ map (fun p => new_angle (dotp (fst p) (snd p))) (pairs (j :: js) ks) ++ suf =
                pre ++ map (fun k => new_angle (dotp j k)) (ks j) ++ (map (fun p => new_angle (dotp (fst p) (snd p))) (pairs js ks) ++ suf)).
    { unfold pairs. cbn [flat_map]. rewrite map_app, map_map, <- app_assoc. reflexivity. }
    rewrite E. rewrite read_run.
    specialize (IH (pre ++ map (fun k => new_angle (dotp j k)) (ks j)) suf (l ++ map (fun k => (j, k, Some (new_angle (dotp j k)))) (ks j))).
    rewrite app_length, map_length in IH. rewrite <- app_assoc in IH.
    etransitivity; [exact IH|]. unfold right, pairs. cbn [flat_map]. rewrite map_app, map_map, <- app_assoc. reflexivity.
Qed.
(** pointer set from ijk_start; [a]: neighbours for which the inner loop is run *)
Lemma start_gen : forall ks (a : nat -> bool) (P : list angle) (st : nat -> nat) js pre suf l,
  P = pre ++ map (fun p => new_angle (dotp (fst p) (snd p))) (pairs js ks) ++ suf ->
  (forall i, In i js -> start_in js ks (List.length pre) i = Some (st i)) -> NoDup js ->
  fold_left (fun (l : list use) j => if a j then snd (fold_left (fun (p : nat * list use) k => (S (fst p), snd p ++ [(j, k, nth_error P (fst p))])) (ks j) (st j, l)) else l) js l
  = l ++ right (filter a js) ks.
Proof.
  intros ks a P st js. induction js as [|j js IH]; intros pre suf l E S N; cbn [fold_left filter].
  - unfold right. cbn. rewrite app_nil_r. reflexivity.
  - inversion N; subst x l0.
    assert (E2 : P = pre ++ map (fun k => new_angle (dotp j k)) (ks j) ++ (map (fun p => new_angle (dotp (fst p) (snd p))) (pairs js ks) ++ suf)).
    { rewrite E. unfold pairs. cbn [flat_map]. rewrite map_app, map_map, <- app_assoc. reflexivity. }
    assert (Q : st j = List.length pre).
    { specialize (S j (or_introl eq_refl)). cbn in S. rewrite Nat.eqb_refl in S. congruence. }
    assert (IH' : forall l, fold_left (fun (l : list use) j => if a j then snd (fold_left (fun (p : nat * list use) k => (Datatypes.S (fst p), snd p ++ [(j, k, nth_error P (fst p))])) (ks j) (st j, l)) else l) js l = l ++ right (filter a js) ks).
    { intros l'. apply (IH (pre ++ map (fun k => new_angle (dotp j k)) (ks j)) suf); auto.
      - rewrite E2, <- app_assoc. reflexivity.
      - intros i I. specialize (S i (or_intror I)). cbn in S. destruct (Nat.eqb_spec i j) as [EE|D]; [rewrite EE in I; contradiction|].
        rewrite app_length, map_length. exact S. }
    destruct (a j).
    + rewrite Q. pose proof (read_run j (ks j) pre (map (fun p => new_angle (dotp (fst p) (snd p))) (pairs js ks) ++ suf) l) as RR. rewrite <- E2 in RR. rewrite RR. cbn [snd]. rewrite IH'. unfold right, pairs. cbn [flat_map]. rewrite map_app, map_map, <- app_assoc. reflexivity.
    + apply IH'.
Qed.
Lemma start_in_some : forall ks js b i, In i js -> exists q, start_in js ks b i = Some q.
Proof.
  intros ks js. induction js as [|j js IH]; intros b i I; [contradiction|]. cbn. destruct (Nat.eqb_spec i j); [eauto|].
  destruct I; [congruence|auto].
Qed.

Lemma outer_ok : forall m, NoDup (outer n m) /\ (forall j, In j (outer n m) -> (j < n)%nat).
Proof.
  intros m. split.
  - destruct m; cbn; try apply NoDup_filter; apply seq_NoDup.
  - intros j H. destruct m; cbn in H; try (apply filter_In in H; destruct H as [H _]); apply in_seq in H; lia.
Qed.
Lemma inner_ok : forall m j k, In k (inner n m j) -> (k < n)%nat.
Proof. intros m j k H. destruct m; cbn in H; try (apply filter_In in H; destruct H as [H _]); apply in_seq in H; lia. Qed.
Lemma init_spec : forall m, exists s, init m = Some s /\
  parts s = map (fun p => new_angle (dotp (fst p) (snd p))) (pairs (outer n m) (inner n m)) /\
  forall i, In i (outer n m) -> start_in (outer n m) (inner n m) 0 i = Some (start s i).
Proof.
  intros m. destruct (init_gen (inner n m) (outer n m) (Angles [] (fun _ => 0%nat))) as (s & E & P & S); try apply outer_ok; [apply inner_ok|].
  exists s. split; [exact E|]. split; [exact P|]. intros i I. rewrite S. cbn [parts List.length].
  destruct (start_in_some (inner n m) _ 0%nat i I) as (q & Q). rewrite Q. reflexivity.
Qed.

(** ** the four users *)
Theorem stiweb_right : forall a s, init Half = Some s -> use_stiweb n a s = right (filter a (outer n Half)) (inner n Half).
Proof.
  intros a s H. destruct (init_spec Half) as (s' & E & P & S). rewrite H in E. inversion E; subst s'.
  apply (start_gen (inner n Half) a (parts s) (start s) (outer n Half) [] [] []); [rewrite app_nil_r; exact P|exact S|apply outer_ok].
Qed.
Theorem tersoff_right : forall a s, init Full = Some s -> use_tersoff n a s = right (filter a (outer n Full)) (inner n Full).
Proof.
  intros a s H. destruct (init_spec Full) as (s' & E & P & S). rewrite H in E. inversion E; subst s'.
  etransitivity; [|apply (start_gen (inner n Full) a (parts s) (start s) (outer n Full) [] [] []); [rewrite app_nil_r; exact P|exact S|apply outer_ok]].
  unfold use_tersoff. apply fold_ext. intros l j _. destruct (a j); auto. f_equal. cbn [inner].
  rewrite <- fold_filter. apply fold_ext. intros p k _. rewrite (Nat.eqb_sym j k). destruct (Nat.eqb k j); reflexivity.
Qed.
Theorem meam_right : forall s, init Half = Some s -> use_meam n s = right (outer n Half) (inner n Half).
Proof.
  intros s H. destruct (init_spec Half) as (s' & E & P & _). rewrite H in E. inversion E; subst s'.
  pose proof (run_gen (inner n Half) (outer n Half) [] [] []) as R. rewrite app_nil_r in R. cbn [app List.length] in R. rewrite <- P in R. exact R.
Qed.
Theorem ang_right : forall ins s, init (Within ins) = Some s -> use_ang n ins s = right (outer n (Within ins)) (inner n (Within ins)).
Proof.
  intros ins s H. destruct (init_spec (Within ins)) as (s' & E & P & _). rewrite H in E. inversion E; subst s'.
  pose proof (run_gen (inner n (Within ins)) (outer n (Within ins)) [] [] []) as R. rewrite app_nil_r in R. cbn [app List.length] in R. rewrite <- P in R.
  rewrite <- R. unfold use_ang. f_equal. cbn [outer inner].
  rewrite <- fold_filter. apply fold_ext. intros p j _. destruct (ins j); auto. rewrite <- fold_filter. reflexivity.
Qed.
Lemma right_in : forall js ks u, In u (right js ks) <-> exists j k, In j js /\ In k (ks j) /\ u = (j, k, Some (new_angle (dotp j k))).
Proof.
  intros js ks u. unfold right, pairs. rewrite in_map_iff. split.
  - intros ([j k] & <- & H). apply in_flat_map in H. destruct H as (j' & J & H). apply in_map_iff in H. destruct H as (k' & E & K).
    inversion E; subst. exists j, k. auto.
  - intros (j & k & J & K & ->). exists (j, k). split; auto. apply in_flat_map. exists j. split; auto. apply in_map. auto.
Qed.
Lemma right_nodup : forall js ks, NoDup js -> (forall j, NoDup (ks j)) -> NoDup (map (fun u : use => (fst (fst u), snd (fst u))) (right js ks)).
Proof.
  intros js ks N K. unfold right. rewrite map_map. cbn. rewrite (map_ext _ (fun p => p)) by (intros []; reflexivity). rewrite map_id.
  unfold pairs. apply NbrProof.nodup_flat_map; auto.
  - intros j _. apply FinFun.Injective_map_NoDup; auto. intros x y H; congruence.
  - intros x y p _ _ X Y. apply in_map_iff in X, Y. destruct X as (? & <- & _), Y as (? & E & _). congruence.
Qed.
Lemma inner_nodup : forall m j, NoDup (inner n m j).
Proof. intros [| |ins] j; cbn; try apply NoDup_filter; apply seq_NoDup. Qed.

(** summary for the four routines: u is visited iff j,k is one of the pairs of the model,
    with the cosine of this pair; none twice *)
Definition visits_exactly (P : nat -> nat -> Prop) (l : list use) : Prop :=
  (forall j k a, In (j, k, a) l <-> (j < n)%nat /\ (k < n)%nat /\ P j k /\ a = Some (new_angle (dotp j k))) /\
  NoDup (map (fun u : use => (fst (fst u), snd (fst u))) l).
Theorem all_right : 
  (exists s, init Half = Some s /\
     visits_exactly (fun j k => (j < k)%nat) (use_meam n s) /\
     forall a, visits_exactly (fun j k => (j < k)%nat /\ a j = true) (use_stiweb n a s)) /\
  (exists s, init Full = Some s /\ forall a, visits_exactly (fun j k => j <> k /\ a j = true) (use_tersoff n a s)) /\
  (forall ins, exists s, init (Within ins) = Some s /\
     visits_exactly (fun j k => (j < k)%nat /\ ins j = true /\ ins k = true) (use_ang n ins s)).
Proof.
  split; [|split].
  - destruct (init_spec Half) as (s & E & _). exists s. split; auto. split.
    + rewrite meam_right by auto. split; [|apply right_nodup; [apply outer_ok|intros; apply inner_nodup]].
      intros j k a. rewrite right_in. cbn. split.
      * intros (j' & k' & J & K & X). inversion X; subst. apply in_seq in J, K. repeat split; auto; lia.
      * intros (J & K & L & ->). exists j, k. rewrite !in_seq. repeat split; auto; lia.
    + intros a. rewrite stiweb_right by auto. split; [|apply right_nodup; [apply NoDup_filter, outer_ok|intros; apply inner_nodup]].
      intros j k x. rewrite right_in. cbn. split.
      * intros (j' & k' & J & K & X). inversion X; subst. apply filter_In in J. destruct J as [J A]. apply in_seq in J, K. repeat split; auto; lia.
      * intros (J & K & (L & A) & ->). exists j, k. rewrite filter_In, !in_seq. repeat split; auto; lia.
  - destruct (init_spec Full) as (s & E & _). exists s. split; auto. intros a.
    rewrite tersoff_right by auto. split; [|apply right_nodup; [apply NoDup_filter, outer_ok|intros; apply inner_nodup]].
    intros j k x. rewrite right_in. cbn. split.
    + intros (j' & k' & J & K & X). inversion X; subst. apply filter_In in J, K. destruct J as [J A], K as [K B]. apply in_seq in J, K.
      apply negb_true_iff, Nat.eqb_neq in B. repeat split; auto; lia.
    + intros (J & K & (L & A) & ->). exists j, k. rewrite !filter_In, !in_seq. rewrite negb_true_iff, Nat.eqb_neq. repeat split; auto; lia.
  - intros ins. destruct (init_spec (Within ins)) as (s & E & _). exists s. split; auto.
    rewrite ang_right by auto. split; [|apply right_nodup; [apply outer_ok|intros; apply inner_nodup]].
    intros j k x. rewrite right_in. cbn. split.
    + intros (j' & k' & J & K & X). inversion X; subst. apply filter_In in J, K. destruct J as [J A], K as [K B]. apply in_seq in J, K. repeat split; auto; lia.
    + intros (J & K & (L & A & B) & ->). exists j, k. rewrite !filter_In, !in_seq. repeat split; auto; lia.
Qed.
End Atom.

(** ** slots of angles *)
Lemma slots_comb : forall c xi x, equidistant c -> begin c <= a_cos x -> exists g,
  angle_dg (d2tab c) xi (angle_slots c (- begin c) x) = Some g /\
  splint_comb_ed c xi (a_cos x) = Some (angle_g (d2tab c) xi (angle_slots c (- begin c) x), g).
Proof.
  intros c xi x (S & I & L & E) H. unfold angle_dg, angle_g, angle_slots, splint_comb_ed, ed_slot, splint_dir, splint_grad_dir. cbn [a_slot a_shift a_step].
  destruct (Req_EM_T (step c) 0); [lra|]. eexists. split; [reflexivity|].
  destruct (Rlt_dec (a_cos x - begin c) 0); [lra|]. replace (a_cos x + - begin c) with (a_cos x - begin c) by ring.
  rewrite I. f_equal. f_equal; field; lra.
Qed.
Theorem angle_slots_right : forall c xi x, equidistant c -> begin c <= a_cos x < endr c ->
  let y := prepared true c (- begin c) x in
  (first c <= a_slot y < last c)%nat /\ 0 <= a_shift y < 1 /\ a_cos y = a_cos x /\
  splint_ed c xi (a_cos x) = Some (angle_g (d2tab c) xi y) /\ splint_grad_ed c xi (a_cos x) = angle_dg (d2tab c) xi y.
Proof.
  intros c xi x E H y.
  destruct (slots_comb c xi x E (proj1 H)) as (g & D & C). destruct (pieces_ed c xi (a_cos x) E H) as (v & g' & V & G & C').
  rewrite C in C'. inversion C'; subst. change (prepared true c (- begin c) x) with (angle_slots c (- begin c) x) in y.
  assert (HH : begin c <= a_cos x <= endr c) by lra.
  destruct (ed_slot_spec c (a_cos x) E HH) as (k & b & ES & _ & B & (G1 & G2) & KL & _).
  assert (Q : a_slot y = (first c + k)%nat /\ a_shift y = b).
  { unfold ed_slot in ES. destruct (Rlt_dec (a_cos x - begin c) 0); [lra|]. inversion ES.
    unfold y, angle_slots; cbn [a_slot a_shift]. replace (a_cos x + - begin c) with (a_cos x - begin c) by ring. split; [lia|auto]. }
  destruct Q as [Q1 Q2]. rewrite Q1, Q2. specialize (KL (proj2 H)). split; [lia|].
  split.
  - rewrite B. destruct E as (S & _). unfold grid in *. rewrite plus_INR in G2. cbn [INR] in G2. split.
    + apply Rmult_le_pos; [lra|]. left. apply Rinv_0_lt_compat; auto.
    + apply Rmult_lt_reg_r with (step c); auto. unfold Rdiv. rewrite Rmult_assoc, Rinv_l by lra. lra.
  - split; [reflexivity|]. unfold y. rewrite V, G, D. auto.
Qed.
(** at the end of the table (for ANG: neighbours in the same direction) the slope is not that
    of the curve *)
Theorem angle_end_refuted : exists c xi g g', equidistant c /\ updated_ed c xi 0 0 /\
  splint_grad_ed c xi (endr c) = Some g /\ angle_dg (d2tab c) xi (prepared true c (- begin c) (new_angle (endr c))) = Some g' /\ g <> g'.
Proof.
  destruct comb_ed_end_refuted as (c & xi & v & g & g' & E & U & V & G & C & G0 & G1).
  assert (B : begin c <= a_cos (new_angle (endr c))).
  { cbn. destruct E as (S & _ & _ & EN). rewrite EN. pose proof (pos_INR (last c - first c)). nra. }
  destruct (slots_comb c xi (new_angle (endr c)) E B) as (g2 & D & C2). cbn [a_cos new_angle] in C2. rewrite C in C2. inversion C2.
  exists c, xi, g, g2. split; auto. split; auto. split; auto. split; [exact D|]. lra.
Qed.
(** builds with tabulated potentials: whatever the angle and the table of g *)
Theorem tabulated_angle : forall c off d2 xi x, angle_dg d2 xi (prepared false c off (new_angle x)) = None /\
  angle_g d2 xi (prepared false c off (new_angle x)) = xi 0%nat.
Proof.
  intros. split.
  - unfold angle_dg; cbn. destruct (Req_EM_T 0 0); [auto|lra].
  - unfold angle_g, splint_dir; cbn. field.
Qed.
Definition ex_g : column := mk_col (-1) 1 1 (1/1) 3 5 (fun _ => 0) (fun _ => 0).
Lemma ex_g_ok : equidistant ex_g /\ begin ex_g <= 1/2 < endr ex_g.
Proof. unfold equidistant, ex_g; simpl. repeat split; try lra; try lia. Qed.
(** the scalar product of two directions *)
Theorem cosine_range : forall v w, norm v = 1 -> norm w = 1 -> Rabs (sprod v w) <= 1.
Proof. intros v w V W. pose proof (cauchy_schwarz v w) as C. rewrite V, W in C. lra. Qed.
