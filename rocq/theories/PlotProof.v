(** Proofs about the file for plotting. *)
From Coq Require Import Reals List Bool Arith Lia Lra.
From Verif Require Import TabModel SplineModel SplineSpec SplineProof3 FuncModel PlotModel PlotSpec.
Import ListNotations.
Local Open Scope R_scope.

Lemma walk_end : forall f cnt r dr, snd (walk f cnt r dr) = r + INR cnt * dr.
Proof.
  intros f. induction cnt as [|k IH]; intros r dr; cbn [walk].
  - simpl. ring.
  - specialize (IH (r + dr) dr). destruct (walk f k (r + dr) dr) as [l e]. cbn [snd] in *. rewrite S_INR. subst e. ring.
Qed.
Lemma walk_len : forall f cnt r dr, length (fst (walk f cnt r dr)) = cnt.
Proof.
  intros f. induction cnt as [|k IH]; intros r dr; cbn [walk]; [reflexivity|].
  specialize (IH (r + dr) dr). destruct (walk f k (r + dr) dr) as [l e]. cbn [fst length] in *. congruence.
Qed.
Lemma walk_nth : forall f cnt r dr k, (k < cnt)%nat -> nth_error (fst (walk f cnt r dr)) k = Some (r + INR k * dr, f (r + INR k * dr)).
Proof.
  intros f. induction cnt as [|m IH]; intros r dr k Hk; [lia|]. cbn [walk].
  specialize (IH (r + dr) dr). destruct (walk f m (r + dr) dr) as [l e]. cbn [fst] in *.
  destruct k as [|k]; cbn [nth_error].
  - simpl INR. replace (r + 0 * dr) with r by ring. reflexivity.
  - rewrite IH by lia. rewrite S_INR. replace (r + dr + INR k * dr) with (r + (INR k + 1) * dr) by ring. reflexivity.
Qed.
Lemma last_point : forall N b e, (2 <= N)%nat -> b + INR (N - 1) * ((e - b) / INR (N - 1)) = e.
Proof. intros N b e H. field. apply not_0_INR. lia. Qed.

Section T.
Variables (N n : nat) (pt : nat -> column) (tab : arr).
Hypothesis N2 : (2 <= N)%nat.
Let F (c : nat) : R -> R := splint_ne (pt c) tab.

Lemma closed_graph : forall c, graph_zero (closed_block N pt tab c) N (begin (pt c)) (endr (pt c)) (F c).
Proof.
  intros c. unfold closed_block.
  pose proof (walk_end (F c) (N - 1) (begin (pt c)) ((endr (pt c) - begin (pt c)) / INR (N - 1))) as We.
  pose proof (walk_len (F c) (N - 1) (begin (pt c)) ((endr (pt c) - begin (pt c)) / INR (N - 1))) as Wl.
  pose proof (walk_nth (F c) (N - 1) (begin (pt c)) ((endr (pt c) - begin (pt c)) / INR (N - 1))) as Wn.
  unfold F in *. destruct (walk _ _ _ _) as [l e]. cbn [fst snd] in *. subst e.
  split; [|split].
  - rewrite app_length, Wl. simpl. lia.
  - rewrite nth_error_app2 by lia. rewrite Wl, Nat.sub_diag. cbn [nth_error]. rewrite last_point by lia. reflexivity.
  - intros k Hk. rewrite nth_error_app1 by lia. apply Wn. lia.
Qed.
Lemma open_graph : forall c, graph (open_block N pt tab c) N (begin (pt c)) (endr (pt c)) (F c).
Proof. intros c. split; [apply walk_len|]. intros k Hk. apply (walk_nth (F c)). auto. Qed.

(** the numbers of the columns *)
Lemma upper_len : forall m s, length (flat_map (fun i => map (fun j => (i, j)) (seq i (s + m - i))) (seq s m)) = (m * (m + 1) / 2)%nat.
Proof.
  induction m as [|m IH]; intros s; [reflexivity|]. cbn [seq flat_map]. rewrite app_length, map_length, seq_length.
  replace (s + S m)%nat with (S s + m)%nat by lia. rewrite IH.
  replace (S m * (S m + 1))%nat with (m * (m + 1) + (m + 1) * 2)%nat by lia. rewrite Nat.div_add by lia. lia.
Qed.
Lemma count_fold : forall (L : list (nat * nat)) (f : nat -> block) out k,
  fold_left (fun (s : list block * nat) (_ : nat * nat) => let '(out, k) := s in (out ++ [f k], S k)) L (out, k) = (out ++ map f (seq k (length L)), (k + length L)%nat).
Proof.
  induction L as [|x L IH]; intros f out k; cbn [fold_left length seq map]; [rewrite app_nil_r, Nat.add_0_r; reflexivity|].
  rewrite IH, <- app_assoc. cbn [app]. f_equal. lia.
Qed.
Lemma pair_blocks_eq : pair_blocks N n pt tab = map (closed_block N pt tab) (seq 0 (paircol n)).
Proof. unfold pair_blocks. rewrite count_fold. cbn [fst app]. do 2 f_equal. apply (upper_len n 0). Qed.

(** [embedding b n c]: column c is an embedding function *)
Definition embedding (c : nat) : bool := (Nat.leb (paircol n + n) c && Nat.ltb c (paircol n + 2 * n))%bool.
Definition one (c : nat) : block := if embedding c then open_block N pt tab c else closed_block N pt tab c.
Lemma one_map : forall f lo k, (forall c, (lo <= c < lo + k)%nat -> f c = one c) -> map f (seq lo k) = map one (seq lo k).
Proof. intros f lo k H. apply map_ext_in. intros c Hc. apply in_seq in Hc. apply H. lia. Qed.
Lemma one_closed : forall c, (c < paircol n + n \/ paircol n + 2 * n <= c)%nat -> closed_block N pt tab c = one c.
Proof. intros c H. unfold one, embedding. destruct (Nat.leb_spec (paircol n + n) c), (Nat.ltb_spec c (paircol n + 2 * n)); cbn [andb]; auto; lia. Qed.
Lemma one_open : forall c, (paircol n + n <= c < paircol n + 2 * n)%nat -> open_block N pt tab c = one c.
Proof. intros c H. unfold one, embedding. destruct (Nat.leb_spec (paircol n + n) c), (Nat.ltb_spec c (paircol n + 2 * n)); cbn [andb]; auto; lia. Qed.
Lemma pair_one : pair_blocks N n pt tab = map one (seq 0 (paircol n)).
Proof. rewrite pair_blocks_eq. apply one_map. intros c H. apply one_closed. lia. Qed.
Lemma eam_one : eam_blocks N n pt tab = map one (seq (paircol n) (2 * n)).
Proof.
  unfold eam_blocks, blocks. replace (paircol n + n - paircol n)%nat with n by lia. replace (paircol n + 2 * n - (paircol n + n))%nat with n by lia.
  replace (2 * n)%nat with (n + n)%nat by lia. rewrite seq_app, map_app. f_equal; apply one_map; intros c H; [apply one_closed|apply one_open]; lia.
Qed.
Lemma adp_one : adp_blocks N n pt tab = map one (seq (paircol n + 2 * n) (2 * paircol n)).
Proof.
  unfold adp_blocks, blocks. replace (2 * (paircol n + n) - (paircol n + 2 * n))%nat with (paircol n) by lia.
  replace (3 * paircol n + 2 * n - 2 * (paircol n + n))%nat with (paircol n) by lia.
  replace (2 * paircol n)%nat with (paircol n + paircol n)%nat by lia. rewrite seq_app, map_app.
  replace (2 * (paircol n + n))%nat with (paircol n + 2 * n + paircol n)%nat by lia.
  f_equal; apply one_map; intros c H; apply one_closed; lia.
Qed.
Lemma meam_one : meam_blocks N n pt tab = map one (seq (paircol n) (2 * n)) ++ map one (seq (paircol n + 2 * n) (paircol n + n)).
Proof.
  rewrite <- eam_one. unfold meam_blocks, eam_blocks, blocks. rewrite <- app_assoc. do 2 f_equal.
  replace (2 * paircol n + 2 * n - (paircol n + 2 * n))%nat with (paircol n) by lia.
  replace (2 * paircol n + 3 * n - (2 * paircol n + 2 * n))%nat with n by lia.
  rewrite seq_app, map_app. replace (2 * paircol n + 2 * n)%nat with (paircol n + 2 * n + paircol n)%nat by lia.
  f_equal; apply one_map; intros c H; apply one_closed; lia.
Qed.
(** what the blocks are, for all builds *)
Definition shown (b : build) : list nat :=
  match b with
  | Pairs | Eam | Adp => seq 0 (npots b n)
  | Tbeam => seq 0 (paircol n + 2 * n)
  | Ang => seq 0 (paircol n)
  | Meam => seq 0 (paircol n + 2 * n) ++ seq (paircol n) (2 * n) ++ seq (paircol n + 2 * n) (paircol n + n)
  end.
Theorem plot_shown : forall b, plot_tables N n pt tab b = map one (shown b).
Proof.
  intros b. unfold plot_tables. rewrite pair_one. destruct b; cbn [shown npots]; rewrite ?app_nil_r; auto; rewrite ?eam_one, ?adp_one, ?meam_one.
  - rewrite (seq_app (paircol n)), map_app. reflexivity.
  - rewrite (seq_app (paircol n)), map_app. reflexivity.
  - replace (3 * paircol n + 2 * n)%nat with (paircol n + (2 * n + 2 * paircol n))%nat by lia.
    rewrite !seq_app, !map_app. reflexivity.
  - rewrite (seq_app (paircol n) (2 * n) 0), !map_app. rewrite <- !app_assoc. reflexivity.
Qed.
Lemma one_graph : forall c, if embedding c then graph (one c) N (begin (pt c)) (endr (pt c)) (F c) else graph_zero (one c) N (begin (pt c)) (endr (pt c)) (F c).
Proof. intros c. unfold one. destruct (embedding c); [apply open_graph|apply closed_graph]. Qed.
(** the value at the end *)
Lemma spline_end : forall c, listed (pt c) -> F c (endr (pt c)) = tab (last (pt c)).
Proof using pt tab.
  clear N n N2.
  intros c L. unfold F, splint_ne. destruct (ne_find_spec (pt c) (endr (pt c)) L) as (k & E & K & _ & _ & _ & D). rewrite E.
  destruct L as (L1 & L2 & L3 & L4).
  assert (KL : (k + 1 = last (pt c))%nat) by (apply D; lra).
  assert (H : xcoord (pt c) k < xcoord (pt c) (k + 1)%nat) by (replace (k + 1)%nat with (S k) by lia; apply L4; lia).
  rewrite KL in *. rewrite L3.
  replace ((xcoord (pt c) (last (pt c)) - xcoord (pt c) k) / (xcoord (pt c) (last (pt c)) - xcoord (pt c) k)) with 1 by (field; lra). field.
Qed.
Lemma zero_graph : forall l c, listed (pt c) -> tab (last (pt c)) = 0 -> graph_zero l N (begin (pt c)) (endr (pt c)) (F c) -> graph l N (begin (pt c)) (endr (pt c)) (F c).
Proof.
  intros l c L Z (A & B & C). split; auto. intros k Hk. destruct (Nat.eq_dec k (N - 1)) as [->|NE]; [|apply C; lia].
  rewrite B, last_point by lia. rewrite spline_end by auto. rewrite Z. reflexivity.
Qed.

Theorem plot_complete : forall b, In b [Pairs; Eam; Adp] ->
  length (plot_tables N n pt tab b) = npots b n /\
  forall c, (c < npots b n)%nat -> listed (pt c) -> (embedding c = true \/ tab (last (pt c)) = 0) ->
  exists l, nth_error (plot_tables N n pt tab b) c = Some l /\ graph l N (begin (pt c)) (endr (pt c)) (splint_ne (pt c) tab).
Proof.
  intros b HB. rewrite plot_shown. replace (shown b) with (seq 0 (npots b n)) by (destruct HB as [<-|[<-|[<-|[]]]]; reflexivity).
  split; [rewrite map_length, seq_length; reflexivity|].
  intros c Hc L Z. exists (one c). split.
  - rewrite (map_nth_error one c (seq 0 (npots b n)) (d := c)); [reflexivity|].
    rewrite (nth_error_nth' _ 0%nat) by (rewrite seq_length; auto). rewrite seq_nth by auto. reflexivity.
  - pose proof (one_graph c) as G. destruct Z as [Z|Z]; [rewrite Z in G; exact G|]. destruct (embedding c); [exact G|]. apply zero_graph; auto.
Qed.
Theorem plot_points : forall b, In b [Pairs; Eam; Adp] ->
  forall c, (c < npots b n)%nat ->
  exists l, nth_error (plot_tables N n pt tab b) c = Some l /\
    (if embedding c then graph l N (begin (pt c)) (endr (pt c)) (splint_ne (pt c) tab) else graph_zero l N (begin (pt c)) (endr (pt c)) (splint_ne (pt c) tab)).
Proof.
  intros b HB. rewrite plot_shown. replace (shown b) with (seq 0 (npots b n)) by (destruct HB as [<-|[<-|[<-|[]]]]; reflexivity).
  intros c Hc. exists (one c). split; [|apply one_graph].
  rewrite (map_nth_error one c (seq 0 (npots b n)) (d := c)); [reflexivity|].
  rewrite (nth_error_nth' _ 0%nat) by (rewrite seq_length; auto). rewrite seq_nth by auto. reflexivity.
Qed.
(** MEAM: the block where the first function f belongs shows the first transfer function *)
Theorem meam_twice : (1 <= n)%nat -> length (plot_tables N n pt tab Meam) = (npots Meam n + 2 * n)%nat /\
  nth_error (plot_tables N n pt tab Meam) (paircol n + 2 * n) = nth_error (plot_tables N n pt tab Meam) (paircol n).
Proof.
  intros N1. rewrite plot_shown. cbn [shown npots]. split; [rewrite map_length, !app_length, !seq_length; lia|].
  rewrite !map_app. rewrite nth_error_app2 by (rewrite map_length, seq_length; lia). rewrite map_length, seq_length, Nat.sub_diag.
  rewrite nth_error_app1 by (rewrite map_length, seq_length; lia). rewrite (nth_error_app1 (map one (seq 0 _))) by (rewrite map_length, seq_length; lia).
  destruct n as [|m]; [lia|]. replace (2 * S m)%nat with (S (m + S m)) by lia. cbn [seq map nth_error].
  symmetry. apply map_nth_error. rewrite (nth_error_nth' _ 0%nat) by (rewrite seq_length; lia). rewrite seq_nth by lia. reflexivity.
Qed.
Theorem missing_blocks : length (plot_tables N n pt tab Tbeam) = (npots Tbeam n - 2 * n)%nat /\ length (plot_tables N n pt tab Ang) = (npots Ang n - (paircol n + n))%nat.
Proof. rewrite !plot_shown. cbn [shown npots]. rewrite !map_length, !seq_length. split; lia. Qed.
End T.

Theorem plot_apot : forall N number plotmin fv smooth aend lastp i, (2 <= N)%nat -> (i < number)%nat ->
  exists l, nth_error (plot_analytic N number plotmin fv smooth aend lastp) i = Some l /\
  graph l N (if Req_EM_T plotmin 0 then 1 / 10 else plotmin) (aend i)
    (fun r => match fv i r with Some v => v * (if smooth i then apot_cutoff r (aend i) (lastp i) else 1) | None => BIG end).
Proof.
  intros N number plotmin fv smooth aend lastp i N2 Hi. exists (apot_block N plotmin fv smooth aend lastp i). split.
  - unfold plot_analytic. apply map_nth_error. rewrite (nth_error_nth' _ 0%nat) by (rewrite seq_length; auto). rewrite seq_nth by auto. reflexivity.
  - split; [apply walk_len|]. intros k Hk. unfold apot_block. rewrite walk_nth by auto. do 2 f_equal.
    unfold apot_value. destruct (fv i _); auto. destruct (smooth i); auto. ring.
Qed.
Theorem plot_apot_len : forall N number plotmin fv smooth aend lastp, length (plot_analytic N number plotmin fv smooth aend lastp) = number.
Proof. intros. unfold plot_analytic. rewrite map_length, seq_length. reflexivity. Qed.

(** a table with a value other than zero at the end *)
Definition flat_col : column := mk_col 0 1 1 1 0 1 (fun k => INR k) (fun _ => 0).
Lemma flat_listed : listed flat_col.
Proof. repeat split; cbn; try lra; try lia. intros i Hi. assert (i = 0)%nat by lia. subst. cbn. lra. Qed.
Theorem plot_last_refuted : exists pt tab l, listed (pt 0%nat) /\ nth_error (plot_tables NPLOT 1 pt tab Pairs) 0 = Some l /\
  ~ graph l NPLOT (begin (pt 0%nat)) (endr (pt 0%nat)) (splint_ne (pt 0%nat) tab).
Proof.
  assert (N2 : (2 <= NPLOT)%nat) by (unfold NPLOT; apply Nat.leb_le; reflexivity).
  exists (fun _ => flat_col), (fun _ => 1), (one NPLOT 1 (fun _ => flat_col) (fun _ => 1) 0). split; [apply flat_listed|]. split; [reflexivity|].
  intros (_ & H). assert (L : (NPLOT - 1 < NPLOT)%nat) by lia. specialize (H _ L).
  pose proof (one_graph NPLOT 1 (fun _ => flat_col) (fun _ => 1) N2 0%nat) as (_ & G & _). rewrite G in H.
  rewrite last_point in H by auto. pose proof (spline_end (fun _ => flat_col) (fun _ => 1) 0%nat flat_listed) as E. cbv beta in E. rewrite E in H. injection H as Q. lra.
Qed.
Lemma nplot2 : (2 <= NPLOT)%nat.
Proof. unfold NPLOT. apply Nat.leb_le. reflexivity. Qed.
Lemma embedding_true : forall n c, (paircol n + n <= c < paircol n + 2 * n)%nat -> embedding n c = true.
Proof. intros n c H. unfold embedding. destruct (Nat.leb_spec (paircol n + n) c), (Nat.ltb_spec c (paircol n + 2 * n)); auto; lia. Qed.
Lemma embedding_false : forall n c, ~ (paircol n + n <= c < paircol n + 2 * n)%nat -> embedding n c = false.
Proof. intros n c H. unfold embedding. destruct (Nat.leb_spec (paircol n + n) c), (Nat.ltb_spec c (paircol n + 2 * n)); auto; lia. Qed.
Theorem plot_complete' : forall n pt tab b, In b [Pairs; Eam; Adp] ->
  length (plot_tables NPLOT n pt tab b) = npots b n /\
  forall c, (c < npots b n)%nat -> listed (pt c) -> ((paircol n + n <= c < paircol n + 2 * n)%nat \/ tab (last (pt c)) = 0) ->
  exists l, nth_error (plot_tables NPLOT n pt tab b) c = Some l /\ graph l NPLOT (begin (pt c)) (endr (pt c)) (splint_ne (pt c) tab).
Proof.
  intros n pt tab b HB. destruct (plot_complete NPLOT n pt tab nplot2 b HB) as (A & B). split; auto. intros c Hc L Z. apply B; auto.
  destruct Z as [Z|Z]; auto. left. apply embedding_true. auto.
Qed.
Theorem plot_points' : forall n pt tab b, In b [Pairs; Eam; Adp] ->
  forall c, (c < npots b n)%nat -> ~ (paircol n + n <= c < paircol n + 2 * n)%nat ->
  exists l, nth_error (plot_tables NPLOT n pt tab b) c = Some l /\
    graph_zero l NPLOT (begin (pt c)) (endr (pt c)) (splint_ne (pt c) tab).
Proof.
  intros n pt tab b HB c Hc E. destruct (plot_points NPLOT n pt tab nplot2 b HB c Hc) as (l & A & B). exists l. split; auto.
  rewrite (embedding_false n c E) in B. exact B.
Qed.
Theorem plot_analytic_all : forall number plotmin fv smooth aend lastp,
  length (plot_analytic NPLOT number plotmin fv smooth aend lastp) = number /\
  forall i, (i < number)%nat -> exists l, nth_error (plot_analytic NPLOT number plotmin fv smooth aend lastp) i = Some l /\
  graph l NPLOT (if Req_EM_T plotmin 0 then 1 / 10 else plotmin) (aend i)
    (fun r => match fv i r with Some v => v * (if smooth i then apot_cutoff r (aend i) (lastp i) else 1) | None => BIG end).
Proof. intros. split; [apply plot_apot_len|]. intros i Hi. apply plot_apot; auto. apply nplot2. Qed.
Lemma plot_ex : listed flat_col /\ In Eam [Pairs; Eam; Adp] /\ (0 < npots Eam 1)%nat.
Proof. split; [exact flat_listed|]. split; [cbn; auto|]. apply Nat.ltb_lt. reflexivity. Qed.
Theorem plot_meam : forall n pt tab, (1 <= n)%nat ->
  length (plot_tables NPLOT n pt tab Meam) = (npots Meam n + 2 * n)%nat /\
  nth_error (plot_tables NPLOT n pt tab Meam) (paircol n + 2 * n) = nth_error (plot_tables NPLOT n pt tab Meam) (paircol n).
Proof. intros. apply meam_twice; auto. apply nplot2. Qed.
Theorem plot_missing : forall n pt tab,
  length (plot_tables NPLOT n pt tab Tbeam) = (npots Tbeam n - 2 * n)%nat /\
  length (plot_tables NPLOT n pt tab Ang) = (npots Ang n - (paircol n + n))%nat.
Proof. intros. apply missing_blocks; auto. apply nplot2. Qed.
