(** Names of parameters and their memory. *)
From Coq Require Import Reals ZArith List Bool String Ascii Arith Lia Lra.
From Verif Require Import ParamsModel NameModel NameSpec NameProof ApotModel RtModel RtSpec RtProof RtProof2 RtProof3 RtProof4.
Import ListNotations.
Local Open Scope nat_scope.

Lemma append_len : forall a b, String.length (a ++ b)%string = String.length a + String.length b.
Proof. induction a; intros b; simpl; auto. Qed.
Lemma names_iff : forall t, Forall in_bounds (name_copies t) <-> (forall s, In s (param_names t) -> String.length s < 30).
Proof.
  intros t. rewrite Forall_forall. unfold name_copies. split.
  - intros H s S. specialize (H _ (in_map (fun s => (30, txt s)) _ _ S)). unfold in_bounds in H. cbn [fst snd] in H. rewrite txt_length in H. lia.
  - intros H c C. apply in_map_iff in C. destruct C as (s & <- & S). specialize (H s S). unfold in_bounds. cbn [fst snd]. rewrite txt_length. lia.
Qed.
(** what is written can be read back inside the bounds *)
Lemma trip_bounds : forall pr opt num_params els rmin t n, legal num_params t -> filled t -> ntypes_of t n ->
  (forall s, In s (map p_name (globals_of t) ++ flat_map (fun q => map p_name (w_pars q)) (t_pots t)) -> String.length s < 30) ->
  (forall i, String.length (els i) <= 14) ->
  exists t', read_table num_params opt (cp_of t) None n (List.length (t_pots t)) (write_table pr els rmin None t) = Some t' /\ Forall in_bounds (name_copies t').
Proof.
  intros pr opt np els rmin t n L F N S E. destruct (trip_ok pr opt np els rmin t n L F N) as (t' & R & [B1 _ B3 B4]). exists t'. split; [exact R|]. apply names_iff.
  intros s H. unfold param_names in H. apply in_app_or in H. destruct H as [H|H]; [|apply in_app_or in H; destruct H as [H|H]].
  - destruct (t_cp t) as [c|], (t_cp t') as [d|]; try contradiction. destruct B1 as (L1 & B1). apply in_map_iff in H. destruct H as (p & <- & P).
    destruct (In_nth d p (Par "" 0%R 0%R 0%R false) P) as (k & K & <-). destruct (B1 k ltac:(lia)) as [Q _ _ _ _]. rewrite Q. cbn [rename p_name]. rewrite append_len. pose proof (E k). cbn [String.length]. lia.
  - apply in_map_iff in H. destruct H as (p & <- & P). destruct (Forall2_in _ _ _ _ _ B3 P) as (p0 & P0 & [Q _ _ _ _]). rewrite Q. apply S. apply in_or_app. left. apply in_map. exact P0.
  - apply in_flat_map in H. destruct H as (q & Q & H). apply in_map_iff in H. destruct H as (p & <- & P). destruct (Forall2_in _ _ _ _ _ B4 Q) as (q0 & Q0 & [_ _ _ C]).
    destruct (Forall2_in _ _ _ _ _ C P) as (p0 & P0 & D). assert (X : p_name p = p_name p0).
    { unfold par_back in D. destruct (has_bang (p_name p0)); [|apply D]. destruct D as (l & _ & ->). reflexivity. }
    rewrite X. apply S. apply in_or_app. right. apply in_flat_map. exists q0. split; auto. apply in_map. exact P0.
Qed.
(** a long name *)
Definition long_name : string := "equilibrium_distance_of_the_two_atoms".
Definition lone (p : par) : wtab := WTab None None [WPot "const" false 5%R [p]].
Lemma lone_ok : legal np1 (lone (Par long_name 1 0 2 false)) /\ filled (lone (Par long_name 1 0 2 false)).
Proof.
  split.
  - destruct (single_ok 1 0 2 false ltac:(lra)) as ([L1 L2 L3 L4 L5 L6 L7] & _ & _). constructor; cbn [lone t_pots globals_of t_globals].
    + intros q [<-|[]]. exists 1. split; reflexivity.
    + intros q [<-|[]]. exact (L2 _ (or_introl eq_refl)).
    + intros q p [<-|[]] [<-|[]]. unfold plain_word; repeat split; try discriminate; intros c s' E; inversion E; discriminate.
    + intros g [].
    + constructor.
    + intros q p [<-|[]] [<-|[]] H. discriminate.
    + split; [congruence|]. intros (q & p & [<-|[]] & [<-|[]] & H). discriminate.
  - split; [discriminate|]. intros q [<-|[]]. discriminate.
Qed.
Lemma long_name_refuted : exists num_params t, legal num_params t /\ filled t /\ (forall s, In s (param_names t) -> String.length s < 255) /\
  forall pr opt els rmin n, exists t', read_table num_params opt (cp_of t) None n (List.length (t_pots t)) (write_table pr els rmin None t) = Some t' /\ ~ Forall in_bounds (name_copies t').
Proof.
  exists np1, (lone (Par long_name 1 0 2 false)). destruct lone_ok as (L & F). refine (conj L (conj F (conj _ _))).
  - intros s [<-|[]]. cbn. lia.
  - intros pr opt els rmin n. destruct (trip_ok pr opt np1 els rmin _ n L F) as (t' & E & [_ _ _ B]); [intros c C; discriminate|]. exists t'. split; [exact E|]. intro H. rewrite names_iff in H.
    destruct (Forall2_in1 _ _ _ _ (WPot "const" false 5%R [Par long_name 1 0 2 false]) B (or_introl eq_refl)) as (q & Q & [_ _ _ C]).
    destruct (Forall2_in1 _ _ _ _ (Par long_name 1 0 2 false) C (or_introl eq_refl)) as (p & P & D). unfold par_back in D. change (has_bang (p_name (Par long_name 1 0 2 false))) with false in D.
    destruct D as [X _ _ _ _]. cbn [p_name] in X. specialize (H (p_name p)). rewrite X in H.
    assert (K : String.length long_name < 30). { apply H. unfold param_names. apply in_or_app. right. apply in_or_app. right. apply in_flat_map. exists q. split; auto. rewrite <- X. apply in_map. exact P. }
    cbn in K. lia.
Qed.

Lemma endpot_given : forall st, (has_str "endpot" st = true -> endpot st = str "endpot" st) /\
  (has_str "endpot" st = false -> endpot st = (str "startpot" st ++ txt "_end")%list).
Proof. intros st. unfold endpot. split; intros ->; reflexivity. Qed.

Lemma imd_distinct : forall b i st, NoDup (map snd (imd_files b i st)).
Proof.
  intros b i st. unfold imd_files. destruct (has_str "imdpot" st); [|constructor]. rewrite map_map. apply map_NoDup.
  - intros x y E. cbn in E. apply app_inv_head in E. apply txt_inj in E. exact E.
  - unfold imd_ext. destruct i, (b_coulomb b && b_apot b)%bool; cbn; repeat constructor; cbn; intuition discriminate.
Qed.
