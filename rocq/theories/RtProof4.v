(** Round trip: printing exists, an example, globals that are not used. *)
From Coq Require Import Reals ZArith List Bool String Ascii Lia Lra.
From Verif Require Import LoopUtil ApotModel RtModel RtSpec RtProof RtProof2 RtProof3.
Import ListNotations.
Local Open Scope R_scope.

Definition nearest (k : nat) (x : R) : R := IZR (up (x * 10 ^ k - 1 / 2)) / 10 ^ k.
Lemma nearest_ok : forall k x, decimals k x (nearest k x).
Proof.
  intros k x. pose proof (pow10_pos k) as P. exists (up (x * 10 ^ k - 1 / 2)). split; auto. unfold nearest. destruct (archimed (x * 10 ^ k - 1 / 2)) as [A B]. set (u := IZR (up (x * 10 ^ k - 1 / 2))) in *. clearbody u.
  replace (x - u / 10 ^ k) with ((x * 10 ^ k - u) * / 10 ^ k) by (unfold Rdiv; rewrite Rmult_minus_distr_r, Rmult_assoc, Rinv_r by lra; ring). rewrite Rabs_mult, (Rabs_pos_eq (/ 10 ^ k)) by (left; apply Rinv_0_lt_compat; auto).
  apply Rmult_le_compat_r; [left; apply Rinv_0_lt_compat; auto|]. apply Rabs_le. lra.
Qed.

Definition np (s : string) : option nat := if String.eqb s "morse" then Some 3%nat else None.
Definition ex : wtab := WTab (Some [Par "cp_Cu" 1 0 2 false]) (Some [Par "a" 1 0 2 false])
  [WPot "morse" false 5 [Par "D" (1/10) 0 1 false; Par "a!" 1 0 2 true; Par "r0" 2 2 2 true]].
Lemma ex_legal : legal np ex.
Proof.
  constructor.
  - intros q [<-|[]]. exists 3%nat. split; reflexivity.
  - intros q [<-|[]]. split; [discriminate|split].
    + unfold plain_word. repeat split; try discriminate. intros c s' E. inversion E. discriminate.
    + intros _ b E. cbn [w_name] in E. do 5 (destruct b as [|? b]; [discriminate|cbn [append] in E; injection E; clear E; intros E _]). destruct b; discriminate.
  - intros q p [<-|[]] [<-|[<-|[<-|[]]]]; unfold plain_word; repeat split; try discriminate; intros c s' E; inversion E; discriminate.
  - intros g [<-|[]]. unfold plain_word; repeat split; try discriminate; intros c s' E; inversion E; discriminate.
  - cbn. repeat constructor; auto.
  - intros q p [<-|[]] [<-|[<-|[<-|[]]]] H; try discriminate. exists 0%nat. split; [cbn; lia|]. split; [reflexivity|]. cbn. intros k K. lia.
  - split; [|discriminate]. intros _. exists (WPot "morse" false 5 [Par "D" (1/10) 0 1 false; Par "a!" 1 0 2 true; Par "r0" 2 2 2 true]), (Par "a!" 1 0 2 true). cbn. auto.
Qed.
Lemma ex_filled : filled ex.
Proof. split; [discriminate|]. intros q [<-|[]]. discriminate. Qed.
Lemma ex_ntypes : ntypes_of ex 1.
Proof. intros c E. inversion E. split; [discriminate|reflexivity]. Qed.
Lemma mult_Z : forall k z, multiple k (IZR z).
Proof. intros k z. exists (z * 10 ^ Z.of_nat k)%Z. rewrite mult_IZR, <- pow_IZR. field. apply pow_nonzero. lra. Qed.
Lemma ex_sound : sound true (fun _ => "Cu"%string) ex.
Proof.
  constructor.
  - intros c E. inversion E. intros i Hi. cbn in Hi. destruct i; [|lia]. cbn. split; auto. constructor; cbn; try apply mult_Z; try lra; try (split; [discriminate|lra]).
  - intros g [<-|[]]. constructor; cbn; try apply mult_Z; try lra; try (split; [discriminate|lra]).
  - intros q [<-|[]]. apply mult_Z.
  - intros q p [<-|[]] [<-|[<-|[<-|[]]]]; cbn [p_name has_bang].
    + cbn. constructor; cbn; try apply mult_Z; try lra; try (split; [discriminate|lra]). exists 10000000%Z. lra.
    + cbn. exists 0%nat. split; [|reflexivity]. split; [cbn; lia|]. split; [reflexivity|]. cbn. intros k K. lia.
    + cbn. constructor; cbn; try apply mult_Z; try lra; try tauto.
Qed.

(** a global parameter that no function uses *)
Lemma unused_lost : forall num_params opt cp el n l k t,
  (forall q p, In q (t_pots t) -> In p (w_pars q) -> has_bang (p_name p) = false) -> read_table num_params opt cp el n k l = Some t -> t_globals t = None.
Proof.
  intros num_params opt cp el n l k t H. unfold read_table. intros E.
  repeat match type of E with match ?x with _ => _ end = _ => destruct x; try discriminate end. inversion E. subst. cbn in *.
  destruct (used _) eqn:U; auto. exfalso. unfold used in U. apply existsb_exists in U. destruct U as (q & Q & U). apply existsb_exists in U. destruct U as (p & P & U). rewrite (H q p Q P) in U. discriminate.
Qed.
Lemma ex_ordered : ordered ex.
Proof.
  constructor.
  - intros c p E. inversion E. intros [<-|[]]. cbn. lra.
  - intros g [<-|[]]. cbn. lra.
  - intros q p [<-|[]] [<-|[<-|[<-|[]]]]; cbn; try discriminate; lra.
Qed.
Theorem trip_stable' : forall pr, (forall k x, decimals k x (pr k x)) -> forall opt num_params els rmin t n, legal num_params t -> filled t -> ntypes_of t n -> ordered t ->
  exists t', read_table num_params opt (cp_of t) None n (List.length (t_pots t)) (write_table pr els rmin None t) = Some t' /\
             read_table num_params opt (cp_of t') None n (List.length (t_pots t')) (write_table pr els rmin None t') = Some t'.
Proof. intros pr PR opt np els rmin t n L F N [O1 O2 O3]. apply trip_stable; auto. Qed.
(** a table of one function with one parameter *)
Definition np1 (s : string) : option nat := if String.eqb s "const" then Some 1%nat else None.
Definition single (p : par) : wtab := WTab None None [WPot "const" false 5 [p]].
Lemma single_ok : forall v a b i, a <= b -> legal np1 (single (Par "c" v a b i)) /\ filled (single (Par "c" v a b i)) /\ ordered (single (Par "c" v a b i)).
Proof.
  intros v a b i AB. split; [|split].
  - constructor; cbn [single t_pots globals_of t_globals].
    + intros q [<-|[]]. exists 1%nat. split; reflexivity.
    + intros q [<-|[]]. split; [discriminate|split].
      * unfold plain_word. repeat split; try discriminate. intros c s' E. inversion E. discriminate.
      * intros _ s E. cbn [w_name] in E. do 5 (destruct s as [|? s]; [discriminate|cbn [append] in E; injection E; clear E; intros E _]). destruct s; discriminate.
    + intros q p [<-|[]] [<-|[]]. unfold plain_word; repeat split; try discriminate; intros c s' E; inversion E; discriminate.
    + intros g [].
    + constructor.
    + intros q p [<-|[]] [<-|[]] H. discriminate.
    + split; [congruence|]. intros (q & p & [<-|[]] & [<-|[]] & H). discriminate.
  - split; [discriminate|]. intros q [<-|[]]. discriminate.
  - constructor; [discriminate|intros g []|]. intros q p [<-|[]] [<-|[]] _. cbn. auto.
Qed.
Lemma single_trip : forall pr opt els rmin n v a b i, a <= b -> exists t', let t := single (Par "c" v a b i) in
  read_table np1 opt (cp_of t) None n (List.length (t_pots t)) (write_table pr els rmin None t) = Some t' /\ forall q p, In q (t_pots t') -> In p (w_pars q) -> back pr opt 8 4 (Par "c" v a b i) p.
Proof.
  intros pr opt els rmin n v a b i AB. destruct (single_ok v a b i AB) as (L & F & O). destruct (trip_ok pr opt np1 els rmin _ n L F) as (t' & E & [_ _ _ B]); [intros c C; discriminate|].
  exists t'. split; auto. intros q p Q P. destruct (Forall2_in _ _ _ _ _ B Q) as (q0 & [<-|[]] & [_ _ _ C]). destruct (Forall2_in _ _ _ _ _ C P) as (p0 & [<-|[]] & D). exact D.
Qed.
Theorem free_refuted : exists num_params t, legal num_params t /\ filled t /\ ordered t /\ (exists q p, In q (t_pots t) /\ In p (w_pars q) /\ p_inv p = false /\ p_min p < p_val p < p_max p) /\
  forall pr, (forall k x, decimals k x (pr k x)) -> forall opt els rmin n, exists t',
  read_table num_params opt (cp_of t) None n (List.length (t_pots t)) (write_table pr els rmin None t) = Some t' /\
  forall q p, In q (t_pots t') -> In p (w_pars q) -> p_inv p = true.
Proof.
  exists np1, (single (Par "c" (3/200000) (1/100000) (2/100000) false)). destruct (single_ok (3/200000) (1/100000) (2/100000) false ltac:(lra)) as (L & F & O). repeat (split; auto).
  - exists (WPot "const" false 5 [Par "c" (3/200000) (1/100000) (2/100000) false]), (Par "c" (3/200000) (1/100000) (2/100000) false). split; [left; reflexivity|]. split; [left; reflexivity|]. split; [reflexivity|]. cbn [p_val p_min p_max]. lra.
  - intros pr PR opt els rmin n. destruct (single_trip pr opt els rmin n (3/200000) (1/100000) (2/100000) false ltac:(lra)) as (t' & E & B). exists t'. split; auto. intros q p Q P. apply (free_lost pr PR opt "c" (3/200000)). eauto.
Qed.
Theorem moved_refuted : exists num_params t, legal num_params t /\ filled t /\ ordered t /\
  (exists q p, In q (t_pots t) /\ In p (w_pars q) /\ p_min p <= p_val p <= p_max p /\ p_val p = 4000 / 10 ^ 8) /\
  forall pr, (forall k x, decimals k x (pr k x)) -> forall els rmin n, exists t',
  read_table num_params true (cp_of t) None n (List.length (t_pots t)) (write_table pr els rmin None t) = Some t' /\
  forall q p, In q (t_pots t') -> In p (w_pars q) -> p_val p = 0.
Proof.
  exists np1, (single (Par "c" (4/100000) (-1) (4/100000) false)). destruct (single_ok (4/100000) (-1) (4/100000) false ltac:(lra)) as (L & F & O). repeat (split; auto).
  - exists (WPot "const" false 5 [Par "c" (4/100000) (-1) (4/100000) false]), (Par "c" (4/100000) (-1) (4/100000) false). split; [left; reflexivity|]. split; [left; reflexivity|]. cbn [p_val p_min p_max]. lra.
  - intros pr PR els rmin n. destruct (single_trip pr true els rmin n (4/100000) (-1) (4/100000) false ltac:(lra)) as (t' & E & B). exists t'. split; auto. intros q p Q P. apply (value_moved pr PR true "c" p eq_refl). eauto.
Qed.
