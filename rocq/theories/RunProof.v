(** Proofs about the end potential. *)
From Coq Require Import Reals ZArith List Bool String Lia Lra.
From Verif Require Import ApotModel ApotSpec ApotProof ApotProof2 ApotProof3 ApotProof4 ApotProof5 RunModel.
Import ListNotations.
Local Open Scope R_scope.

(** the values written are those of the vector x: free and global parameters *)
Definition describes (nt : nat) (a : apot) (v : values) (x : vec) : Prop :=
  let l := read_pot_table0 nt a in
  (forall i j, free_par a i j -> v i j = x (home nt a l i j)) /\
  (forall g i j, In (g, (i, j)) (uses a) -> v i j = x (l_global_idx l + Z.of_nat g)%Z).
(** the fit is left as it is by the least squares step: too small already *)
Definition perfect (cf : vec -> R * vec) (x : vec) : Prop := fst (cf x) < VERY_SMALL.

Section A.
Variables (f : rawfile) (nt : nat) (a : apot).
Hypothesis RD : read_file f = Some a.
Hypothesis SZ : sizes_ok nt a.
Hypothesis CP : cp_free a.
Hypothesis NC : no_clash a.
Notation l := (read_pot_table0 nt a).
Lemma upd_describes : forall x v, describes nt a (upd KApot a l x v) x.
Proof.
  intros x v. destruct (apot_mirrors nt a x v (index_is_right nt a SZ CP NC) (read_bound f a RD)) as (A & B & _). split; auto.
Qed.
Variable cf : vec -> R * vec.
Hypothesis NORM : forall x, fst (cf (snd (cf x))) = fst (cf x).

Theorem end_potential : forall i s tot x v, main_run KApot a l cf i s = (tot, x, v) -> describes nt a (s_vals s) (s_tab s) ->
  (i_opt i = true -> forall evs best, i_search i = Some (evs, best) -> perfect cf best -> i_method i = SA /\ i_tempfile i = true) ->
  exists w, describes nt a v w /\ fst (cf w) = tot.
Proof.
  intros i s tot x v H D OK. unfold main_run in H. destruct (i_opt i) eqn:O.
  2:{ destruct (cf (s_tab s)) as [t y] eqn:E. injection H as <- <- <-. exists (s_tab s). rewrite E. auto. }
  specialize (OK eq_refl). unfold run_optimization, powell in H.
  assert (P : forall s0, (perfect cf (s_tab s0) -> exists w, describes nt a (s_vals s0) w /\ fst (cf w) = fst (cf (s_tab s0))) ->
    (let '(tot', x') := cf (s_tab (let '(F1, x1) := cf (s_tab s0) in
        if Rlt_dec F1 VERY_SMALL then mk_st x1 (s_vals s0)
        else mk_st (i_final i) (upd KApot a l (i_final i) (when (i_tempfile i) (fun v => fold_left (fun v e => upd KApot a l e v) (i_steps i) v) (s_vals s0))))) in
     (tot', x', s_vals (let '(F1, x1) := cf (s_tab s0) in
        if Rlt_dec F1 VERY_SMALL then mk_st x1 (s_vals s0)
        else mk_st (i_final i) (upd KApot a l (i_final i) (when (i_tempfile i) (fun v => fold_left (fun v e => upd KApot a l e v) (i_steps i) v) (s_vals s0)))))) = (tot, x, v) ->
    exists w, describes nt a v w /\ fst (cf w) = tot).
  { clear H. intros s0 B H. destruct (cf (s_tab s0)) as [F1 x1] eqn:E. pose proof (NORM (s_tab s0)) as N. unfold perfect in B. rewrite E in N, B. cbn [fst snd] in N, B.
    destruct (Rlt_dec F1 VERY_SMALL) as [T|T]; cbn [s_tab s_vals] in H.
    - destruct (cf x1) as [t y] eqn:E1. cbn [fst] in N. injection H as <- <- <-. destruct (B T) as (w & W1 & W2). exists w. split; auto. congruence.
    - destruct (cf (i_final i)) as [t y] eqn:E1. injection H as <- <- <-. exists (i_final i). split; [apply upd_describes|rewrite E1; auto]. }
  apply P with (2 := H). clear P H. intros PF.
  destruct (i_method i) eqn:M.
  - unfold simulated_annealing in *. destruct (i_search i) as [[evs best]|] eqn:SR; cbn [s_tab s_vals] in *.
    + destruct (OK evs best eq_refl PF) as [_ TF]. rewrite TF. cbn [when]. exists best. split; [apply upd_describes|auto].
    + exists (s_tab s). split; auto.
  - unfold differential_evolution in *. destruct (i_search i) as [[evs best]|] eqn:SR; cbn [s_tab s_vals] in *.
    + destruct (OK evs best eq_refl PF) as [X _]. discriminate.
    + exists (s_tab s). split; auto.
Qed.
End A.

(** tables are written from the vector itself *)
Theorem end_table : forall a l cf i s tot x v, main_run KTab a l cf i s = (tot, x, v) ->
  (forall y, snd (cf y) = y) -> fst (cf x) = tot.
Proof.
  intros a l cf i s tot x v H ID. unfold main_run in H. destruct (cf (s_tab _)) as [t y] eqn:E. injection H as <- <- <-.
  specialize (ID (s_tab (if i_opt i then run_optimization KTab a l cf i s else s))). rewrite E in ID. cbn [snd] in ID. rewrite ID, E. auto.
Qed.

(** one parameter, error sum: its square; start value 1; the search finds 0 *)
Definition w_apot : apot := Apot [Pot false false [(fr 1, None)]] None None None [].
Definition w_cf (x : vec) : R * vec := (x 2%Z * x 2%Z, x).
Definition w_in (m : method) (t : bool) : inputs := mk_in true m t (Some ([], fun _ => 0)) [] (fun _ => 0).
Definition w_st : state := mk_st (fun _ => 1) (fun _ _ => 1).
Lemma w_ok : sizes_ok 1 w_apot /\ cp_free w_apot /\ no_clash w_apot.
Proof. split; [repeat split; simpl; auto|]. split; [|intros H; simpl in H; congruence]. intros c H; inversion H. Qed.
Lemma w_free : free_par w_apot 0 0.
Proof. exists (fr 1). split; [|reflexivity]. exists [fr 1]. split; reflexivity. Qed.
Lemma w_home : home 1 w_apot (read_pot_table0 1 w_apot) 0 0 = 2%Z.
Proof. reflexivity. Qed.
Lemma end_refuted : forall m t, ~ (m = SA /\ t = true) ->
  exists nt a cf i s tot x v, sizes_ok nt a /\ cp_free a /\ no_clash a /\ describes nt a (s_vals s) (s_tab s) /\
  i_method i = m /\ i_tempfile i = t /\
  main_run KApot a (read_pot_table0 nt a) cf i s = (tot, x, v) /\ (forall y, snd (cf y) = y) /\
  tot = 0 /\ forall w, describes nt a v w -> fst (cf w) = 1.
Proof.
  intros m t MT. exists 1%nat, w_apot, w_cf, (w_in m t), w_st, (0 * 0), (fun _ => 0), (fun _ _ => 1).
  destruct w_ok as (A & B & C). split; auto. split; auto. split; auto. split; [split; auto|]. split; auto. split; auto. split; [|split; [auto|split; [ring|]]].
  - assert (P : 0 * 0 < VERY_SMALL). { rewrite Rmult_0_l. unfold VERY_SMALL. apply Rinv_0_lt_compat. lra. }
    assert (E : (match m with SA => simulated_annealing KApot w_apot (read_pot_table0 1 w_apot) w_cf (w_in m t) w_st
                 | EVO => differential_evolution KApot (read_pot_table0 1 w_apot) (w_in m t) w_st end) = mk_st (fun _ => 0) (fun _ _ => 1)).
    { destruct m, t; try reflexivity. exfalso. auto. }
    unfold main_run, run_optimization. cbn [i_opt w_in i_method]. fold (w_in m t). rewrite E. unfold powell. cbn [s_tab w_cf s_vals].
    destruct (Rlt_dec (0 * 0) VERY_SMALL); [|contradiction]. reflexivity.
  - intros w [W _]. specialize (W _ _ w_free). rewrite w_home in W. unfold w_cf. cbn [fst]. rewrite <- W. ring.
Qed.
(** hypotheses of end_potential can be met with a search that moved *)
Lemma end_ex : read_file (RawFile true None None None [] [RawPot 1 false false [Raw "x" 1 0 9]]) = Some (Apot [Pot false false [(Par "x" 1 0 9 false, None)]] None None None []) /\
  let a := Apot [Pot false false [(Par "x" 1 0 9 false, None)]] None None None [] in sizes_ok 1 a /\ cp_free a /\ no_clash a /\ free_par a 0 0.
Proof.
  split.
  - cbn. unfold read_par, check_value. cbn. destruct (Req_EM_T 0 9); [lra|]. destruct (Rlt_dec 9 0); [lra|]. destruct (Rlt_dec 1 0); [lra|]. destruct (Rlt_dec 9 1); [lra|]. reflexivity.
  - cbv zeta. split; [repeat split; simpl; auto|]. split; [intros c H; inversion H|]. split; [intros H; simpl in H; congruence|].
    exists (Par "x" 1 0 9 false). split; [|reflexivity]. exists [Par "x" 1 0 9 false]. split; reflexivity.
Qed.
