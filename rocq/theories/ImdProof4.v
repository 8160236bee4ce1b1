(** Examples for the IMD export. *)
From Coq Require Import Reals ZArith List Bool Lia Lra String.
From Verif Require Import PairIndexModel SplineModel FuncModel ImdModel ImdSpec ImdProof ImdProof2 ImdProof3.
Import ListNotations.
Local Open Scope R_scope.

(** one straight column from 1 to 2 with two values *)
Definition straight (c : nat) : column := mk_col 1 2 1 1 (2 + 4 * c) (3 + 4 * c) (fun k => 1 + INR (k - (2 + 4 * c))) (fun _ => 0).
Lemma straight_listed : forall c, listed (straight c).
Proof.
  intros c. unfold listed, straight. cbn [first last begin endr xcoord]. split; [lia|]. rewrite !Nat.sub_diag.
  replace (3 + 4 * c - (2 + 4 * c))%nat with 1%nat by lia. cbn [INR]. split; [lra|]. split; [lra|].
  intros i Hi. replace i with (2 + 4 * c)%nat by lia. rewrite Nat.sub_diag. replace (S (2 + 4 * c) - (2 + 4 * c))%nat with 1%nat by lia. cbn [INR]. lra.
Qed.
Definition nolims : lims := mk_lims (fun _ => 0) (fun _ => 0) (fun _ => 0).
(** a constant potential without smoothing *)
Lemma last_value : exists n N plotmin extend pt tab fv smooth aend lastp len f, (0 < N)%nat /\
  write_imd true n N plotmin extend pt tab fv smooth aend lastp len KPair nolims = Some [("phi"%string, f)] /\
  (forall c, aend c = endr (pt c) /\ 0 <= endr (pt c)) /\
  ~ square_table_of f n N (fun i j => first_distance true plotmin extend pt (pair_no n i j)) (fun i j => endr (pt (pair_no n i j)))
      (fun i j => analytic fv smooth aend lastp (pair_no n i j)).
Proof.
  exists 1%nat, 1%nat, 0, 0, straight, (fun _ => 0), (fun _ _ => 1), (fun _ => false), (fun _ => 2), (fun _ => 0), 0%nat. eexists.
  split; [lia|]. split; [reflexivity|]. split; [intros c; cbn; lra|].
  apply (not_whole _ 1 1 _ _ _ 0 0); try lia; cbn [straight endr]; try lra. unfold analytic. lra.
Qed.
Theorem imd_whole : forall APOT n N plotmin extend pt tab fv smooth aend lastp len k a files name lin col f,
  (0 < N)%nat ->
  (k = KMeam -> APOT = false /\ forall i, (i < n)%nat -> listed (pt (2 * n_pairs n + 2 * n + i)%nat) /\ (last (pt (2 * n_pairs n + 2 * n + i)%nat) < len)%nat) ->
  write_imd APOT n N plotmin extend pt tab fv smooth aend lastp len k a = Some files ->
  In (name, lin, col) [("phi"%string, match k with KMeam => true | _ => false end, pair_no n); ("rho"%string, true, (fun _ j => n_pairs n + j)%nat);
     ("upot"%string, false, (fun i j => n_pairs n + 2 * n + pair_no n i j)%nat); ("wpot"%string, false, (fun i j => 2 * n_pairs n + 2 * n + pair_no n i j)%nat);
     ("f_meam"%string, true, (fun i j => n_pairs n + 2 * n + pair_no n i j)%nat)] ->
  In (name, f) files ->
  (forall i j, (i < n)%nat -> (j < n)%nat -> let c := col i j in 0 <= endr (pt c) /\
     if APOT then smooth c = true /\ aend c = endr (pt c) else function APOT lin pt tab fv smooth aend lastp c (endr (pt c)) = 0) ->
  square_table_of f n N (fun i j => first_distance APOT plotmin extend pt (col i j)) (fun i j => endr (pt (col i j)))
    (fun i j => function APOT lin pt tab fv smooth aend lastp (col i j)).
Proof.
  intros APOT n N plotmin extend pt tab fv smooth aend lastp len k a files name lin col f HN K W IN IF Z.
  destruct (imd_tables APOT n N plotmin extend pt tab fv smooth aend lastp len k a K) as (files' & W' & _ & T1 & T2 & T3 & T4 & T5 & _).
  rewrite W in W'. injection W' as <-. apply whole_table; auto.
  - cbn [In] in IN. repeat (destruct IN as [IN|IN]; [injection IN as <- <- <-|]); [exact (T1 f IF)|exact (T2 f IF)|exact (T3 f IF)|exact (T4 f IF)|exact (T5 f IF)|contradiction].
  - intros i j Hi Hj. destruct (Z i j Hi Hj) as [P Q]. split; auto. destruct APOT; auto. destruct Q as [Q1 Q2]. apply analytic_end; auto.
Qed.
Lemma imd_ex : (KMeam = KMeam -> false = false /\ forall i, (i < 1)%nat -> listed (straight (2 * n_pairs 1 + 2 * 1 + i)%nat) /\ (last (straight (2 * n_pairs 1 + 2 * 1 + i)%nat) < 20)%nat) /\
  exists f, In ("g_meam"%string, f) (match write_imd false 1 2 0 1 straight (fun k => INR k) (fun _ _ => 0) (fun _ => false) (fun _ => 0) (fun _ => 0) 20 KMeam nolims with Some l => l | None => [] end).
Proof.
  assert (K : KMeam = KMeam -> false = false /\ forall i, (i < 1)%nat -> listed (straight (2 * n_pairs 1 + 2 * 1 + i)%nat) /\ (last (straight (2 * n_pairs 1 + 2 * 1 + i)%nat) < 20)%nat).
  { intros _. split; auto. intros i Hi. split; [apply straight_listed|]. replace i with 0%nat by lia. cbn. lia. }
  split; auto.
  destruct (imd_tables false 1 2 0 1 straight (fun k => INR k) (fun _ _ => 0) (fun _ => false) (fun _ => 0) (fun _ => 0) 20 KMeam nolims K) as (files & W & N & _).
  rewrite W. destruct files as [|[? ?] [|[? ?] [|[? ?] [|[? ?] [|[s f] [|? ?]]]]]]; try discriminate N. injection N as -> -> -> -> ->.
  exists f. right. right. right. right. left. reflexivity.
Qed.
Lemma charges_ex : (forall i, (i < 3)%nat -> nth_error ["buck"; "buck"; "buck"]%string i = Some "buck"%string) /\
  (forall i, (i < 3)%nat -> exists v, nth_error [[1; 2; 3]; [1; 2; 3]; [1; 2; 3]] i = Some v /\ forall p, (p < 3)%nat -> nth_error v p = Some (nth p [1; 2; 3] 0)).
Proof.
  split; intros i Hi; destruct i as [|[|[|]]]; try lia; auto; exists [1; 2; 3]; (split; [reflexivity|]); intros p Hp; destruct p as [|[|[|]]]; try lia; reflexivity.
Qed.
