(** Proofs about the random number generator: one block of numbers. *)
From Coq Require Import ZArith List Bool Lia QArith.
From Coq.Floats Require Import SpecFloat.
From Verif Require Import RngModel RngSpec RngProof.
Import ListNotations.
Local Open Scope Z_scope.

Lemma loop_inv : forall A (P : A -> Prop) body n i x,
  (forall k y, (i <= k < i + n)%nat -> P y ->
     exists y', body k y = Some y' /\ P y') ->
  P x -> exists x', loop body i n x = Some x' /\ P x'.
Proof.
  intros A P body. induction n as [|n IH]; intros i x B H; cbn [loop].
  - exists x. split; [reflexivity | exact H].
  - destruct (B i x ltac:(lia) H) as [y [E Hy]]. rewrite E. cbn [bind].
    apply IH; [|exact Hy]. intros k z Hk Hz. apply B; [lia | exact Hz].
Qed.
Lemma loop_inj : forall A (P : A -> Prop) (R : A -> A -> Prop) body n i x x' z z',
  (forall k y, (i <= k < i + n)%nat -> P y ->
     exists y', body k y = Some y' /\ P y') ->
  (forall k y y' u u', (i <= k < i + n)%nat -> P y -> P y' ->
     body k y = Some u -> body k y' = Some u' -> R u u' -> R y y') ->
  P x -> P x' -> loop body i n x = Some z -> loop body i n x' = Some z' ->
  R z z' -> R x x'.
Proof.
  intros A P R body. induction n as [|n IH]; intros i x x' z z' B I H H' E E' RR;
    cbn [loop] in E, E'.
  - congruence.
  - destruct (B i x ltac:(lia) H) as [y [F Hy]].
    destruct (B i x' ltac:(lia) H') as [y' [F' Hy']].
    rewrite F in E. rewrite F' in E'. cbn [bind] in E, E'.
    apply (I i x x' y y'); try assumption; [lia|].
    apply (IH (S i) y y' z z'); try assumption.
    + intros k w Hk Hw. apply B; [lia | exact Hw].
    + intros k w w' u u' Hk. apply I. lia.
Qed.

(** The state and the lung during the loops. *)
Definition run_ok (x : list w128 * w128) : Prop :=
  state_ok (fst x) /\ ok128 (snd x).
Definition doubles (s : list w128) : Prop :=
  forall i w, (i < 191)%nat -> get s i = Some w -> dbl128 w.

Lemma rec_at_ok : forall i j x, (i < 192)%nat -> (j < 192)%nat -> run_ok x ->
  exists x', rec_at i j x = Some x' /\ run_ok x' /\
    (exists a b, get (fst x) i = Some a /\ get (fst x) j = Some b /\
       get (fst x') i = Some (fst (do_recursion a b (snd x))) /\
       snd x' = snd (do_recursion a b (snd x))) /\
    (forall k, k <> i -> get (fst x') k = get (fst x) k) /\
    (doubles (fst x) -> doubles (fst x')).
Proof.
  intros i j [s l] Hi Hj [[Hl Hf] Ho]. cbn [fst snd] in *.
  destruct (get_some _ s i ltac:(lia)) as [a Ga].
  destruct (get_some _ s j ltac:(lia)) as [b Gb].
  assert (Oa : ok128 a) by exact (get_Forall _ _ _ _ _ Ga Hf).
  assert (Ob : ok128 b) by exact (get_Forall _ _ _ _ _ Gb Hf).
  destruct (recursion_ok a b l Oa Ob Ho) as [R1 [R2 R3]].
  unfold rec_at. rewrite Ga, Gb. cbn [bind].
  destruct (do_recursion a b l) as [r l'] eqn:ER. cbn [fst snd] in *.
  destruct (put_some _ s i r ltac:(lia)) as [s' P]. rewrite P. cbn [bind].
  exists (s', l'). split; [reflexivity|]. cbn [fst snd].
  split; [|split; [|split]].
  - split; [split|]; cbn [fst snd]; [| |exact R2].
    + rewrite (put_length _ _ _ _ _ P). exact Hl.
    + exact (put_Forall _ _ _ _ _ _ P Hf R1).
  - exists a, b. rewrite ER. cbn [fst snd]. split; [reflexivity|]. split; [reflexivity|].
    split; [|reflexivity].
    rewrite (put_get _ _ _ _ _ i P), Nat.eqb_refl. reflexivity.
  - intros k Hk. rewrite (put_get _ _ _ _ _ k P).
    destruct (Nat.eqb_spec k i); [contradiction | reflexivity].
  - intros D k w Hk. rewrite (put_get _ _ _ _ _ k P).
    destruct (Nat.eqb_spec k i) as [->|].
    + intros E. injection E as <-. apply R3. exact (D i a Hk Ga).
    + intros E. exact (D k w Hk E).
Qed.

(** Equal lungs and equal entries but for the last one, which the loops do not
    use. *)
Definition same (x x' : list w128 * w128) : Prop :=
  snd x = snd x' /\ forall k, k <> 191%nat -> get (fst x) k = get (fst x') k.

Lemma rec_at_inj : forall i j x x' z z', (i < 191)%nat -> (j < 191)%nat -> i <> j ->
  run_ok x -> run_ok x' -> rec_at i j x = Some z -> rec_at i j x' = Some z' ->
  same z z' -> same x x'.
Proof.
  intros i j x x' z z' Hi Hj Hij Hx Hx' E E' [Sl Sg].
  destruct (rec_at_ok i j x ltac:(lia) ltac:(lia) Hx) as
    [y [F [_ [[a [b [Ga [Gb [Gi Gl]]]]] [Fr _]]]]].
  destruct (rec_at_ok i j x' ltac:(lia) ltac:(lia) Hx') as
    [y' [F' [_ [[a' [b' [Ga' [Gb' [Gi' Gl']]]]] [Fr' _]]]]].
  assert (y = z) by congruence. assert (y' = z') by congruence. subst y y'.
  assert (b = b').
  { rewrite <- Fr in Gb by auto. rewrite <- Fr' in Gb' by auto.
    rewrite Sg in Gb by lia. congruence. }
  subst b'.
  assert (R : do_recursion a b (snd x) = do_recursion a' b (snd x')).
  { rewrite (surjective_pairing (do_recursion a b (snd x))).
    rewrite (surjective_pairing (do_recursion a' b (snd x'))).
    rewrite Sg in Gi by lia. f_equal; congruence. }
  apply recursion_inj in R; [|apply Hx | apply Hx'].
  destruct R as [-> Rl]. split; [exact Rl|]. intros k Hk.
  destruct (Nat.eq_dec k i) as [->|Hki]; [congruence|].
  rewrite <- Fr, <- Fr' by exact Hki. apply Sg. exact Hk.
Qed.

Lemma state_get : forall s i, state_ok s -> (i < 192)%nat ->
  exists w, get s i = Some w /\ ok128 w.
Proof.
  intros s i [L F] H. destruct (get_some _ s i ltac:(lia)) as [w G].
  exists w. split; [exact G|]. exact (get_Forall _ _ _ _ _ G F).
Qed.

(** A block is made without an access outside the array, and words stay
    words. *)
Lemma gen_ok : forall s, state_ok s ->
  exists s', gen_rand_all s = Some s' /\ state_ok s' /\
    (doubles s -> doubles s').
Proof.
  intros s Hs. unfold gen_rand_all.
  destruct (state_get s N Hs ltac:(rewrite N_val; lia)) as [l [G Ol]].
  rewrite G. cbn [bind].
  destruct (rec_at_ok 0 POS1 (s, l) ltac:(lia) ltac:(unfold POS1; lia)
              (conj Hs Ol)) as [x0 [E0 [H0 [_ [_ D0]]]]].
  rewrite E0. cbn [bind].
  destruct (loop_inv _ (fun x => run_ok x /\ (doubles s -> doubles (fst x)))
              (fun i => rec_at i (i + POS1)) (N - POS1 - 1) 1 x0)
    as [x1 [E1 [H1 D1]]].
  { intros k y Hk [Hy Dy]. rewrite N_val in Hk. unfold POS1 in Hk.
    destruct (rec_at_ok k (k + POS1) y ltac:(lia) ltac:(unfold POS1; lia) Hy)
      as [y' [E [Hy' [_ [_ D]]]]].
    exists y'. split; [exact E|]. split; auto. }
  { split; [exact H0 | exact D0]. }
  rewrite E1. cbn [bind].
  destruct (loop_inv _ (fun x => run_ok x /\ (doubles s -> doubles (fst x)))
              (fun i => rec_at i (i + POS1 - N)) POS1 (N - POS1) x1)
    as [x2 [E2 [H2 D2]]].
  { intros k y Hk [Hy Dy]. rewrite N_val in Hk. unfold POS1 in Hk.
    destruct (rec_at_ok k (k + POS1 - N) y ltac:(lia)
                ltac:(rewrite N_val; unfold POS1; lia) Hy)
      as [y' [E [Hy' [_ [_ D]]]]].
    exists y'. split; [exact E|]. split; auto. }
  { split; assumption. }
  rewrite E2. cbn [bind]. destruct x2 as [s2 l2].
  destruct H2 as [[L2 F2] O2]. cbn [fst snd] in *.
  destruct (put_some _ s2 N l2 ltac:(rewrite N_val; lia)) as [s' P].
  exists s'. split; [exact P|]. split.
  - split; [rewrite (put_length _ _ _ _ _ P); exact L2|].
    exact (put_Forall _ _ _ _ _ _ P F2 O2).
  - intros D i w Hi. rewrite (put_get _ _ _ _ _ i P), N_val.
    destruct (Nat.eqb_spec i 191); [lia|]. apply D2; assumption.
Qed.

(** Two different states have different successors. *)
Lemma gen_inj : forall s s' z, state_ok s -> state_ok s' ->
  gen_rand_all s = Some z -> gen_rand_all s' = Some z -> s = s'.
Proof.
  intros s s' z Hs Hs'. unfold gen_rand_all.
  destruct (state_get s N Hs ltac:(rewrite N_val; lia)) as [l [G Ol]].
  destruct (state_get s' N Hs' ltac:(rewrite N_val; lia)) as [l' [G' Ol']].
  rewrite G, G'. cbn [bind].
  destruct (rec_at_ok 0 POS1 (s, l) ltac:(lia) ltac:(unfold POS1; lia)
              (conj Hs Ol)) as [x0 [E0 [H0 _]]].
  destruct (rec_at_ok 0 POS1 (s', l') ltac:(lia) ltac:(unfold POS1; lia)
              (conj Hs' Ol')) as [y0 [F0 [K0 _]]].
  rewrite E0, F0. cbn [bind].
  assert (B1 : forall k y, (1 <= k < 1 + (N - POS1 - 1))%nat -> run_ok y ->
     exists y', rec_at k (k + POS1) y = Some y' /\ run_ok y').
  { intros k y Hk Hy. rewrite N_val in Hk. unfold POS1 in Hk.
    destruct (rec_at_ok k (k + POS1) y ltac:(lia) ltac:(unfold POS1; lia) Hy)
      as [y' [E [Hy' _]]]. eauto. }
  assert (B2 : forall k y, (N - POS1 <= k < N - POS1 + POS1)%nat -> run_ok y ->
     exists y', rec_at k (k + POS1 - N) y = Some y' /\ run_ok y').
  { intros k y Hk Hy. rewrite N_val in Hk. unfold POS1 in Hk.
    destruct (rec_at_ok k (k + POS1 - N) y ltac:(lia)
                ltac:(rewrite N_val; unfold POS1; lia) Hy)
      as [y' [E [Hy' _]]]. eauto. }
  destruct (loop_inv _ run_ok (fun i => rec_at i (i + POS1)) _ 1 x0 B1 H0)
    as [x1 [E1 H1]].
  destruct (loop_inv _ run_ok (fun i => rec_at i (i + POS1)) _ 1 y0 B1 K0)
    as [y1 [F1 K1]].
  rewrite E1, F1. cbn [bind].
  destruct (loop_inv _ run_ok (fun i => rec_at i (i + POS1 - N)) _ _ x1 B2 H1)
    as [x2 [E2 H2]].
  destruct (loop_inv _ run_ok (fun i => rec_at i (i + POS1 - N)) _ _ y1 B2 K1)
    as [y2 [F2 K2]].
  rewrite E2, F2. cbn [bind].
  destruct x2 as [s2 l2], y2 as [s2' l2']. intros P P'.
  assert (l2 = l2').
  { pose proof (put_get _ _ _ _ _ N P) as Q. pose proof (put_get _ _ _ _ _ N P') as Q'.
    rewrite Nat.eqb_refl in Q, Q'. congruence. }
  subst l2'.
  assert (S2 : same (s2, l2) (s2', l2)).
  { split; [reflexivity|]. cbn [fst]. intros i Hi.
    pose proof (put_get _ _ _ _ _ i P) as Q.
    pose proof (put_get _ _ _ _ _ i P') as Q'. rewrite N_val in Q, Q'.
    destruct (Nat.eqb_spec i 191); [contradiction|]. congruence. }
  assert (S1 : same x1 y1).
  { apply (loop_inj _ run_ok same _ _ _ x1 y1 _ _ B2) with (6 := S2);
      try assumption.
    intros k y y' u u' Hk. pose proof N_val as NV.
    apply rec_at_inj; unfold POS1 in *; lia. }
  assert (S0 : same x0 y0).
  { apply (loop_inj _ run_ok same _ _ _ x0 y0 _ _ B1) with (6 := S1);
      try assumption.
    intros k y y' u u' Hk. pose proof N_val as NV.
    apply rec_at_inj; unfold POS1 in *; lia. }
  destruct (rec_at_inj 0 POS1 (s, l) (s', l') x0 y0) as [Sl Sg];
    try assumption; try (unfold POS1; lia); try (split; assumption).
  cbn [fst snd] in Sl, Sg. subst l'.
  destruct Hs as [Ls _]. destruct Hs' as [Ls' _].
  apply get_ext; [congruence|]. intros i.
  destruct (Nat.eq_dec i 191) as [->|Hi]; [|apply Sg; exact Hi].
  rewrite N_val in G, G'. congruence.
Qed.
