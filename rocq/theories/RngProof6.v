(** Proofs about the random number generator: a block follows the published
    recursion. *)
From Coq Require Import ZArith List Bool Lia.
From Verif Require Import RngModel RngSpec RngProof RngProof2.
Import ListNotations.
Local Open Scope Z_scope.

Lemma half_ok : forall mask a b l, word64 a -> word64 b -> word64 l ->
  let l' := Z.lxor (Z.lxor (Z.lxor (w64 (Z.shiftl a SL1)) (Z.shiftr l 32))
                     (w64 (Z.shiftl l 32))) b in
  half_rec mask a b l
    (Z.lxor (Z.lxor (Z.shiftr l' SR) (Z.land l' mask)) a) l'.
Proof.
  intros mask a b l Ha Hb Hl l' j Hj. split.
  - unfold l'. rewrite !Z.lxor_spec, !w64_bit, Z.shiftr_spec, !Z.shiftl_spec by lia.
    replace (j <? 64) with true by (symmetry; apply Z.ltb_lt; lia).
    cbn [andb]. unfold SL1. f_equal. rewrite xorb_assoc. f_equal.
    destruct (Z_lt_le_dec j 32) as [L|G].
    + rewrite (Z.testbit_neg_r l (j - 32)) by lia. rewrite xorb_false_r.
      rewrite Z.mod_small by lia. reflexivity.
    + rewrite (proj1 (word64_bits l (proj1 Hl)) Hl (j + 32)) by lia.
      rewrite xorb_false_l.
      replace (j + 32) with (j - 32 + 1 * 64) by lia.
      rewrite Z.mod_add, Z.mod_small by lia. reflexivity.
  - rewrite !Z.lxor_spec, Z.shiftr_spec, Z.land_spec by lia. reflexivity.
Qed.
Lemma recursion_spec : forall a b l, ok128 a -> ok128 b -> ok128 l ->
  rec_spec a b l (fst (do_recursion a b l)) (snd (do_recursion a b l)).
Proof.
  intros [a0 a1] [b0 b1] [l0 l1] [A0 A1] [B0 B1] [L0 L1]. cbn [fst snd] in *.
  unfold do_recursion, rec_spec. cbn [fst snd]. split.
  - exact (half_ok MSK1 a0 b0 l1 A0 B0 L1).
  - exact (half_ok MSK2 a1 b1 l0 A1 B1 L0).
Qed.

(** The three parts as one loop. *)
Definition pick (i : nat) : nat :=
  (if i + 117 <? 191 then i + 117 else i + 117 - 191)%nat.
Lemma loop_ext : forall A (f g : nat -> A -> option A) n i x,
  (forall k y, (i <= k < i + n)%nat -> f k y = g k y) ->
  loop f i n x = loop g i n x.
Proof.
  intros A f g. induction n as [|n IH]; intros i x H; cbn [loop]; [reflexivity|].
  rewrite (H i x) by lia. destruct (g i x) as [y|]; cbn [bind]; [|reflexivity].
  apply IH. intros k z Hk. apply H. lia.
Qed.
Lemma loop_app : forall A (f : nat -> A -> option A) n m i x,
  loop f i (n + m) x = bind (loop f i n x) (loop f (i + n)%nat m).
Proof.
  intros A f. induction n as [|n IH]; intros m i x; cbn [loop Nat.add bind].
  - rewrite Nat.add_0_r. reflexivity.
  - destruct (f i x) as [y|]; cbn [bind]; [|reflexivity].
    rewrite IH. replace (S i + n)%nat with (i + S n)%nat by lia. reflexivity.
Qed.
Lemma gen_one_loop : forall s,
  gen_rand_all s =
  bind (get s 191) (fun lung =>
  bind (loop (fun i => rec_at i (pick i)) 0 191 (s, lung)) (fun x =>
  put (fst x) 191 (snd x))).
Proof.
  intros s. unfold gen_rand_all. rewrite N_val.
  destruct (get s 191) as [l|]; cbn [bind]; [|reflexivity].
  change (loop (fun i => rec_at i (pick i)) 0 191 (s, l)) with
    (loop (fun i => rec_at i (pick i)) 0 (1 + (73 + 117)) (s, l)).
  rewrite loop_app.
  change (0 + 1)%nat with 1%nat.
  cbn [loop]. unfold pick at 1. change (0 + 117 <? 191)%nat with true. cbn iota.
  change (0 + 117)%nat with POS1.
  destruct (rec_at 0 POS1 (s, l)) as [x0|]; cbn [bind]; [|reflexivity].
  rewrite loop_app.
  change (191 - POS1 - 1)%nat with 73%nat. change (191 - POS1)%nat with 74%nat.
  change (1 + 73)%nat with 74%nat.
  rewrite (loop_ext _ (fun i => rec_at i (i + POS1)) (fun i => rec_at i (pick i))).
  2:{ intros k y Hk. unfold pick, POS1.
      destruct (Nat.ltb_spec (k + 117) 191); [reflexivity | lia]. }
  destruct (loop (fun i => rec_at i (pick i)) 1 73 x0) as [x1|]; cbn [bind];
    [|reflexivity].
  change POS1 with 117%nat.
  rewrite (loop_ext _ (fun i => rec_at i (i + 117 - 191)) (fun i => rec_at i (pick i))).
  2:{ intros k y Hk. unfold pick.
      destruct (Nat.ltb_spec (k + 117) 191); [lia | reflexivity]. }
  destruct (loop (fun i => rec_at i (pick i)) 74 117 x1) as [[s2 l2]|]; reflexivity.
Qed.

Lemma trace : forall s l n x, state_ok s -> ok128 l -> (n <= 191)%nat ->
  loop (fun i => rec_at i (pick i)) 0 n (s, l) = Some x ->
  run_ok x /\
  (forall k, (n <= k)%nat -> get (fst x) k = get s k) /\
  exists L : nat -> w128, L 0%nat = l /\ snd x = L n /\
    forall i, (i < n)%nat -> exists a b r,
      get s i = Some a /\ get (fst x) i = Some r /\
      (if (i + 117 <? 191)%nat then get s (i + 117)
       else get (fst x) (i + 117 - 191)) = Some b /\
      rec_spec a b (L i) r (L (S i)).
Proof.
  intros s l n. induction n as [|n IH]; intros x Hs Ol Hn E.
  - cbn [loop] in E. injection E as <-. split; [split; assumption|].
    split; [reflexivity|]. exists (fun _ => l). split; [reflexivity|].
    split; [reflexivity|]. intros i Hi. lia.
  - replace (S n) with (n + 1)%nat in E by lia. rewrite loop_app in E.
    destruct (loop (fun i => rec_at i (pick i)) 0 n (s, l)) as [y|] eqn:Ey;
      cbn [bind] in E; [|discriminate].
    destruct (IH y Hs Ol ltac:(lia) eq_refl) as [Ry [Fy [L [L0 [Ln HL]]]]].
    cbn [loop Nat.add] in E.
    assert (Hp : (pick n < 191)%nat /\ pick n <> n).
    { unfold pick. destruct (Nat.ltb_spec (n + 117) 191); lia. }
    destruct (rec_at_ok n (pick n) y ltac:(lia) ltac:(lia) Ry) as
      [z [Ez [Rz [[a [b [Ga [Gb [Gr Gl]]]]] [Fr _]]]]].
    rewrite Ez in E. cbn [bind] in E. injection E as <-.
    assert (Oa : ok128 a) by exact (get_Forall _ _ _ _ _ Ga (proj2 (proj1 Ry))).
    assert (Ob : ok128 b) by exact (get_Forall _ _ _ _ _ Gb (proj2 (proj1 Ry))).
    pose proof (recursion_spec a b (snd y) Oa Ob (proj2 Ry)) as RS.
    split; [exact Rz|]. split; [intros k Hk; rewrite Fr by lia; apply Fy; lia|].
    exists (fun k => if (k =? S n)%nat then snd z else L k).
    split; [exact L0|]. split; [rewrite Nat.eqb_refl; reflexivity|].
    intros i Hi. destruct (Nat.eq_dec i n) as [->|Hne].
    + exists a, b, (fst (do_recursion a b (snd y))).
      split; [rewrite <- Fy by lia; exact Ga|]. split; [exact Gr|].
      split.
      * unfold pick in *. destruct (Nat.ltb_spec (n + 117) 191) as [Q|Q].
        -- rewrite <- Fy by lia. exact Gb.
        -- rewrite Fr by lia. exact Gb.
      * rewrite Nat.eqb_refl. destruct (Nat.eqb_spec n (S n)); [lia|].
        rewrite <- Ln, Gl. exact RS.
    + destruct (HL i ltac:(lia)) as [a' [b' [r' [A [B [C D]]]]]].
      exists a', b', r'. split; [exact A|]. split; [rewrite Fr by lia; exact B|].
      split.
      * destruct (Nat.ltb_spec (i + 117) 191) as [Q|Q]; [exact C|].
        rewrite Fr by lia. exact C.
      * destruct (Nat.eqb_spec i (S n)); [lia|].
        destruct (Nat.eqb_spec (S i) (S n)); [lia | exact D].
Qed.

Lemma gen_spec : forall s s', state_ok s -> gen_rand_all s = Some s' ->
  block_spec s s'.
Proof.
  intros s s' Hs E. rewrite gen_one_loop in E.
  destruct (state_get s 191 Hs ltac:(lia)) as [l [G Ol]]. rewrite G in E.
  cbn [bind] in E.
  destruct (loop (fun i => rec_at i (pick i)) 0 191 (s, l)) as [x|] eqn:Ex;
    cbn [bind] in E; [|discriminate].
  destruct (trace s l 191 x Hs Ol (le_n _) Ex) as [Rx [Fx [L [L0 [Ln HL]]]]].
  exists L. split; [rewrite L0; exact G|].
  pose proof (fun k => put_get _ _ _ _ _ k E) as P. unfold get in P.
  split; [rewrite P, Nat.eqb_refl, Ln; reflexivity|].
  intros i Hi. destruct (HL i Hi) as [a [b [r [A [B [C D]]]]]].
  exists a, b, r. split; [exact A|]. split.
  - rewrite P. destruct (Nat.eqb_spec i 191); [lia | exact B].
  - split; [|exact D]. destruct (Nat.ltb_spec (i + 117) 191) as [Q|Q]; [exact C|].
    rewrite P. destruct (Nat.eqb_spec (i + 117 - 191) 191); [lia | exact C].
Qed.
