(** Proofs about the random number generator: return to the start, the
    certification of the period, and the initial state. *)
From Coq Require Import ZArith List Bool Lia QArith.
From Coq.Floats Require Import SpecFloat.
From Verif Require Import RngModel RngSpec RngProof RngProof2.
Import ListNotations.
Local Open Scope Z_scope.

(** *** The states are finitely many. *)
Lemma all_below : forall B : Z, exists l : list Z, forall x, 0 <= x < B -> In x l.
Proof.
  intros B. exists (map Z.of_nat (seq 0 (Z.to_nat B))). intros x Hx.
  apply in_map_iff. exists (Z.to_nat x). split; [lia|]. apply in_seq. lia.
Qed.
Lemma all_pairs : exists l : list w128, forall w, ok128 w -> In w l.
Proof.
  destruct (all_below (2 ^ 64)) as [l H]. exists (list_prod l l).
  intros [a b] [Ha Hb]. apply in_prod; apply H; assumption.
Qed.
Lemma all_lists : forall n, exists l : list (list w128),
  forall s, length s = n -> Forall ok128 s -> In s l.
Proof.
  destruct all_pairs as [p Hp].
  induction n as [|n [l IH]].
  - exists [[]]. intros [|x s] L F; [left; reflexivity | discriminate].
  - exists (map (fun q => fst q :: snd q) (list_prod p l)).
    intros [|x s] L F; [discriminate|]. inversion F; subst.
    apply in_map_iff. exists (x, s). split; [reflexivity|].
    apply in_prod; [apply Hp; assumption|]. apply IH; [cbn in L; lia | assumption].
Qed.

Section Orbit.
Variable A : Type.
Variable P : A -> Prop.
Variable f : A -> A.
Hypothesis dec : forall x y : A, {x = y} + {x <> y}.
Hypothesis closed : forall x, P x -> P (f x).
Hypothesis inj : forall x y, P x -> P y -> f x = f y -> x = y.
Variable all : list A.
Hypothesis fin : forall x, P x -> In x all.

Lemma iter_P : forall n x, P x -> P (Nat.iter n f x).
Proof.
  induction n as [|n IH]; intros x H; [exact H|].
  change (P (f (Nat.iter n f x))). apply closed, IH, H.
Qed.
Lemma iter_inj : forall n x y, P x -> P y ->
  Nat.iter n f x = Nat.iter n f y -> x = y.
Proof.
  induction n as [|n IH]; intros x y Hx Hy H; [exact H|].
  change (f (Nat.iter n f x) = f (Nat.iter n f y)) in H.
  apply IH; [assumption..|]. apply inj; [apply iter_P; assumption..|exact H].
Qed.
Lemma iter_add : forall n m x, Nat.iter (n + m) f x = Nat.iter n f (Nat.iter m f x).
Proof. induction n as [|n IH]; intros m x; [reflexivity|].
  change (f (Nat.iter (n + m) f x) = f (Nat.iter n f (Nat.iter m f x))).
  rewrite IH. reflexivity.
Qed.
Lemma repeated : forall l : list A, ~ NoDup l ->
  exists a l1 l2 l3, l = l1 ++ a :: l2 ++ a :: l3.
Proof.
  induction l as [|x l IH]; intros H.
  - exfalso. apply H. constructor.
  - destruct (in_dec dec x l) as [I|I].
    + apply in_split in I. destruct I as [l2 [l3 ->]].
      exists x, [], l2, l3. reflexivity.
    + destruct IH as [a [l1 [l2 [l3 ->]]]].
      * intros N. apply H. constructor; assumption.
      * exists a, (x :: l1), l2, l3. reflexivity.
Qed.
Lemma returns : forall x, P x -> exists p, (0 < p)%nat /\ Nat.iter p f x = x.
Proof.
  intros x Hx.
  set (M := length all).
  set (l := map (fun i => Nat.iter i f x) (seq 0 (S M))).
  assert (D : ~ NoDup l).
  { intros N. assert (I : incl l all).
    { intros y Hy. apply in_map_iff in Hy. destruct Hy as [i [<- _]].
      apply fin, iter_P, Hx. }
    pose proof (NoDup_incl_length N I) as L. unfold l in L.
    rewrite map_length, seq_length in L. unfold M in L. lia. }
  apply repeated in D.
  destruct D as [a [l1 [l2 [l3 E]]]].
  assert (G : forall i y, nth_error l i = Some y -> y = Nat.iter i f x).
  { intros i y H. unfold l in H.
    assert (Hi : (i < S M)%nat).
    { assert (Q : nth_error (map (fun i => Nat.iter i f x) (seq 0 (S M))) i <> None)
        by (rewrite H; discriminate).
      apply nth_error_Some in Q. rewrite map_length, seq_length in Q. exact Q. }
    rewrite nth_error_map in H.
    rewrite (nth_error_nth' (seq 0 (S M)) 0%nat) in H by (rewrite seq_length; exact Hi).
    rewrite seq_nth in H by exact Hi. cbn [option_map] in H. injection H as <-.
    reflexivity. }
  set (i := length l1). set (j := length l2).
  assert (G1 : a = Nat.iter i f x).
  { apply G. rewrite E. unfold i. rewrite nth_error_app2 by lia.
    rewrite Nat.sub_diag. reflexivity. }
  assert (G2 : a = Nat.iter (i + S j) f x).
  { apply G. rewrite E. unfold i, j. rewrite nth_error_app2 by lia.
    replace (length l1 + S (length l2) - length l1)%nat with (S (length l2)) by lia.
    cbn [nth_error]. rewrite nth_error_app2 by lia. rewrite Nat.sub_diag. reflexivity. }
  exists (S j). split; [lia|].
  apply (iter_inj i); [apply iter_P; exact Hx | exact Hx |].
  rewrite <- iter_add, <- G1, <- G2. reflexivity.
Qed.
End Orbit.

(** [n] blocks after a state. *)
Definition blocks (n : nat) (s : list w128) : option (list w128) :=
  Nat.iter n (fun o => bind o gen_rand_all) (Some s).

Definition gen_total (s : list w128) : list w128 :=
  match gen_rand_all s with Some s' => s' | None => s end.
Lemma gen_total_ok : forall s, state_ok s ->
  gen_rand_all s = Some (gen_total s) /\ state_ok (gen_total s).
Proof.
  intros s H. destruct (gen_ok s H) as [s' [E [K _]]]. unfold gen_total.
  rewrite E. split; [reflexivity | exact K].
Qed.
Lemma blocks_iter : forall n s, state_ok s ->
  blocks n s = Some (Nat.iter n gen_total s) /\ state_ok (Nat.iter n gen_total s).
Proof.
  intros n s H. unfold blocks. induction n as [|n [E K]].
  - split; [reflexivity | exact H].
  - cbn [Nat.iter nat_rect]. unfold Nat.iter in E, K |- *. rewrite E. cbn [bind].
    apply gen_total_ok. exact K.
Qed.
Lemma w128_dec : forall a b : w128, {a = b} + {a <> b}.
Proof. decide equality; apply Z.eq_dec. Qed.
Lemma blocks_return : forall s, state_ok s ->
  exists p, (0 < p)%nat /\ blocks p s = Some s.
Proof.
  intros s H. destruct (all_lists 192) as [all Ha].
  destruct (returns (list w128) state_ok gen_total (list_eq_dec w128_dec))
    with (all := all) (x := s) as [p [Hp E]].
  - intros x Hx. apply gen_total_ok. exact Hx.
  - intros x y Hx Hy E. destruct (gen_total_ok x Hx) as [Ex _].
    destruct (gen_total_ok y Hy) as [Ey _].
    apply (gen_inj x y (gen_total x)); [assumption..|]. rewrite E. exact Ey.
  - intros x [L F]. apply Ha; assumption.
  - exact H.
  - exists p. split; [exact Hp|]. rewrite (proj1 (blocks_iter p s H)), E. reflexivity.
Qed.
(** A state that occurs after [n] blocks from two states: they are equal. *)
Lemma blocks_inj : forall n s s' z, state_ok s -> state_ok s' ->
  blocks n s = Some z -> blocks n s' = Some z -> s = s'.
Proof.
  intros n s s' z H H' E E'.
  rewrite (proj1 (blocks_iter n s H)) in E. rewrite (proj1 (blocks_iter n s' H')) in E'.
  apply (iter_inj (list w128) state_ok gen_total) with (n := n); try assumption.
  - intros x Hx. apply gen_total_ok. exact Hx.
  - intros x y Hx Hy G. destruct (gen_total_ok x Hx) as [Ex _].
    destruct (gen_total_ok y Hy) as [Ey _].
    apply (gen_inj x y (gen_total x)); [assumption..|]. rewrite G. exact Ey.
  - congruence.
Qed.

(** *** Parity. *)
Definition par (n : nat) (x : Z) : bool :=
  fold_right (fun i acc => xorb (Z.testbit x (Z.of_nat i)) acc) false (seq 0 n).
Lemma xor_split : forall (f g : nat -> bool) l,
  fold_right (fun i acc => xorb (xorb (f i) (g i)) acc) false l =
  xorb (fold_right (fun i acc => xorb (f i) acc) false l)
       (fold_right (fun i acc => xorb (g i) acc) false l).
Proof.
  induction l as [|a l IH]; [reflexivity|]. cbn [fold_right]. rewrite IH.
  destruct (f a), (g a);
    destruct (fold_right (fun i acc => xorb (f i) acc) false l),
             (fold_right (fun i acc => xorb (g i) acc) false l); reflexivity.
Qed.
Lemma xor_ext : forall (f g : nat -> bool) l, (forall i, In i l -> f i = g i) ->
  fold_right (fun i acc => xorb (f i) acc) false l =
  fold_right (fun i acc => xorb (g i) acc) false l.
Proof.
  induction l as [|a l IH]; intros H; [reflexivity|]. cbn [fold_right].
  rewrite (H a) by (left; reflexivity). rewrite IH; [reflexivity|].
  intros i Hi. apply H. right. exact Hi.
Qed.
Lemma xor_app : forall (f : nat -> bool) l l',
  fold_right (fun i acc => xorb (f i) acc) false (l ++ l') =
  xorb (fold_right (fun i acc => xorb (f i) acc) false l)
       (fold_right (fun i acc => xorb (f i) acc) false l').
Proof.
  induction l as [|a l IH]; intros l'.
  - cbn [fold_right app]. rewrite xorb_false_l. reflexivity.
  - cbn [fold_right app]. rewrite IH, xorb_assoc. reflexivity.
Qed.
Lemma xor_shift : forall (f : nat -> bool) n m,
  fold_right (fun i acc => xorb (f i) acc) false (seq n m) =
  fold_right (fun i acc => xorb (f (n + i)%nat) acc) false (seq 0 m).
Proof.
  intros f n m. revert n. induction m as [|m IH]; intros n; [reflexivity|].
  cbn [seq fold_right]. rewrite (IH (S n)).
  rewrite <- (seq_shift m 0).
  replace (n + 0)%nat with n by lia. f_equal.
  clear IH. generalize (seq 0 m). induction l as [|a l IHl]; [reflexivity|].
  cbn [map fold_right]. rewrite IHl. f_equal. f_equal. lia.
Qed.
Lemma par_half : forall n x,
  par (n + n) x = par n (Z.lxor x (Z.shiftr x (Z.of_nat n))).
Proof.
  intros n x. unfold par. rewrite seq_app, xor_app. cbn [Nat.add].
  rewrite (xor_shift _ n n). rewrite <- xor_split.
  apply xor_ext. intros i _. rewrite Z.lxor_spec, Z.shiftr_spec by lia.
  f_equal. f_equal. lia.
Qed.
Lemma folded_par : forall x, Z.testbit (folded x) 0 = par 64 x.
Proof.
  intros x. unfold folded. cbn [fold_left].
  rewrite (par_half 32), (par_half 16), (par_half 8), (par_half 4),
    (par_half 2), (par_half 1).
  cbn [Z.of_nat Pos.of_succ_nat Pos.succ]. unfold par.
  cbn [seq fold_right Z.of_nat]. rewrite xorb_false_r. reflexivity.
Qed.
Lemma land1 : forall x, (Z.land x 1 =? 1) = Z.testbit x 0.
Proof.
  intros x. change 1 with (Z.ones 1). rewrite Z.land_ones by lia.
  rewrite Z.bit0_odd, Zmod_odd. destruct (Z.odd x); reflexivity.
Qed.
Lemma dot64_par : forall x y, dot64 x y = par 64 (Z.land x y).
Proof.
  intros x y. unfold dot64, par. apply xor_ext. intros i _.
  rewrite Z.land_spec. reflexivity.
Qed.
Lemma par_lxor : forall n x y, par n (Z.lxor x y) = xorb (par n x) (par n y).
Proof.
  intros n x y. unfold par. rewrite <- xor_split. apply xor_ext. intros i _.
  apply Z.lxor_spec.
Qed.
Lemma dot64_lxor : forall x y z,
  dot64 (Z.lxor x y) z = xorb (dot64 x z) (dot64 y z).
Proof.
  intros x y z. unfold dot64. rewrite <- xor_split. apply xor_ext. intros i _.
  rewrite Z.lxor_spec. destruct (Z.testbit x (Z.of_nat i)), (Z.testbit y (Z.of_nat i)),
    (Z.testbit z (Z.of_nat i)); reflexivity.
Qed.

(** The vector that has to have an odd product with the last entry. *)
Definition certified (w : w128) : Prop :=
  dot128 (Z.lxor (fst w) FIX1) (Z.lxor (snd w) FIX2) PCV1 PCV2 = true.

Lemma certification : forall s, state_ok s ->
  exists s', period_certification s = Some s' /\ state_ok s' /\
    (exists w, get s' 191 = Some w /\ certified w) /\
    (forall i, i <> 191%nat -> get s' i = get s i) /\
    (forall w, get s 191 = Some w -> certified w -> s' = s).
Proof.
  intros s Hs. destruct (state_get s 191 Hs ltac:(lia)) as [w [G O]].
  unfold period_certification. rewrite N_val, G. cbn [bind].
  rewrite land1, folded_par, par_lxor, <- !dot64_par.
  change (xorb (dot64 (Z.lxor (fst w) FIX1) PCV1) (dot64 (Z.lxor (snd w) FIX2) PCV2))
    with (dot128 (Z.lxor (fst w) FIX1) (Z.lxor (snd w) FIX2) PCV1 PCV2).
  destruct (dot128 _ _ _ _) eqn:E.
  - exists s. split; [reflexivity|]. split; [exact Hs|].
    split; [exists w; split; assumption|]. split; reflexivity.
  - destruct Hs as [L F]. destruct w as [u0 u1]. cbn [fst snd] in *.
    destruct (put_some _ s 191 (u0, Z.lxor u1 1) ltac:(lia)) as [s' P].
    exists s'. split; [exact P|]. split; [split|split; [|split]].
    + rewrite (put_length _ _ _ _ _ P). exact L.
    + apply (put_Forall _ _ _ _ _ _ P F). destruct O as [O0 O1]. cbn [fst snd] in *.
      split; cbn [fst snd]; [exact O0|]. apply word64_lxor; [exact O1|].
      unfold word64; lia.
    + exists (u0, Z.lxor u1 1). split.
      * rewrite (put_get _ _ _ _ _ 191%nat P). reflexivity.
      * unfold certified. cbn [fst snd].
        replace (Z.lxor (Z.lxor u1 1) FIX2) with (Z.lxor (Z.lxor u1 FIX2) 1)
          by (rewrite !Z.lxor_assoc, (Z.lxor_comm 1); reflexivity).
        unfold dot128 in *. rewrite (dot64_lxor (Z.lxor u1 FIX2)).
        replace (dot64 1 PCV2) with true by (vm_compute; reflexivity).
        revert E. generalize (dot64 (Z.lxor u0 FIX1) PCV1).
        generalize (dot64 (Z.lxor u1 FIX2) PCV2). intros [] []; cbn; congruence.
    + intros i Hi. rewrite (put_get _ _ _ _ _ i P).
      destruct (Nat.eqb_spec i 191); [contradiction | reflexivity].
    + intros w' W C. assert (w' = (u0, u1)) by congruence. subst w'.
      unfold certified in C. cbn [fst snd] in C. congruence.
Qed.
