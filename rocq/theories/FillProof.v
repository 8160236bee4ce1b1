(** Proofs about arrays of random numbers: the sequence behind the state. *)
From Coq Require Import ZArith List Bool Lia.
From Coq.Floats Require Import SpecFloat.
From Verif Require Import RngModel RngProof RngProof6 FillModel.
Import ListNotations.

Lemma loop_ind : forall A (P : nat -> A -> Prop) body n i x,
  (forall k y, i <= k < i + n -> P k y -> exists z, body k y = Some z /\ P (S k) z) ->
  P i x -> exists z, loop body i n x = Some z /\ P (i + n) z.
Proof.
  intros A P body. induction n as [|n IH]; intros i x H H0; cbn [loop].
  - exists x. split; [reflexivity|]. rewrite Nat.add_0_r. exact H0.
  - destruct (H i x ltac:(lia) H0) as [y [-> Hy]]. cbn [bind].
    destruct (IH (S i) y) as [z [E Z]].
    + intros k v Hk. apply H. lia.
    + exact Hy.
    + exists z. split; [exact E|]. replace (i + S n) with (S i + n) by lia. exact Z.
Qed.

Section Sequence.
Variable e : nat -> w128.
Variable L : nat -> w128.
(** Entry [k + 191] is made from entries [k] and [k + 117]. *)
Hypothesis He : forall k,
  do_recursion (e k) (e (k + 117)) (L k) = (e (k + 191), L (S k)).

(** A state that holds the entries from [q] on. *)
Definition window (q : nat) (s : list w128) : Prop :=
  length s = 192 /\ (forall j, j < 191 -> get s j = Some (e (q + j))) /\
  get s 191 = Some (L q).

Lemma gen_window : forall q s, window q s ->
  exists s', gen_rand_all s = Some s' /\ window (q + 191) s'.
Proof.
  intros q s [Len [Hj Hl]]. rewrite gen_one_loop. rewrite Hl. cbn [bind].
  destruct (loop_ind _ (fun i x => length (fst x) = 192 /\
      (forall j, j < i -> get (fst x) j = Some (e (q + 191 + j))) /\
      (forall j, i <= j < 191 -> get (fst x) j = Some (e (q + j))) /\
      snd x = L (q + i))
    (fun i => rec_at i (pick i)) 191 0 (s, L q)) as [[s1 l1] [-> [A [B [C D]]]]].
  - intros k [t l] Hk [A [B [C D]]]. cbn [fst snd] in *. unfold rec_at.
    rewrite (C k) by lia. cbn [bind].
    assert (P : get t (pick k) = Some (e (q + k + 117))).
    { unfold pick. destruct (Nat.ltb_spec (k + 117) 191).
      - rewrite C by lia. do 2 f_equal. lia.
      - rewrite B by lia. do 2 f_equal. lia. }
    rewrite P. cbn [bind]. rewrite D, He.
    destruct (put_some _ t k (e (q + k + 191)) ltac:(lia)) as [t' P'].
    rewrite P'. cbn [bind]. eexists. split; [reflexivity|]. cbn [fst snd].
    split; [rewrite (put_length _ _ _ _ _ P'); exact A|]. split; [|split].
    + intros j Hj'. rewrite (put_get _ _ _ _ _ j P').
      destruct (Nat.eqb_spec j k) as [->|Hn].
      * do 2 f_equal. lia.
      * apply B. lia.
    + intros j Hj'. rewrite (put_get _ _ _ _ _ j P').
      destruct (Nat.eqb_spec j k) as [->|Hn]; [lia|]. apply C. lia.
    + f_equal. lia.
  - cbn [fst snd]. split; [exact Len|]. split; [intros; lia|].
    split; [intros; apply Hj; lia|]. f_equal. lia.
  - cbn [bind fst snd] in *.
    destruct (put_some _ s1 191 l1 ltac:(lia)) as [s2 P]. rewrite P.
    exists s2. split; [reflexivity|]. split; [|split].
    + rewrite (put_length _ _ _ _ _ P). exact A.
    + intros j Hj'. rewrite (put_get _ _ _ _ _ j P).
      destruct (Nat.eqb_spec j 191); [lia|]. apply B. lia.
    + rewrite (put_get _ _ _ _ _ 191 P). cbn. rewrite D. reflexivity.
Qed.

(** The words one after the other, and the place of the generator in them. *)
Definition wrd (t : nat) : Z :=
  if Nat.even t then fst (e (Nat.div2 t)) else snd (e (Nat.div2 t)).
Definition place (g : dsfmt) (p : nat) : Prop :=
  exists q, window q (status g) /\ idx g <= 382 /\ p = 2 * q + idx g.

Lemma word_window : forall q s i, window q s -> i < 382 ->
  word s i = Some (wrd (2 * q + i)).
Proof.
  intros q s i [_ [H _]] Hi. unfold word, wrd.
  assert (D : Nat.div2 i < 191).
  { rewrite Nat.div2_div. apply Nat.div_lt_upper_bound; lia. }
  rewrite (H _ D). cbn [bind].
  assert (E : Nat.even (2 * q + i) = Nat.even i).
  { rewrite Nat.even_add, Nat.even_mul. cbn [Nat.even orb].
    destruct (Nat.even i); reflexivity. }
  assert (V : Nat.div2 (2 * q + i) = q + Nat.div2 i).
  { rewrite !Nat.div2_div. replace (2 * q + i) with (i + q * 2) by lia.
    rewrite Nat.div_add by lia. lia. }
  rewrite E, V. destruct (Nat.even i); reflexivity.
Qed.

Lemma next_place : forall g p, place g p ->
  exists g', next_word g = Some (wrd p, g') /\ place g' (S p).
Proof.
  intros g p [q [W [I ->]]]. unfold next_word. change N64 with 382.
  destruct (Nat.leb_spec 382 (idx g)) as [G|G].
  - destruct (gen_window q _ W) as [s [-> W']]. cbn [bind status idx].
    rewrite (word_window _ _ 0 W' ltac:(lia)). cbn [bind].
    eexists. split; [do 3 f_equal; lia|].
    exists (q + 191). cbn [status idx]. split; [exact W'|]. split; lia.
  - cbn [bind]. rewrite (word_window _ _ _ W G). cbn [bind].
    eexists. split; [reflexivity|]. exists q. cbn [status idx].
    split; [exact W|]. split; lia.
Qed.

Lemma calls_place : forall A (f : dsfmt -> option (A * dsfmt)) (v : Z -> A),
  (forall g w g', next_word g = Some (w, g') -> f g = Some (v w, g')) ->
  forall n g p, place g p ->
  exists g', calls f n g = Some (map (fun t => v (wrd t)) (seq p n), g') /\
    place g' (p + n).
Proof.
  intros A f v Hf. induction n as [|n IH]; intros g p H; cbn [calls].
  - exists g. split; [reflexivity|]. rewrite Nat.add_0_r. exact H.
  - destruct (next_place g p H) as [g1 [E P]]. rewrite (Hf _ _ _ E). cbn [bind].
    destruct (IH g1 (S p) P) as [g2 [-> P2]]. cbn [bind].
    exists g2. split; [reflexivity|].
    replace (p + S n) with (S p + n) by lia. exact P2.
Qed.

(** *** The arrays. *)
Variable k : kind.
Definition conv (w : w128) : cell :=
  match k with
  | C1O2 => Bits w
  | _ => Nums (convert1 k (fst w)) (convert1 k (snd w))
  end.
Lemma convert_bits : forall w, convert k (Bits w) = Some (conv w).
Proof. intros w. unfold convert, conv, bits. destruct k; reflexivity. Qed.

(** [c] entries are converted, [i] are written. *)
Definition filled (n c i : nat) (a : list cell) : Prop :=
  length a = n /\
  (forall j, j < c -> get a j = Some (conv (e (191 + j)))) /\
  (forall j, c <= j < i -> get a j = Some (Bits (e (191 + j)))).

Lemma rec_to_ok : forall n c i fa fb x,
  filled n c i (arr x) -> i < n -> c <= i -> lung x = L i ->
  fa x = Some (e i) -> fb x = Some (e (i + 117)) ->
  exists y, rec_to i fa fb x = Some y /\ filled n c (S i) (arr y) /\
    sts y = sts x /\ lung y = L (S i).
Proof.
  intros n c i fa fb x [A [B C]] Hi Hc HL Ha Hb. unfold rec_to.
  rewrite Ha, Hb. cbn [bind]. rewrite HL, He.
  destruct (put_some _ (arr x) i (Bits (e (i + 191))) ltac:(lia)) as [t P].
  rewrite P. cbn [bind]. eexists. split; [reflexivity|]. cbn [arr sts lung].
  split; [|split; reflexivity].
  split; [rewrite (put_length _ _ _ _ _ P); exact A|]. split.
  - intros j Hj. rewrite (put_get _ _ _ _ _ j P).
    destruct (Nat.eqb_spec j i); [lia|]. apply B. lia.
  - intros j Hj. rewrite (put_get _ _ _ _ _ j P).
    destruct (Nat.eqb_spec j i) as [->|Hn].
    + do 3 f_equal. lia.
    + apply C. lia.
Qed.

Lemma at_array_ok : forall n c i j x, filled n c i (arr x) -> c <= j < i ->
  at_array j x = Some (e (191 + j)).
Proof.
  intros n c i j x [_ [_ C]] Hj. unfold at_array. rewrite (C j Hj). reflexivity.
Qed.

Lemma convert_at_ok : forall n c i x, filled n c i (arr x) -> c < i -> i <= n ->
  exists y, convert_at k c x = Some y /\ filled n (S c) i (arr y) /\
    sts y = sts x /\ lung y = lung x.
Proof.
  intros n c i x [A [B C]] Hc Hi. unfold convert_at.
  rewrite (C c) by lia. cbn [bind]. rewrite convert_bits. cbn [bind].
  destruct (put_some _ (arr x) c (conv (e (191 + c))) ltac:(lia)) as [t P].
  rewrite P. cbn [bind]. eexists. split; [reflexivity|]. cbn [arr sts lung].
  split; [|split; reflexivity].
  split; [rewrite (put_length _ _ _ _ _ P); exact A|]. split.
  - intros j Hj. rewrite (put_get _ _ _ _ _ j P).
    destruct (Nat.eqb_spec j c) as [->|Hn]; [reflexivity|]. apply B. lia.
  - intros j Hj. rewrite (put_get _ _ _ _ _ j P).
    destruct (Nat.eqb_spec j c); [lia|]. apply C. lia.
Qed.

(** [j] entries of the state are those of the end of the array. *)
Definition copied (n j : nat) (s : list w128) : Prop :=
  length s = 192 /\ forall i, i < j -> get s i = Some (e (n + i)).

Lemma copy_ok : forall n c i j m x, filled n c i (arr x) -> c <= m < i ->
  copied n j (sts x) -> j < 192 -> 191 + m = n + j ->
  exists y, copy_to j m x = Some y /\ arr y = arr x /\ lung y = lung x /\
    copied n (S j) (sts y).
Proof.
  intros n c i j m x F Hm [A B] Hj E. unfold copy_to.
  rewrite (at_array_ok _ _ _ _ _ F Hm). cbn [bind].
  destruct (put_some _ (sts x) j (e (191 + m)) ltac:(lia)) as [t P].
  rewrite P. cbn [bind]. eexists. split; [reflexivity|]. cbn [arr sts lung].
  split; [reflexivity|]. split; [reflexivity|].
  split; [rewrite (put_length _ _ _ _ _ P); exact A|].
  intros i' Hi. rewrite (put_get _ _ _ _ _ i' P).
  destruct (Nat.eqb_spec i' j) as [->|Hn].
  - rewrite E. reflexivity.
  - apply B. lia.
Qed.

Lemma array_ok : forall n s a, window 0 s -> length a = n -> 191 <= n ->
  exists s' a', gen_rand_array k s a n = Some (s', a') /\ window n s' /\
    length a' = n /\ forall j, j < n -> get a' j = Some (conv (e (191 + j))).
Proof.
  intros n s a [Len [Hs Hl]] La Hn. unfold gen_rand_array.
  change N with 191. change POS1 with 117. rewrite Hl. cbn [bind].
  set (x0 := {| arr := a; sts := s; lung := L 0 |}).
  destruct (rec_to_ok n 0 0 (at_status 0) (at_status 117) x0)
    as [x1 [-> [F1 [S1 L1]]]].
  { unfold x0. cbn [arr]. split; [exact La|]. split; intros; lia. }
  { lia. } { lia. } { reflexivity. }
  { apply (Hs 0); lia. } { apply (Hs 117); lia. }
  cbn [bind].
  destruct (loop_ind _ (fun i x => filled n 0 i (arr x) /\ sts x = s /\ lung x = L i)
    (fun i => rec_to i (at_status i) (at_status (i + 117))) (191 - 117 - 1) 1 x1)
    as [x2 [-> [F2 [S2 L2]]]].
  { intros i x Hi [F [Sx Lx]].
    destruct (rec_to_ok n 0 i (at_status i) (at_status (i + 117)) x F)
      as [y [E [Fy [Sy Ly]]]]; try lia; try assumption.
    - unfold at_status. rewrite Sx. apply (Hs i). lia.
    - unfold at_status. rewrite Sx. apply (Hs (i + 117)). lia.
    - exists y. rewrite Sy. auto. }
  { auto. }
  cbn [bind]. change (1 + (191 - 117 - 1)) with 74 in *.
  destruct (loop_ind _ (fun i x => filled n 0 i (arr x) /\ sts x = s /\ lung x = L i)
    (fun i => rec_to i (at_status i) (at_array (i + 117 - 191))) 117 (191 - 117) x2)
    as [x3 [-> [F3 [S3 L3]]]].
  { intros i x Hi [F [Sx Lx]].
    destruct (rec_to_ok n 0 i (at_status i) (at_array (i + 117 - 191)) x F)
      as [y [E [Fy [Sy Ly]]]]; try lia; try assumption.
    - unfold at_status. rewrite Sx. apply (Hs i). lia.
    - rewrite (at_array_ok _ _ _ _ _ F) by lia. do 2 f_equal. lia.
    - exists y. rewrite Sy. auto. }
  { change (191 - 117) with 74. auto. }
  cbn [bind]. change (191 - 117 + 117) with 191 in *.
  destruct (loop_ind _ (fun i x => filled n (i - 191) i (arr x) /\ sts x = s /\
      lung x = L i) (step4 k) (n - 191 - 191) 191 x3)
    as [x4 [-> [F4 [S4 L4]]]].
  { intros i x Hi [F [Sx Lx]]. unfold step4. change N with 191. change POS1 with 117.
    destruct (rec_to_ok n (i - 191) i (at_array (i - 191))
      (at_array (i + 117 - 191)) x F) as [y [-> [Fy [Sy Ly]]]];
      try lia; try assumption.
    - rewrite (at_array_ok _ _ _ _ _ F) by lia. do 2 f_equal. lia.
    - rewrite (at_array_ok _ _ _ _ _ F) by lia. do 2 f_equal. lia.
    - cbn [bind]. destruct (convert_at_ok n (i - 191) (S i) y Fy)
        as [z [-> [Fz [Sz Lz]]]]; try lia.
      exists z. split; [reflexivity|].
      replace (S i - 191) with (S (i - 191)) by lia.
      split; [exact Fz|]. split; [congruence | congruence]. }
  { auto. }
  cbn [bind]. set (i0 := Nat.max 191 (n - 191)). set (j0 := 2 * 191 - n).
  replace (191 + (n - 191 - 191)) with i0 in * by lia.
  destruct (loop_ind _ (fun j x => arr x = arr x4 /\ lung x = lung x4 /\
      copied n j (sts x)) (fun j => copy_to j (j + n - 191)) j0 0 x4)
    as [x5 [-> [F5 [L5 C5]]]].
  { intros j x Hj [Ax [Lx Cx]].
    destruct (copy_ok n (i0 - 191) i0 j (j + n - 191) x) as [y [E [Ay [Ly Cy]]]].
    - rewrite Ax. exact F4.
    - lia.
    - exact Cx.
    - lia.
    - lia.
    - exists y. split; [exact E|]. split; [congruence|].
      split; [congruence | exact Cy]. }
  { split; [reflexivity|]. split; [reflexivity|]. rewrite S4.
    split; [exact Len|]. intros; lia. }
  cbn [bind]. cbn [Nat.add] in C5.
  destruct (loop_ind _ (fun t x => filled n (i0 + t - 191) (i0 + t) (arr x) /\
      lung x = L (i0 + t) /\ copied n (j0 + t) (sts x))
    (fun t => step6 k (i0 + t) (j0 + t)) (n - i0) 0 x5)
    as [x6 [-> [F6 [L6 C6]]]].
  { intros t x Ht [F [Lx Cx]]. unfold step6. change N with 191.
    change POS1 with 117. set (i := i0 + t) in *.
    destruct (rec_to_ok n (i - 191) i (at_array (i - 191))
      (at_array (i + 117 - 191)) x F) as [y [-> [Fy [Sy Ly]]]];
      try lia; try assumption.
    - rewrite (at_array_ok _ _ _ _ _ F) by lia. do 2 f_equal. lia.
    - rewrite (at_array_ok _ _ _ _ _ F) by lia. do 2 f_equal. lia.
    - cbn [bind].
      destruct (copy_ok n (i - 191) (S i) (j0 + t) i y) as [z [-> [Az [Lz Cz]]]].
      + exact Fy.
      + lia.
      + rewrite Sy. exact Cx.
      + lia.
      + lia.
      + cbn [bind].
        destruct (convert_at_ok n (i - 191) (S i) z)
          as [u [-> [Fu [Su Lu]]]]; try lia.
        { rewrite Az. exact Fy. }
        exists u. split; [reflexivity|].
        replace (i0 + S t) with (S i) by lia.
        replace (j0 + S t) with (S (j0 + t)) by lia.
        replace (S i - 191) with (S (i - 191)) by lia.
        split; [exact Fu|]. split; [congruence|]. rewrite Su. exact Cz. }
  { rewrite !Nat.add_0_r. rewrite F5, L5. split; [exact F4|].
    split; [exact L4 | exact C5]. }
  cbn [bind]. cbn [Nat.add] in *.
  replace (i0 + (n - i0)) with n in * by lia.
  replace (j0 + (n - i0)) with 191 in * by lia.
  destruct (loop_ind _ (fun i x => filled n i n (arr x) /\ sts x = sts x6 /\
      lung x = lung x6) (convert_at k) 191 (n - 191) x6)
    as [x7 [-> [F7 [S7 L7]]]].
  { intros i x Hi [F [Sx Lx]].
    destruct (convert_at_ok n i n x F) as [y [E [Fy [Sy Ly]]]]; try lia.
    exists y. split; [exact E|]. split; [exact Fy|]. split; congruence. }
  { auto. }
  cbn [bind]. replace (n - 191 + 191) with n in * by lia.
  destruct F7 as [A7 [B7 _]]. destruct C6 as [D6 E6].
  destruct (put_some _ (sts x7) 191 (lung x7) ltac:(rewrite S7; lia)) as [s' P].
  rewrite P. cbn [bind]. exists s', (arr x7). split; [reflexivity|].
  split; [|split; [exact A7 | exact B7]].
  split; [rewrite (put_length _ _ _ _ _ P), S7; exact D6|]. split.
  - intros j Hj. rewrite (put_get _ _ _ _ _ j P).
    destruct (Nat.eqb_spec j 191); [lia|]. rewrite S7. apply E6. exact Hj.
  - rewrite (put_get _ _ _ _ _ 191 P). cbn. rewrite L7, L6. reflexivity.
Qed.
End Sequence.

(** *** Every state begins a sequence. *)
Section Make.
Variable s : list w128.
Variable l0 : w128.
Fixpoint hist (n : nat) : list w128 * w128 :=
  match n with
  | O => (firstn 191 s, l0)
  | S n' =>
      let '(h, l) := hist n' in
      let '(r, l') := do_recursion (nth n' h l0) (nth (n' + 117) h l0) l in
      (h ++ [r], l')
  end.
Hypothesis Hs : length s = 192.

Lemma hist_length : forall n, length (fst (hist n)) = 191 + n.
Proof.
  induction n as [|n IH].
  - cbn [hist fst]. rewrite firstn_length, Hs. reflexivity.
  - cbn [hist]. destruct (hist n) as [h l]. cbn [fst] in IH.
    destruct (do_recursion _ _ _) as [r l']. cbn [fst].
    rewrite app_length. cbn [length]. lia.
Qed.
Lemma hist_prefix : forall m n k, k < 191 + n ->
  nth k (fst (hist (m + n))) l0 = nth k (fst (hist n)) l0.
Proof.
  induction m as [|m IH]; intros n k H; [reflexivity|].
  rewrite <- (IH n k H). cbn [Nat.add hist].
  pose proof (hist_length (m + n)) as E.
  destruct (hist (m + n)) as [h l]. cbn [fst] in *.
  destruct (do_recursion _ _ _) as [r l']. cbn [fst].
  apply app_nth1. lia.
Qed.
Definition entry (k : nat) : w128 := nth k (fst (hist k)) l0.
Lemma entry_at : forall k n, k < 191 + n -> nth k (fst (hist n)) l0 = entry k.
Proof.
  intros k n H. unfold entry. destruct (Nat.le_ge_cases n k) as [Hk|Hk].
  - replace k with ((k - n) + n) at 3 by lia. symmetry. apply hist_prefix. exact H.
  - replace n with ((n - k) + k) by lia. apply hist_prefix. lia.
Qed.
Lemma entry_rec : forall k,
  do_recursion (entry k) (entry (k + 117)) (snd (hist k)) =
  (entry (k + 191), snd (hist (S k))).
Proof.
  intros k. rewrite <- (entry_at (k + 191) (S k)) by lia.
  rewrite <- (entry_at k k), <- (entry_at (k + 117) k) by lia.
  pose proof (hist_length k) as E. cbn [hist].
  destruct (hist k) as [h l]. cbn [fst snd] in *.
  destruct (do_recursion _ _ _) as [r l']. cbn [fst snd].
  rewrite app_nth2 by lia. replace (k + 191 - length h) with 0 by lia. reflexivity.
Qed.
Lemma entry_start : forall j, j < 191 -> get s j = Some (entry j).
Proof.
  intros j H. rewrite <- (entry_at j 0) by lia. cbn [hist fst]. unfold get.
  rewrite (nth_error_nth' s l0) by lia. f_equal.
  rewrite <- (firstn_skipn 191 s) at 1. apply app_nth1.
  rewrite firstn_length. lia.
Qed.
End Make.

Lemma sequence : forall s, length s = 192 -> exists e L,
  (forall k, do_recursion (e k) (e (k + 117)) (L k) = (e (k + 191), L (S k))) /\
  window e L 0 s.
Proof.
  intros s Hs. destruct (get s 191) as [l|] eqn:E.
  - exists (entry s l), (fun n => snd (hist s l n)).
    split; [apply (entry_rec s l Hs)|]. split; [exact Hs|].
    split; [intros j Hj; exact (entry_start s l Hs j Hj) | exact E].
  - unfold get in E. apply nth_error_None in E. lia.
Qed.
