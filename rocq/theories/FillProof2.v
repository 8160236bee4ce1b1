(** Proofs about arrays of random numbers: arrays against single numbers. *)
From Coq Require Import ZArith List Bool Lia QArith Qpower Qfield.
From Coq.Floats Require Import SpecFloat.
From Verif Require Import RngModel RngSpec RngProof RngProof2 RngProof3 RngProof4
  RngProof5 FillModel FillSpec FillProof.
Import ListNotations.
Local Open Scope nat_scope.

Lemma doubles_filled : forall e k a q,
  (forall j, j < length a -> get a j = Some (conv k (e (q + j)))) ->
  doubles_of a =
  Some (map (fun t => convert1 k (wrd e t)) (seq (2 * q) (2 * length a))).
Proof.
  intros e k. induction a as [|c a IH]; intros q H; [reflexivity|].
  pose proof (H 0 ltac:(cbn [length]; lia)) as H0. cbn in H0. injection H0 as H0.
  rewrite Nat.add_0_r in H0.
  assert (IH' := IH (S q)).
  cbn [length]. replace (2 * S (length a)) with (S (S (2 * length a))) by lia.
  cbn [seq map]. replace (S (S (2 * q))) with (2 * S q) by lia.
  assert (W0 : wrd e (2 * q) = fst (e q)).
  { unfold wrd. rewrite Nat.even_mul. cbn [Nat.even orb].
    rewrite Nat.div2_double. reflexivity. }
  assert (W1 : wrd e (S (2 * q)) = snd (e q)).
  { unfold wrd. rewrite Nat.div2_succ_double.
    rewrite Nat.even_succ, <- Nat.negb_even, Nat.even_mul. reflexivity. }
  rewrite W0, W1.
  assert (R : doubles_of a = Some (map (fun t => convert1 k (wrd e t))
                (seq (2 * S q) (2 * length a)))).
  { apply IH'. intros j Hj. specialize (H (S j) ltac:(cbn [length]; lia)).
    cbn in H. unfold get. rewrite H. do 3 f_equal. lia. }
  subst c. unfold conv. destruct k; cbn [doubles_of]; rewrite R; reflexivity.
Qed.

Lemma genrand_next : forall k g w g', next_word g = Some (w, g') ->
  genrand k g = Some (convert1 k w, g').
Proof. intros k g w g' E. unfold genrand. rewrite E. reflexivity. Qed.

(** What an array holds and where the generator stands afterwards. *)
Lemma fill_place : forall k g a n, length (status g) = 192 -> idx g <= 382 ->
  length a = n -> 191 <= n ->
  exists e L g' a',
    (forall i, do_recursion (e i) (e (i + 117)) (L i) = (e (i + 191), L (S i))) /\
    place e L g (idx g) /\
    fill_array k g a (2 * n) = Some (g', a') /\
    doubles_of a' =
      Some (map (fun t => convert1 k (wrd e t)) (seq 382 (2 * n))) /\
    length a' = n /\
    length (status g') = 192 /\ idx g' = idx g /\ place e L g' (2 * n + idx g).
Proof.
  intros k g a n Hs Hi Ha Hn.
  destruct (sequence (status g) Hs) as [e [L [He W]]].
  destruct (array_ok e L He k n (status g) a W Ha Hn) as [s' [a' [E [W' [La' Ca']]]]].
  exists e, L, {| status := s'; idx := idx g |}, a'.
  split; [exact He|]. split.
  { exists 0. split; [exact W|]. split; [exact Hi | lia]. }
  split.
  { unfold fill_array. replace ((2 * n) mod 2 =? 0) with true.
    2:{ symmetry. apply Nat.eqb_eq. rewrite Nat.mul_comm. apply Nat.mod_mul. lia. }
    change N64 with 382.
    replace (382 <=? 2 * n) with true by (symmetry; apply Nat.leb_le; lia).
    cbn [andb]. rewrite Nat.div2_double, E. reflexivity. }
  split.
  { pose proof (doubles_filled e k a' 191) as D. rewrite La' in D.
    apply D. exact Ca'. }
  split; [exact La'|]. cbn [status idx]. split; [exact (proj1 W')|].
  split; [reflexivity|]. exists n. cbn [status idx].
  split; [exact W'|]. split; [exact Hi | lia].
Qed.

Lemma seq_split : forall p n m, seq p (n + m) = seq p n ++ seq (p + n) m.
Proof. intros. apply seq_app. Qed.

Lemma fill_same : forall k g a n, length (status g) = 192 -> idx g = 382 ->
  length a = n -> 191 <= n ->
  exists g' a' xs,
    fill_array k g a (2 * n) = Some (g', a') /\ length a' = n /\
    doubles_of a' = Some xs /\ length xs = 2 * n /\
    length (status g') = 192 /\ idx g' = 382 /\
    (exists g1, calls (genrand k) (2 * n) g = Some (xs, g1)) /\
    forall k' m, exists xs' ys g1 g2,
      length xs' = 2 * n /\
      calls (genrand k') (2 * n + m) g = Some (xs' ++ ys, g1) /\
      calls (genrand k') m g' = Some (ys, g2).
Proof.
  intros k g a n Hs Hi Ha Hn.
  destruct (fill_place k g a n Hs ltac:(lia) Ha Hn)
    as [e [L [g' [a' [He [P [E [D [La [Ls [Ii P']]]]]]]]]]].
  exists g', a', (map (fun t => convert1 k (wrd e t)) (seq 382 (2 * n))).
  split; [exact E|]. split; [exact La|]. split; [exact D|].
  split; [rewrite map_length, seq_length; reflexivity|].
  split; [exact Ls|]. split; [congruence|]. rewrite Hi in P, P'. split.
  - destruct (calls_place e L He _ (genrand k) (convert1 k) (genrand_next k)
      (2 * n) g 382 P) as [g1 [C _]]. exists g1. exact C.
  - intros k' m.
    destruct (calls_place e L He _ (genrand k') (convert1 k') (genrand_next k')
      (2 * n + m) g 382 P) as [g1 [C _]].
    destruct (calls_place e L He _ (genrand k') (convert1 k') (genrand_next k')
      m g' _ P') as [g2 [C' _]].
    rewrite seq_split, map_app in C. rewrite (Nat.add_comm (2 * n) 382) in C'.
    eexists. eexists. exists g1, g2.
    split; [|split; [exact C | exact C']].
    rewrite map_length, seq_length. reflexivity.
Qed.

Lemma fill_when : forall k g a size, length (status g) = 192 -> idx g <= 382 ->
  length a = Nat.div2 size ->
  ((exists r, fill_array k g a size = Some r) <->
   size mod 2 = 0 /\ 382 <= size).
Proof.
  intros k g a size Hs Hi Ha. split.
  - intros [r E]. unfold fill_array in E. change N64 with 382 in E.
    destruct (Nat.eqb_spec (size mod 2) 0) as [Z|Z]; [|discriminate].
    destruct (Nat.leb_spec 382 size) as [G|G]; [|discriminate]. auto.
  - intros [Z G]. assert (D : size = 2 * Nat.div2 size).
    { rewrite Nat.div2_div. pose proof (Nat.div_mod size 2 ltac:(lia)). lia. }
    destruct (fill_place k g a (Nat.div2 size) Hs Hi Ha ltac:(lia))
      as [e [L [g' [a' [_ [_ [E _]]]]]]].
    rewrite <- D in E. exists (g', a'). exact E.
Qed.

(** Used in the middle of a block: the rest of the block is left out, and the
    calls behind the array give numbers of the array again. *)
Lemma fill_again : forall k g a n i, length (status g) = 192 -> idx g = i ->
  i <= 382 -> length a = n -> 191 <= n ->
  exists g' a' xs,
    fill_array k g a (2 * n) = Some (g', a') /\ doubles_of a' = Some xs /\
    (exists skipped g1, length skipped = 382 - i /\
       calls (genrand k) (382 - i + 2 * n) g = Some (skipped ++ xs, g1)) /\
    exists kept ys g2, length ys = 382 - i /\ xs = kept ++ ys /\
      calls (genrand k) (382 - i) g' = Some (ys, g2).
Proof.
  intros k g a n i Hs Ii Hi Ha Hn. rewrite <- Ii in *.
  destruct (fill_place k g a n Hs Hi Ha Hn)
    as [e [L [g' [a' [He [P [E [D [La [Ls [_ P']]]]]]]]]]].
  exists g', a', (map (fun t => convert1 k (wrd e t)) (seq 382 (2 * n))).
  split; [exact E|]. split; [exact D|]. split.
  - destruct (calls_place e L He _ (genrand k) (convert1 k) (genrand_next k)
      (382 - idx g + 2 * n) g _ P) as [g1 [C _]].
    rewrite seq_split, map_app in C.
    replace (idx g + (382 - idx g)) with 382 in C by lia.
    eexists. exists g1. split; [|exact C].
    rewrite map_length, seq_length. reflexivity.
  - destruct (calls_place e L He _ (genrand k) (convert1 k) (genrand_next k)
      (382 - idx g) g' _ P') as [g2 [C _]].
    exists (map (fun t => convert1 k (wrd e t)) (seq 382 (2 * n - (382 - idx g)))).
    eexists. exists g2. split; [|split; [|exact C]].
    + rewrite map_length, seq_length. reflexivity.
    + rewrite <- map_app. f_equal.
      replace (2 * n) with (2 * n - (382 - idx g) + (382 - idx g)) at 1 by lia.
      rewrite seq_split. do 2 f_equal. lia.
Qed.

(** *** Ranges. *)
Local Open Scope Z_scope.
Lemma next_good : forall g, good g -> exists w g', next_word g = Some (w, g') /\
  word64 w /\ in_1_2 w /\ good g'.
Proof.
  intros g [Hs [Hd Hi]]. unfold next_word. rewrite N64_val.
  destruct (Nat.leb_spec 382 (idx g)) as [G|G].
  - destruct (gen_ok _ Hs) as [s [-> [K D]]]. cbn [bind status idx].
    destruct (word_ok s 0 K (D Hd) ltac:(lia)) as [w [-> [W1 [W2 _]]]].
    cbn [bind]. eexists. eexists. split; [reflexivity|].
    split; [exact W1|]. split; [exact W2|].
    split; [exact K|]. split; [exact (D Hd) | cbn; lia].
  - cbn [bind]. destruct (word_ok _ _ Hs Hd G) as [w [-> [W1 [W2 _]]]].
    cbn [bind]. eexists. eexists. split; [reflexivity|].
    split; [exact W1|]. split; [exact W2|].
    split; [exact Hs|]. split; [exact Hd | cbn; lia].
Qed.

Lemma calls_good : forall A (f : dsfmt -> option (A * dsfmt)) (v : Z -> A)
    (P : A -> Prop),
  (forall g w g', next_word g = Some (w, g') -> f g = Some (v w, g')) ->
  (forall w, word64 w -> in_1_2 w -> P (v w)) ->
  forall n g, good g -> exists xs g', calls f n g = Some (xs, g') /\
    length xs = n /\ Forall P xs /\ good g'.
Proof.
  intros A f v P Hf HP. induction n as [|n IH]; intros g H; cbn [calls].
  - exists [], g. split; [reflexivity|]. split; [reflexivity|].
    split; [constructor | exact H].
  - destruct (next_good g H) as [w [g1 [E [W1 [W2 G]]]]].
    rewrite (Hf _ _ _ E). cbn [bind].
    destruct (IH g1 G) as [xs [g2 [-> [Lx [Fx G2]]]]]. cbn [bind].
    exists (v w :: xs), g2. split; [reflexivity|]. split; [cbn; lia|].
    split; [constructor; [exact (HP w W1 W2) | exact Fx] | exact G2].
Qed.

Lemma or_one : forall w, word64 w -> in_1_2 w ->
  word64 (Z.lor w 1) /\ in_1_2 (Z.lor w 1) /\
  Z.lor w 1 mod 2 ^ 52 = 2 * (w mod 2 ^ 52 / 2) + 1.
Proof.
  intros w Hw H.
  assert (E : Z.lor w 1 = 2 * (w / 2) + 1).
  { apply Z.bits_inj'. intros i Hi. rewrite Z.lor_spec.
    destruct (Z.eq_dec i 0) as [->|Hn].
    - rewrite Z.testbit_odd_0. change (Z.testbit 1 0) with true. apply orb_true_r.
    - replace i with (Z.succ (i - 1)) by lia. rewrite Z.testbit_odd_succ by lia.
      rewrite <- Z.div2_div, Z.div2_spec, Z.shiftr_spec by lia.
      replace (Z.testbit 1 (Z.succ (i - 1))) with false.
      + rewrite orb_false_r. f_equal.
      + symmetry. change 1 with (2 ^ 0). apply Z.pow2_bits_false. lia. }
  unfold word64, in_1_2 in *. rewrite E.
  pose proof (Z.div_mod w (2 ^ 52) ltac:(lia)) as D. rewrite H in D.
  pose proof (Z.mod_pos_bound w (2 ^ 52) ltac:(lia)) as B.
  set (m := w mod 2 ^ 52) in *. clearbody m.
  pose proof (Z.div_mod m 2 ltac:(lia)) as D2.
  pose proof (Z.mod_pos_bound m 2 ltac:(lia)) as B2.
  assert (V : w / 2 = 2 ^ 51 * 1023 + m / 2).
  { rewrite D. replace (2 ^ 52 * 1023 + m) with (m + (2 ^ 51 * 1023) * 2) by lia.
    rewrite Z.div_add by lia. lia. }
  rewrite V. split; [lia|].
  replace (2 * (2 ^ 51 * 1023 + m / 2) + 1) with
    ((2 * (m / 2) + 1) + 1023 * 2 ^ 52) by lia.
  split.
  - rewrite Z.div_add by lia. rewrite Z.div_small by lia. reflexivity.
  - rewrite Z.mod_add by lia. apply Z.mod_small. lia.
Qed.

Lemma grid_q : forall z, (inject_Z z / inject_Z (2 ^ 52) == z # (2 ^ 52))%Q.
Proof. intros z. rewrite Qmake_Qdiv. reflexivity. Qed.

Lemma round_52 : forall k, Zpos k <= 2 ^ 52 -> exists q,
  value (binary_round 53 1024 false k (-52)) = Some q /\
  (q == inject_Z (Zpos k) / inject_Z (2 ^ 52))%Q.
Proof.
  intros k Hk. destruct (Z.eq_dec (Zpos k) (2 ^ 52)) as [E|E].
  - assert (k = Z.to_pos (2 ^ 52)) as -> by lia.
    eexists. split; [vm_compute; reflexivity|]. vm_compute. reflexivity.
  - destruct (round_exact k ltac:(lia)) as [m [d [-> M]]].
    eexists. split; [reflexivity|]. cbn beta iota. rewrite M.
    rewrite inject_Z_mult.
    assert (T : (Qpower (2 # 1) (-52 - Zpos d) * inject_Z (2 ^ Zpos d) *
                 inject_Z (2 ^ 52) == 1)%Q).
    { rewrite !Zpower_Qpower by lia. change (inject_Z 2) with (2 # 1)%Q.
      rewrite <- !Qpower_plus by discriminate.
      replace (-52 - Zpos d + Zpos d + 52) with 0 by lia. reflexivity. }
    assert (N : ~ (inject_Z (2 ^ 52) == 0)%Q) by (intros Q; discriminate Q).
    set (a := inject_Z (Zpos k)) in *. set (b := inject_Z (2 ^ Zpos d)) in *.
    set (c := Qpower (2 # 1) (-52 - Zpos d)) in *.
    set (t := inject_Z (2 ^ 52)) in *. clearbody a b c t.
    setoid_replace (a * b * c)%Q with (a * (c * b * t) / t)%Q by (field; exact N).
    rewrite T. field. exact N.
Qed.

(** The number of each range, as a multiple of 2^-52. *)
Lemma convert1_value : forall k w, word64 w -> in_1_2 w -> exists q,
  value (convert1 k w) = Some q /\
  (q == inject_Z (numerator k (w mod 2 ^ 52)) / inject_Z (2 ^ 52))%Q.
Proof.
  intros k w Hw H. pose proof (Z.mod_pos_bound w (2 ^ 52) ltac:(lia)) as B.
  destruct k; cbn [convert1 numerator].
  - destruct (decode_1_2 w Hw H) as [p [P ->]]. cbn [value].
    eexists. split; [reflexivity|]. rewrite P. rewrite (Z.add_comm (2 ^ 52)).
    change (Qpower (2 # 1) (-52)) with (/ inject_Z (2 ^ 52))%Q. reflexivity.
  - destruct (sub_one w Hw H) as [_ V]. exact V.
  - destruct (decode_1_2 w Hw H) as [p [P ->]].
    unfold SFsub, two. change (Z.min (-51) (-52)) with (-52). unfold shl_align.
    change (-52 - -51) with (-1). change (-52 - -52) with 0.
    cbn [fst cond_Zopp]. unfold binary_normalize.
    replace (Zpos (shift_pos 1 4503599627370496) - Zpos p) with (2 ^ 52 - w mod 2 ^ 52).
    2:{ change (Zpos (shift_pos 1 4503599627370496)) with (2 ^ 53). lia. }
    destruct (2 ^ 52 - w mod 2 ^ 52) as [|k|k] eqn:E; [lia| |lia].
    apply round_52. lia.
  - destruct (or_one w Hw H) as [A [C D]].
    destruct (sub_one (Z.lor w 1) A C) as [_ V]. rewrite D in V. exact V.
Qed.

Lemma numerator_range : forall k u, 0 <= u < 2 ^ 52 ->
  in_range k (inject_Z (numerator k u) / inject_Z (2 ^ 52)).
Proof.
  intros k u H.
  assert (P : (0 < inject_Z (2 ^ 52))%Q) by reflexivity.
  assert (T : forall z, 0 <= z -> (0 <= inject_Z z / inject_Z (2 ^ 52))%Q).
  { intros z Hz. apply Qle_shift_div_l; [exact P|]. rewrite Qmult_0_l.
    change 0%Q with (inject_Z 0). rewrite <- Zle_Qle. exact Hz. }
  assert (U : forall z, 0 < z -> (0 < inject_Z z / inject_Z (2 ^ 52))%Q).
  { intros z Hz. apply Qlt_shift_div_l; [exact P|]. rewrite Qmult_0_l.
    change 0%Q with (inject_Z 0). rewrite <- Zlt_Qlt. exact Hz. }
  assert (V : forall z, z < 2 ^ 52 -> (inject_Z z / inject_Z (2 ^ 52) < 1)%Q).
  { intros z Hz. apply Qlt_shift_div_r; [exact P|]. rewrite Qmult_1_l.
    rewrite <- Zlt_Qlt. exact Hz. }
  assert (W : forall z, z <= 2 ^ 52 -> (inject_Z z / inject_Z (2 ^ 52) <= 1)%Q).
  { intros z Hz. apply Qle_shift_div_r; [exact P|]. rewrite Qmult_1_l.
    rewrite <- Zle_Qle. exact Hz. }
  pose proof (Z.div_mod u 2 ltac:(lia)) as D.
  pose proof (Z.mod_pos_bound u 2 ltac:(lia)) as B.
  destruct k; cbn [in_range numerator].
  - split.
    + apply Qle_shift_div_l; [exact P|]. rewrite Qmult_1_l.
      rewrite <- Zle_Qle. lia.
    + apply Qlt_shift_div_r; [exact P|]. change 2%Q with (inject_Z 2).
      rewrite <- inject_Z_mult, <- Zlt_Qlt. lia.
  - split; [apply T; lia | apply V; lia].
  - split; [apply U; lia | apply W; lia].
  - split; [apply U; lia | apply V; lia].
Qed.

Lemma range_q : forall k q r, (q == r)%Q -> in_range k r -> in_range k q.
Proof. intros k q r E. destruct k; cbn [in_range]; rewrite E; auto. Qed.

Lemma calls_range : forall k n g, good g -> exists xs g',
  calls (genrand k) n g = Some (xs, g') /\ length xs = n /\
  Forall (fun x => exists q, value x = Some q /\ in_range k q) xs.
Proof.
  intros k n g H.
  destruct (calls_good _ (genrand k) (convert1 k)
    (fun x => exists q, value x = Some q /\ in_range k q) (genrand_next k)) with
    (n := n) (g := g) as [xs [g' [E [Lx [F _]]]]].
  - intros w W1 W2. destruct (convert1_value k w W1 W2) as [q [V Q]].
    exists q. split; [exact V|]. apply (range_q _ _ _ Q). apply numerator_range.
    apply Z.mod_pos_bound. lia.
  - exact H.
  - exists xs, g'. auto.
Qed.

Lemma calls_related : forall n g, good g -> exists us : list Z,
  length us = n /\ Forall (fun u => 0 <= u < 2 ^ 52) us /\
  (forall k, exists xs g', calls (genrand k) n g = Some (xs, g') /\
    Forall2 (fun x u => exists q, value x = Some q /\
      (q == inject_Z (numerator k u) / inject_Z (2 ^ 52))%Q) xs us) /\
  exists g', calls genrand_uint32 n g = Some (map (fun u => u mod 2 ^ 32) us, g').
Proof.
  induction n as [|n IH]; intros g H; cbn [calls].
  - exists []. split; [reflexivity|]. split; [constructor|]. split.
    + intros k. exists [], g. split; [reflexivity | constructor].
    + exists g. reflexivity.
  - destruct (next_good g H) as [w [g1 [E [W1 [W2 G]]]]].
    destruct (IH g1 G) as [us [Lu [Fu [Hk [g2 Hu]]]]].
    exists (w mod 2 ^ 52 :: us). split; [cbn; lia|].
    split; [constructor; [apply Z.mod_pos_bound; lia | exact Fu]|]. split.
    + intros k. rewrite (genrand_next k _ _ _ E). cbn [bind].
      destruct (Hk k) as [xs [g3 [-> F]]]. cbn [bind].
      eexists. eexists. split; [reflexivity|]. constructor; [|exact F].
      apply convert1_value; assumption.
    + unfold genrand_uint32 at 1. rewrite E. cbn [bind]. rewrite Hu. cbn [bind map].
      exists g2. do 3 f_equal.
      change 4294967295 with (Z.ones 32). rewrite Z.land_ones by lia.
      replace (2 ^ 52) with (2 ^ 32 * 2 ^ 20) by reflexivity.
      rewrite <- Znumtheory.Zmod_div_mod; [reflexivity | lia | lia|].
      exists (2 ^ 20). lia.
Qed.

Lemma seeds_ok : forall n i x, 0 <= x < 2 ^ 32 ->
  length (seeds n i x) = n /\ Forall word32 (seeds n i x).
Proof.
  induction n as [|n IH]; intros i x H; cbn [seeds].
  - split; [reflexivity | constructor].
  - destruct (IH (i + 1) (w32 (w64 (w64 (1812433253 *
      Z.lxor x (Z.shiftr x 30)) + i)))) as [A B].
    { unfold w32. apply Z.mod_pos_bound. lia. }
    cbn [length]. split; [lia|]. constructor; assumption.
Qed.

Lemma seed_ok : forall seed, 0 <= seed < 2 ^ 32 -> exists g,
  init_gen_rand seed = Some g /\ good g /\ idx g = 382%nat /\
  exists w, get (status g) 191 = Some w /\ certified w.
Proof.
  intros seed H. unfold init_gen_rand.
  destruct (seeds_ok size 1 seed H) as [A B].
  destruct (entries_ok 192 (seeds size 1 seed) A B) as [C D].
  destruct (initial_mask_ok _ (conj C D)) as [s [-> [Hs Ds]]]. cbn [bind].
  destruct (certification s Hs) as [s' [-> [Hs' [Ce [Fr _]]]]]. cbn [bind].
  eexists. split; [reflexivity|]. unfold good. cbn [status idx].
  split; [split; [exact Hs'|split; [|reflexivity]]|split; [reflexivity | exact Ce]].
  intros k w Hk. rewrite Fr by lia. apply Ds. exact Hk.
Qed.

Lemma started_good : forall g, started g -> good g /\ idx g = 382%nat.
Proof.
  intros g [[key E]|[seed [H E]]].
  - destruct (init_ok key) as [g' [E' [G [I _]]]]. rewrite E in E'.
    injection E' as <-. auto.
  - destruct (seed_ok seed H) as [g' [E' [G [I _]]]]. rewrite E in E'.
    injection E' as <-. auto.
Qed.

Lemma started_range : forall k n g, started g -> exists xs g',
  calls (genrand k) n g = Some (xs, g') /\ length xs = n /\
  Forall (fun x => exists q, value x = Some q /\ in_range k q) xs.
Proof. intros k n g H. apply calls_range. exact (proj1 (started_good g H)). Qed.

Lemma started_related : forall n g, started g -> exists us : list Z,
  length us = n /\ Forall (fun u => 0 <= u < 2 ^ 52) us /\
  (forall k, exists xs g', calls (genrand k) n g = Some (xs, g') /\
    Forall2 (fun x u => exists q, value x = Some q /\
      (q == inject_Z (numerator k u) / inject_Z (2 ^ 52))%Q) xs us) /\
  exists g', calls genrand_uint32 n g = Some (map (fun u => u mod 2 ^ 32) us, g').
Proof. intros n g H. apply calls_related. exact (proj1 (started_good g H)). Qed.

Lemma started_array : forall k g a n, started g -> length a = n -> (191 <= n)%nat ->
  exists g' a' xs, fill_array k g a (2 * n) = Some (g', a') /\
    doubles_of a' = Some xs /\ length xs = (2 * n)%nat /\
    Forall (fun x => exists q, value x = Some q /\ in_range k q) xs.
Proof.
  intros k g a n H Ha Hn. destruct (started_good g H) as [[Hs [Hd Hi]] I].
  destruct (fill_same k g a n (proj1 Hs) I Ha Hn)
    as [g' [a' [xs [E [_ [D [Lx [_ [_ [[g1 C] _]]]]]]]]]].
  exists g', a', xs. split; [exact E|]. split; [exact D|]. split; [exact Lx|].
  destruct (calls_range k (2 * n) g (conj Hs (conj Hd Hi))) as [ys [g2 [E2 [_ F]]]].
  rewrite C in E2. injection E2 as -> _. exact F.
Qed.

Lemma seed_certified : forall seed, 0 <= seed < 2 ^ 32 -> exists g u0 u1,
  init_gen_rand seed = Some g /\ nth_error (status g) 191 = Some (u0, u1) /\
  dot128 (Z.lxor u0 0x90014964b32f4329) (Z.lxor u1 0x3b8d12ac548a7c7a)
    0x3d84e1ac0dc82880 0x0000000000000001 = true.
Proof.
  intros seed H. destruct (seed_ok seed H) as [g [E [_ [_ [[u0 u1] [G C]]]]]].
  exists g, u0, u1. split; [exact E|]. split; [exact G | exact C].
Qed.
