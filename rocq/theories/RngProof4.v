(** Proofs about the random number generator: the initial state and the
    numbers drawn. *)
From Coq Require Import ZArith List Bool Lia QArith Qpower Qfield.
From Coq.Floats Require Import SpecFloat.
From Verif Require Import RngModel RngSpec RngProof RngProof2 RngProof3.
Import ListNotations.
Local Open Scope Z_scope.

(** *** Words of 32 bits. *)
Definition word32 (x : Z) : Prop := 0 <= x < 2 ^ 32.
Lemma word32_w32 : forall x, word32 (w32 x).
Proof. intros x. unfold word32, w32. apply Z.mod_pos_bound. reflexivity. Qed.
Lemma word32_lxor : forall x y, word32 x -> word32 y -> word32 (Z.lxor x y).
Proof.
  intros x y [X0 X1] [Y0 Y1].
  assert (N : 0 <= Z.lxor x y) by (apply Z.lxor_nonneg; lia).
  split; [exact N|].
  assert (E : Z.lxor x y / 2 ^ 32 = 0).
  { rewrite <- Z.shiftr_div_pow2 by lia. rewrite Z.shiftr_lxor.
    rewrite !Z.shiftr_div_pow2 by lia. rewrite !Z.div_small by lia. reflexivity. }
  apply Z.div_small_iff in E; [|lia]. lia.
Qed.
Definition words_ok (l : list Z) : Prop := length l = 768%nat /\ Forall word32 l.

Lemma modify_ok : forall f l i, words_ok l -> (i < 768)%nat ->
  (forall v, word32 v -> word32 (f v)) ->
  exists l', modify f l i = Some l' /\ words_ok l'.
Proof.
  intros f l i [L F] Hi Hf. unfold modify.
  destruct (get_some _ l i ltac:(lia)) as [v G]. rewrite G. cbn [bind].
  destruct (put_some _ l i (f v) ltac:(lia)) as [l' P]. exists l'.
  split; [exact P|]. split.
  - rewrite (put_length _ _ _ _ _ P). exact L.
  - apply (put_Forall _ _ _ _ _ _ P F). apply Hf. exact (get_Forall _ _ _ _ _ G F).
Qed.
Lemma put_words : forall l i v, words_ok l -> (i < 768)%nat -> word32 v ->
  exists l', put l i v = Some l' /\ words_ok l'.
Proof.
  intros l i v [L F] Hi V. destruct (put_some _ l i v ltac:(lia)) as [l' P].
  exists l'. split; [exact P|]. split.
  - rewrite (put_length _ _ _ _ _ P). exact L.
  - exact (put_Forall _ _ _ _ _ _ P F V).
Qed.
Lemma get_words : forall l i, words_ok l -> (i < 768)%nat ->
  exists v, get l i = Some v /\ word32 v.
Proof.
  intros l i [L F] Hi. destruct (get_some _ l i ltac:(lia)) as [v G].
  exists v. split; [exact G|]. exact (get_Forall _ _ _ _ _ G F).
Qed.
Lemma mod_size : forall i, (i mod size < 768)%nat.
Proof.
  intros i. rewrite size_val. apply Nat.mod_upper_bound. discriminate.
Qed.

Lemma fill1_ok : forall i add l, (i < 768)%nat -> words_ok l ->
  exists l', fill1 i add l = Some l' /\ words_ok l'.
Proof.
  intros i add l Hi H. unfold fill1.
  destruct (get_words l i H Hi) as [x [-> X]].
  destruct (get_words l _ H (mod_size (i + mid))) as [y [-> Y]].
  destruct (get_words l _ H (mod_size (i + size - 1))) as [z [-> Z]].
  cbn [bind]. set (r := ini_func1 _).
  destruct (modify_ok (fun v => w32 (v + r)) l _ H (mod_size (i + mid))) as [l1 [-> H1]];
    [intros; apply word32_w32|]. cbn [bind].
  destruct (modify_ok (fun v => w32 (v + w32 (r + add))) l1 _ H1
    (mod_size (i + mid + lag))) as [l2 [-> H2]]; [intros; apply word32_w32|].
  cbn [bind]. apply put_words; [assumption..|]. apply word32_w32.
Qed.
Lemma fill2_ok : forall i l, (i < 768)%nat -> words_ok l ->
  exists l', fill2 i l = Some l' /\ words_ok l'.
Proof.
  intros i l Hi H. unfold fill2.
  destruct (get_words l i H Hi) as [x [-> X]].
  destruct (get_words l _ H (mod_size (i + mid))) as [y [-> Y]].
  destruct (get_words l _ H (mod_size (i + size - 1))) as [z [-> Z]].
  cbn [bind]. set (r := ini_func2 _).
  assert (R : word32 r) by apply word32_w32.
  destruct (modify_ok (fun v => Z.lxor v r) l _ H (mod_size (i + mid))) as [l1 [-> H1]];
    [intros; apply word32_lxor; assumption|]. cbn [bind].
  set (r' := w32 (r - Z.of_nat i)). assert (R' : word32 r') by apply word32_w32.
  destruct (modify_ok (fun v => Z.lxor v r') l1 _ H1
    (mod_size (i + mid + lag))) as [l2 [-> H2]];
    [intros; apply word32_lxor; assumption|].
  cbn [bind]. apply put_words; assumption.
Qed.
Lemma keys_ok : forall key n i l, (i < 768)%nat -> words_ok l ->
  exists n' i' l', keys key n i l = Some (n', i', l') /\ (i' < 768)%nat /\
    words_ok l' /\ n' = (n - length key)%nat.
Proof.
  induction key as [|k key IH]; intros n i l Hi H.
  - exists n, i, l. destruct n; cbn [keys length];
      (split; [reflexivity|]; split; [exact Hi|]; split; [exact H | lia]).
  - destruct n as [|n]; cbn [keys].
    + exists 0%nat, i, l. split; [reflexivity|]. split; [exact Hi|].
      split; [exact H | reflexivity].
    + destruct (fill1_ok i (k + Z.of_nat i) l Hi H) as [l1 [-> H1]]. cbn [bind].
      destruct (IH n _ l1 (mod_size (i + 1)) H1) as [n' [i' [l' [E [A [B C]]]]]].
      exists n', i', l'. split; [exact E|]. split; [exact A|]. split; [exact B|].
      cbn [length]. lia.
Qed.
Lemma rest_ok : forall n i l, (i < 768)%nat -> words_ok l ->
  exists i' l', rest n i l = Some (i', l') /\ (i' < 768)%nat /\ words_ok l'.
Proof.
  induction n as [|n IH]; intros i l Hi H; cbn [rest].
  - exists i, l. auto.
  - destruct (fill1_ok i (Z.of_nat i) l Hi H) as [l1 [-> H1]]. cbn [bind].
    apply IH; [apply mod_size | exact H1].
Qed.
Lemma mix_ok : forall n i l, (i < 768)%nat -> words_ok l ->
  exists l', mix n i l = Some l' /\ words_ok l'.
Proof.
  induction n as [|n IH]; intros i l Hi H; cbn [mix].
  - exists l. auto.
  - destruct (fill2_ok i l Hi H) as [l1 [-> H1]]. cbn [bind].
    apply IH; [apply mod_size | exact H1].
Qed.

Lemma entries_ok : forall n l, length l = (n * 4)%nat -> Forall word32 l ->
  length (entries l) = n /\ Forall ok128 (entries l).
Proof.
  induction n as [|n IH]; intros l L F.
  - destruct l; [|discriminate]. split; [reflexivity | constructor].
  - destruct l as [|a [|b [|c [|d l]]]]; try (cbn in L; lia).
    inversion F as [|? ? A F1]; subst. inversion F1 as [|? ? B F2]; subst.
    inversion F2 as [|? ? C F3]; subst. inversion F3 as [|? ? D F4]; subst.
    destruct (IH l ltac:(cbn in L; lia) F4) as [E G].
    cbn [entries length]. split; [lia|]. constructor; [|exact G].
    unfold ok128, word64, word32 in *. cbn [fst snd]. lia.
Qed.

Lemma mask1_ok : forall x, 0 <= x -> word64 (mask1 x) /\ in_1_2 (mask1 x) /\
  mask1 x mod 2 ^ 52 = x mod 2 ^ 52.
Proof.
  intros x Hx. unfold mask1, in_1_2.
  assert (E : Z.lor (Z.land x LOW_MASK) HIGH_CONST / 2 ^ 52 = 1023).
  { rewrite <- Z.shiftr_div_pow2 by lia. rewrite Z.shiftr_lor, Z.shiftr_land.
    replace (Z.shiftr LOW_MASK 52) with 0 by reflexivity.
    rewrite Z.land_0_r. reflexivity. }
  assert (M : Z.lor (Z.land x LOW_MASK) HIGH_CONST mod 2 ^ 52 = x mod 2 ^ 52).
  { rewrite <- !Z.land_ones by lia. change LOW_MASK with (Z.ones 52).
    rewrite Z.land_lor_distr_l, <- Z.land_assoc, Z.land_diag.
    replace (Z.land HIGH_CONST (Z.ones 52)) with 0 by reflexivity.
    apply Z.lor_0_r. }
  split; [|split; assumption]. unfold word64.
  pose proof (Z.div_mod (Z.lor (Z.land x LOW_MASK) HIGH_CONST) (2 ^ 52) ltac:(lia)) as D.
  pose proof (Z.mod_pos_bound (Z.lor (Z.land x LOW_MASK) HIGH_CONST) (2 ^ 52)) as B.
  rewrite E in D. lia.
Qed.

Lemma initial_mask_ok : forall s, state_ok s ->
  exists s', initial_mask s = Some s' /\ state_ok s' /\ doubles s'.
Proof.
  intros s Hs. unfold initial_mask. rewrite N_val.
  assert (G : forall n i s, state_ok s -> (i + n <= 191)%nat ->
    (forall k w, (k < i)%nat -> get s k = Some w -> dbl128 w) ->
    exists s', loop mask_at i n s = Some s' /\ state_ok s' /\
      (forall k w, (k < i + n)%nat -> get s' k = Some w -> dbl128 w)).
  { clear. induction n as [|n IH]; intros i s Hs Hi D; cbn [loop].
    - exists s. split; [reflexivity|]. split; [exact Hs|].
      replace (i + 0)%nat with i by lia. exact D.
    - unfold mask_at at 1. destruct (state_get s i Hs ltac:(lia)) as [w [G [O0 O1]]].
      rewrite G. cbn [bind]. destruct Hs as [L F].
      destruct (put_some _ s i (mask1 (fst w), mask1 (snd w)) ltac:(lia)) as [s1 P].
      rewrite P. cbn [bind].
      destruct (mask1_ok (fst w) (proj1 O0)) as [A0 [B0 _]].
      destruct (mask1_ok (snd w) (proj1 O1)) as [A1 [B1 _]].
      destruct (IH (S i) s1) as [s' [E [K D']]].
      + split; [rewrite (put_length _ _ _ _ _ P); exact L|].
        apply (put_Forall _ _ _ _ _ _ P F). split; assumption.
      + lia.
      + intros k v Hk. rewrite (put_get _ _ _ _ _ k P).
        destruct (Nat.eqb_spec k i) as [->|Hn].
        * intros Q. injection Q as <-. split; split; assumption.
        * apply D. lia.
      + exists s'. split; [exact E|]. split; [exact K|].
        intros k v Hk. apply D'. lia. }
  destruct (G 191%nat 0%nat s Hs ltac:(lia)) as [s' [E [K D]]].
  - intros k w Hk. lia.
  - exists s'. split; [exact E|]. split; [exact K|]. exact D.
Qed.

(** The generator after its initialisation, for every key. *)
Definition good (g : dsfmt) : Prop :=
  state_ok (status g) /\ doubles (status g) /\ (idx g <= 382)%nat.

Lemma init_ok : forall key, exists g, init_by_array key = Some g /\ good g /\
  idx g = 382%nat /\ exists w, get (status g) 191 = Some w /\ certified w.
Proof.
  intros key. unfold init_by_array.
  set (l := repeat 2341178251 size).
  assert (H : words_ok l).
  { split; [unfold l; rewrite repeat_length; reflexivity|].
    apply Forall_forall. intros x Hx. apply repeat_spec in Hx. subst x.
    unfold word32. lia. }
  destruct (get_words l 0 H ltac:(lia)) as [x [-> X]].
  destruct (get_words l _ H (mod_size mid)) as [y [-> Y]].
  destruct (get_words l _ H (mod_size (size - 1))) as [z [-> Z]].
  cbn [bind]. set (r := ini_func1 _).
  destruct (modify_ok (fun v => w32 (v + r)) l _ H (mod_size mid)) as [l1 [-> H1]];
    [intros; apply word32_w32|]. cbn [bind].
  destruct (modify_ok (fun v => w32 (v + w32 (r + Z.of_nat (length key)))) l1 _ H1
    (mod_size (mid + lag))) as [l2 [-> H2]]; [intros; apply word32_w32|].
  cbn [bind].
  destruct (put_words l2 0 (w32 (r + Z.of_nat (length key))) H2 ltac:(lia)
    (word32_w32 _)) as [l3 [-> H3]]. cbn [bind].
  set (count := if (size <? length key + 1)%nat then _ else _).
  destruct (keys_ok key (count - 1) 1 l3 ltac:(lia) H3)
    as [n [i [l4 [-> [I4 [H4 _]]]]]]. cbn [bind].
  destruct (rest_ok n i l4 I4 H4) as [i5 [l5 [-> [I5 H5]]]]. cbn [bind].
  destruct (mix_ok size i5 l5 I5 H5) as [l6 [-> [L6 F6]]]. cbn [bind].
  destruct (entries_ok 192 l6 L6 F6) as [L7 F7].
  destruct (initial_mask_ok (entries l6) (conj L7 F7)) as [s [-> [Hs Ds]]].
  cbn [bind].
  destruct (certification s Hs) as [s' [-> [Hs' [C [Fr _]]]]]. cbn [bind].
  eexists. split; [reflexivity|]. unfold good. cbn [status idx].
  split; [split; [exact Hs'|split; [|reflexivity]]|split; [reflexivity | exact C]].
  intros k w Hk. rewrite Fr by lia. apply Ds. exact Hk.
Qed.

(** *** The double of a word, less 1.0. *)
Lemma decode_1_2 : forall w, word64 w -> in_1_2 w ->
  exists p, Zpos p = w mod 2 ^ 52 + 2 ^ 52 /\ decode w = S754_finite false p (-52).
Proof.
  intros w Hw H. unfold decode.
  assert (S : Z.testbit w 63 = false).
  { destruct (Z.testbit w 63) eqn:E; [|reflexivity]. exfalso.
    assert (T : Z.testbit (w / 2 ^ 52) 11 = true).
    { rewrite Z.div_pow2_bits by lia. exact E. }
    rewrite H in T. discriminate. }
  rewrite S. rewrite Z.shiftr_div_pow2 by lia. rewrite H.
  change (Z.land 1023 2047) with 1023. cbn [Z.eqb Pos.eqb].
  change LOW_MASK with (Z.ones 52). rewrite Z.land_ones by lia.
  pose proof (Z.mod_pos_bound w (2 ^ 52) ltac:(lia)) as B.
  destruct (w mod 2 ^ 52 + 2 ^ 52) as [|p|p] eqn:E; [lia| |lia].
  exists p. split; reflexivity.
Qed.

Lemma digits_shift : forall d p,
  Zpos (digits2_pos (shift_pos d p)) = Zpos (digits2_pos p) + Zpos d.
Proof.
  intros d p. unfold shift_pos. induction d using Pos.peano_ind.
  - cbn. lia.
  - rewrite Pos.iter_succ. cbn [digits2_pos]. rewrite Pos2Z.inj_succ, IHd. lia.
Qed.
Lemma shift_val : forall d p, Zpos (shift_pos d p) = Zpos p * 2 ^ Zpos d.
Proof.
  intros d p. unfold shift_pos. induction d using Pos.peano_ind.
  - cbn. lia.
  - rewrite Pos.iter_succ, Pos2Z.inj_succ, Z.pow_succ_r by lia.
    rewrite Pos2Z.inj_xO, IHd. lia.
Qed.
Lemma digits_bound : forall p, 2 ^ (Zpos (digits2_pos p) - 1) <= Zpos p.
Proof.
  induction p as [p IH|p IH|]; cbn [digits2_pos].
  - replace (Zpos (Pos.succ (digits2_pos p)) - 1)
      with (Z.succ (Zpos (digits2_pos p) - 1)) by lia.
    rewrite Z.pow_succ_r by lia. lia.
  - replace (Zpos (Pos.succ (digits2_pos p)) - 1)
      with (Z.succ (Zpos (digits2_pos p) - 1)) by lia.
    rewrite Z.pow_succ_r by lia. lia.
  - cbn. lia.
Qed.
Lemma digits_52 : forall p, Zpos p < 2 ^ 52 -> Zpos (digits2_pos p) <= 52.
Proof.
  intros p H. pose proof (digits_bound p) as B.
  destruct (Z_le_gt_dec (Zpos (digits2_pos p)) 52) as [|G]; [assumption|].
  pose proof (Z.pow_le_mono_r 2 52 (Zpos (digits2_pos p) - 1) ltac:(lia) ltac:(lia)).
  lia.
Qed.

(** The result of the subtraction is exact. *)
Lemma round_exact : forall k, Zpos k < 2 ^ 52 ->
  exists m d, binary_round 53 1024 false k (-52) =
    S754_finite false m (-52 - Zpos d) /\ Zpos m = Zpos k * 2 ^ Zpos d.
Proof.
  intros k Hk. pose proof (digits_52 k Hk) as D.
  set (e := Zpos (digits2_pos k)) in *. assert (E0 : 1 <= e) by (unfold e; lia).
  destruct (53 - e) as [|d|d] eqn:Ed; [lia| |lia].
  exists (shift_pos d k), d. split; [|apply shift_val].
  unfold binary_round. fold e.
  assert (F : fexp 53 1024 (e + -52) = -52 - Zpos d).
  { unfold fexp, emin. lia. }
  rewrite F. unfold shl_align.
  replace (-52 - Zpos d - -52) with (Zneg d) by lia.
  unfold binary_round_aux.
  assert (R : forall l, shr_fexp 53 1024 (Zpos (shift_pos d k)) (-52 - Zpos d) l =
    (shr_record_of_loc (Zpos (shift_pos d k)) l, -52 - Zpos d)).
  { intros l. unfold shr_fexp. cbn [Zdigits2]. rewrite digits_shift. fold e.
    replace (fexp 53 1024 (e + Zpos d + (-52 - Zpos d)) - (-52 - Zpos d)) with 0.
    - reflexivity.
    - unfold fexp, emin. lia. }
  rewrite R. cbn [shr_record_of_loc shr_m loc_of_shr_record shr_r shr_s round_nearest_even].
  rewrite R. cbn [shr_record_of_loc shr_m].
  replace (-52 - Zpos d <=? 1024 - 53) with true by (symmetry; apply Z.leb_le; lia).
  reflexivity.
Qed.

Lemma sub_one : forall w, word64 w -> in_1_2 w ->
  on_grid (SFsub 53 1024 (decode w) one) (w mod 2 ^ 52).
Proof.
  intros w Hw H. destruct (decode_1_2 w Hw H) as [p [P ->]].
  pose proof (Z.mod_pos_bound w (2 ^ 52) ltac:(lia)) as B.
  split; [exact B|]. unfold SFsub, one.
  change (Z.min (-52) (-52)) with (-52). unfold shl_align.
  change (-52 - -52) with 0. cbn [fst cond_Zopp].
  replace (Zpos p - 4503599627370496) with (w mod 2 ^ 52) by lia.
  unfold binary_normalize. destruct (w mod 2 ^ 52) as [|k|k] eqn:E; [| |lia].
  - exists 0%Q. split; [reflexivity|]. reflexivity.
  - destruct (round_exact k ltac:(lia)) as [m [d [-> M]]].
    eexists. split; [reflexivity|]. cbn beta iota. rewrite M.
    rewrite inject_Z_mult.
    assert (T : (Qpower (2 # 1) (-52 - Zpos d) * inject_Z (2 ^ Zpos d) *
                 inject_Z (2 ^ 52) == 1)%Q).
    { change (inject_Z (2 ^ Zpos d)) with (inject_Z (2 ^ Zpos d)).
      rewrite !Zpower_Qpower by lia. change (inject_Z 2) with (2 # 1)%Q.
      rewrite <- !Qpower_plus by discriminate.
      replace (-52 - Zpos d + Zpos d + 52) with 0 by lia. reflexivity. }
    assert (N : ~ (inject_Z (2 ^ 52) == 0)%Q) by (intros Q; discriminate Q).
    set (a := inject_Z (Zpos k)) in *. set (b := inject_Z (2 ^ Zpos d)) in *.
    set (c := Qpower (2 # 1) (-52 - Zpos d)) in *.
    set (t := inject_Z (2 ^ 52)) in *. clearbody a b c t.
    setoid_replace (a * b * c)%Q with (a * (c * b * t) / t)%Q by (field; exact N).
    rewrite T. field. exact N.
Qed.

Lemma grid_unit : forall x k, on_grid x k -> in_unit x.
Proof.
  intros x k [[K0 K1] [q [V Q]]]. exists q. split; [exact V|].
  rewrite Q. split.
  - apply Qle_shift_div_l; [reflexivity|]. rewrite Qmult_0_l.
    change 0%Q with (inject_Z 0). rewrite <- Zle_Qle. exact K0.
  - apply Qlt_shift_div_r; [reflexivity|]. rewrite Qmult_1_l.
    rewrite <- Zlt_Qlt. exact K1.
Qed.
