(** Proofs about the random number generator: the sequence of the numbers. *)
From Coq Require Import ZArith List Bool Lia QArith.
From Coq.Floats Require Import SpecFloat.
From Verif Require Import RngModel RngSpec RngProof RngProof2 RngProof3 RngProof4.
Import ListNotations.
Local Open Scope Z_scope.

Lemma N64_val : N64 = 382%nat. Proof. reflexivity. Qed.

Lemma word_ok : forall s i, state_ok s -> doubles s -> (i < 382)%nat ->
  exists w, word s i = Some w /\ word64 w /\ in_1_2 w /\
    exists e, get s (i / 2) = Some e /\
      w = (if (i mod 2 =? 0)%nat then fst e else snd e).
Proof.
  intros s i Hs D Hi. unfold word.
  assert (H : (Nat.div2 i < 191)%nat).
  { rewrite Nat.div2_div. apply Nat.div_lt_upper_bound; lia. }
  destruct (state_get s (Nat.div2 i) Hs ltac:(lia)) as [e [G O]].
  destruct (D _ _ H G) as [[A0 A1] [B0 B1]].
  rewrite G. cbn [bind]. eexists. split; [reflexivity|].
  assert (E : Nat.even i = (i mod 2 =? 0)%nat).
  { pose proof (Nat.div_mod i 2 ltac:(lia)) as Dm.
    pose proof (Nat.mod_upper_bound i 2 ltac:(lia)) as U.
    rewrite Dm at 1. rewrite Nat.even_add_mul_2 || idtac.
    destruct (Nat.eqb_spec (i mod 2) 0) as [Z|Z].
    - rewrite Z, Nat.add_0_r. rewrite Nat.even_mul. reflexivity.
    - replace (i mod 2)%nat with 1%nat by lia.
      rewrite Nat.even_add, Nat.even_mul. reflexivity. }
  destruct (Nat.even i) eqn:Ev.
  - split; [exact A0|]. split; [exact A1|]. exists e.
    rewrite <- Nat.div2_div. split; [exact G|]. rewrite <- E. reflexivity.
  - split; [exact B0|]. split; [exact B1|]. exists e.
    rewrite <- Nat.div2_div. split; [exact G|]. rewrite <- E. reflexivity.
Qed.

(** The number [r] of a block. *)
Definition number (s : list w128) (r : nat) (x : spec_float) : Prop :=
  exists e, get s (r / 2) = Some e /\
    on_grid x ((if (r mod 2 =? 0)%nat then fst e else snd e) mod 2 ^ 52).

Lemma eqdist_ok : forall g, good g ->
  exists x g', eqdist g = Some (x, g') /\ good g' /\
    ((idx g < 382)%nat /\ status g' = status g /\ idx g' = S (idx g) /\
       number (status g) (idx g) x \/
     idx g = 382%nat /\ gen_rand_all (status g) = Some (status g') /\
       idx g' = 1%nat /\ number (status g') 0 x).
Proof.
  intros g [Hs [Hd Hi]]. unfold eqdist, genrand_close1_open2. rewrite N64_val.
  destruct (Nat.leb_spec 382 (idx g)) as [L|L].
  - destruct (gen_ok _ Hs) as [s [E [K D]]]. rewrite E. cbn [bind status idx].
    destruct (word_ok s 0 K (D Hd) ltac:(lia)) as [w [W [W1 [W2 [e [G F]]]]]].
    rewrite W. cbn [bind]. eexists. eexists. split; [reflexivity|].
    split; [split; [exact K|split; [exact (D Hd) | cbn; lia]]|].
    right. cbn [status idx]. split; [lia|]. split; [reflexivity|]. split; [reflexivity|].
    exists e. split; [exact G|]. rewrite <- F. apply sub_one; assumption.
  - cbn [bind].
    destruct (word_ok _ _ Hs Hd L) as [w [W [W1 [W2 [e [G F]]]]]].
    rewrite W. cbn [bind]. eexists. eexists. split; [reflexivity|].
    split; [split; [exact Hs|split; [exact Hd | cbn; lia]]|].
    left. cbn [status idx]. split; [exact L|]. split; [reflexivity|].
    split; [reflexivity|].
    exists e. split; [exact G|]. rewrite <- F. apply sub_one; assumption.
Qed.

Lemma number_unit : forall s r x, number s r x ->
  in_unit x /\ exists k, on_grid x k.
Proof.
  intros s r x [e [_ H]]. split; [exact (grid_unit _ _ H)|]. eexists. exact H.
Qed.

Lemma draws_ok : forall n g, good g ->
  exists xs g', draws n g = Some (xs, g') /\ good g' /\ length xs = n /\
    Forall (fun x => in_unit x /\ exists k, on_grid x k) xs.
Proof.
  induction n as [|n IH]; intros g H; cbn [draws].
  - exists [], g. split; [reflexivity|]. split; [exact H|].
    split; [reflexivity | constructor].
  - destruct (eqdist_ok g H) as [x [g1 [-> [H1 C]]]]. cbn [bind].
    destruct (IH g1 H1) as [xs [g2 [-> [H2 [L F]]]]]. cbn [bind].
    exists (x :: xs), g2. split; [reflexivity|]. split; [exact H2|].
    split; [cbn; lia|]. constructor; [|exact F].
    destruct C as [[_ [_ [_ C]]]|[_ [_ [_ C]]]]; exact (number_unit _ _ _ C).
Qed.

Lemma blocks_next : forall n s s', state_ok s -> gen_rand_all s = Some s' ->
  blocks (S n) s = blocks n s'.
Proof.
  intros n s s' H E. unfold blocks. induction n as [|n IH].
  - cbn. rewrite E. reflexivity.
  - change (Nat.iter (S (S n)) (fun o => bind o gen_rand_all) (Some s)) with
      (bind (Nat.iter (S n) (fun o => bind o gen_rand_all) (Some s)) gen_rand_all).
    change (Nat.iter (S n) (fun o => bind o gen_rand_all) (Some s')) with
      (bind (Nat.iter n (fun o => bind o gen_rand_all) (Some s')) gen_rand_all).
    rewrite IH. reflexivity.
Qed.

(** Number [m] drawn from a generator is number [(idx + m) mod 382] of block
    [(idx + m) / 382] after its state. *)
Lemma stream : forall n g xs g' m x, good g -> draws n g = Some (xs, g') ->
  nth_error xs m = Some x ->
  exists s, blocks ((idx g + m) / 382) (status g) = Some s /\
    number s ((idx g + m) mod 382) x.
Proof.
  induction n as [|n IH]; intros g xs g' m x H E Hm; cbn [draws] in E.
  - injection E as <- <-. destruct m; discriminate.
  - destruct (eqdist_ok g H) as [y [g1 [E1 [H1 C]]]]. rewrite E1 in E. cbn [bind] in E.
    destruct (draws n g1) as [[ys g2]|] eqn:E2; cbn [bind] in E; [|discriminate].
    injection E as <- <-.
    destruct m as [|m]; cbn [nth_error] in Hm.
    + injection Hm as ->. rewrite Nat.add_0_r.
      destruct C as [[L [S1 [_ C]]]|[L [S1 [_ C]]]].
      * rewrite Nat.div_small, Nat.mod_small by exact L.
        exists (status g). split; [reflexivity | exact C].
      * rewrite L. change (382 / 382)%nat with 1%nat. change (382 mod 382)%nat with 0%nat.
        exists (status g1). split; [|exact C].
        rewrite (blocks_next 0 _ _ (proj1 H) S1). reflexivity.
    + destruct (IH g1 ys g2 m x H1 E2 Hm) as [s [B Nn]].
      destruct C as [[L [S1 [I1 _]]]|[L [S1 [I1 _]]]].
      * rewrite S1, I1 in *. replace (idx g + S m)%nat with (S (idx g) + m)%nat by lia.
        exists s. split; assumption.
      * rewrite I1 in *. rewrite L.
        replace (382 + S m)%nat with ((1 + m) + 1 * 382)%nat by lia.
        rewrite Nat.div_add, Nat.mod_add by lia.
        replace ((1 + m) / 382 + 1)%nat with (S ((1 + m) / 382)) by lia.
        exists s. rewrite (blocks_next _ _ _ (proj1 H) S1). split; assumption.
Qed.

(** *** The statements. *)
Lemma init_range : forall key n, exists g xs g',
  init_by_array key = Some g /\ draws n g = Some (xs, g') /\ length xs = n /\
  Forall (fun x => in_unit x /\ exists k, on_grid x k) xs.
Proof.
  intros key n. destruct (init_ok key) as [g [E [G _]]].
  destruct (draws_ok n g G) as [xs [g' [D [_ [L F]]]]].
  exists g, xs, g'. split; [exact E|]. split; [exact D|]. split; assumption.
Qed.
Lemma rng_good : forall key, exists g, init_rng key = Some g /\ good g.
Proof.
  intros key. unfold init_rng. destruct (init_ok key) as [g [E [G _]]].
  rewrite E. cbn [bind]. destruct (draws_ok discarded g G) as [xs [g' [D [K _]]]].
  rewrite D. cbn [bind]. exists g'. split; [reflexivity | exact K].
Qed.
Lemma rng_range : forall key n, exists g xs g',
  init_rng key = Some g /\ draws n g = Some (xs, g') /\ length xs = n /\
  Forall (fun x => in_unit x /\ exists k, on_grid x k) xs.
Proof.
  intros key n. destruct (rng_good key) as [g [E G]].
  destruct (draws_ok n g G) as [xs [g' [D [_ [L F]]]]].
  exists g, xs, g'. split; [exact E|]. split; [exact D|]. split; assumption.
Qed.

Lemma init_stream : forall key g n xs g' q r x,
  init_by_array key = Some g -> draws n g = Some (xs, g') -> (r < 382)%nat ->
  nth_error xs (382 * q + r) = Some x ->
  exists s e, Nat.iter (S q) (fun o => bind o gen_rand_all) (Some (status g)) = Some s /\
    nth_error s (r / 2) = Some e /\
    on_grid x ((if (r mod 2 =? 0)%nat then fst e else snd e) mod 2 ^ 52).
Proof.
  intros key g n xs g' q r x Hg D Hr Hx.
  destruct (init_ok key) as [g0 [E [G [I _]]]]. assert (g0 = g) by congruence. subst g0.
  destruct (stream n g xs g' _ x G D Hx) as [s [B [e [Ge O]]]].
  rewrite I in B, Ge, O.
  replace (382 + (382 * q + r))%nat with (r + (S q) * 382)%nat in B, Ge, O by lia.
  rewrite Nat.mod_add, (Nat.mod_small r 382) in Ge, O by lia.
  rewrite Nat.div_add, (Nat.div_small r 382) in B by lia.
  exists s, e. split; [exact B|]. split; assumption.
Qed.

(** The numbers repeat from the first one on. *)
Lemma init_periodic : forall key g, init_by_array key = Some g ->
  exists p, (0 < p)%nat /\
    forall n xs g' m x y, draws n g = Some (xs, g') ->
      nth_error xs m = Some x -> nth_error xs (m + p) = Some y ->
      exists k, on_grid x k /\ on_grid y k.
Proof.
  intros key g Hg. destruct (init_ok key) as [g0 [E [G [I _]]]].
  assert (g0 = g) by congruence. subst g0.
  destruct (blocks_return (status g) (proj1 G)) as [p [Hp R]].
  exists (p * 382)%nat. split; [lia|].
  intros n xs g' m x y D Hx Hy.
  destruct (stream n g xs g' _ x G D Hx) as [s [B [e [Ge O]]]].
  destruct (stream n g xs g' _ y G D Hy) as [s' [B' [e' [Ge' O']]]].
  replace (idx g + (m + p * 382))%nat with (idx g + m + p * 382)%nat in B', Ge', O' by lia.
  rewrite Nat.mod_add in Ge', O' by lia. rewrite Nat.div_add in B' by lia.
  assert (B2 : blocks ((idx g + m) / 382 + p) (status g) = blocks ((idx g + m) / 382) (status g)).
  { generalize ((idx g + m) / 382)%nat. intros a. unfold blocks in *.
    induction a as [|a IH]; [exact R|].
    change (bind (Nat.iter (a + p) (fun o => bind o gen_rand_all) (Some (status g))) gen_rand_all =
            bind (Nat.iter a (fun o => bind o gen_rand_all) (Some (status g))) gen_rand_all).
    rewrite IH. reflexivity. }
  assert (s' = s) by congruence. subst s'.
  assert (e' = e) by congruence. subst e'.
  eexists. split; [exact O | exact O'].
Qed.
Lemma init_certified : forall key g, init_by_array key = Some g ->
  exists u0 u1, nth_error (status g) 191 = Some (u0, u1) /\
    dot128 (Z.lxor u0 0x90014964b32f4329) (Z.lxor u1 0x3b8d12ac548a7c7a)
      0x3d84e1ac0dc82880 0x0000000000000001 = true.
Proof.
  intros key g Hg. destruct (init_ok key) as [g0 [E [_ [_ [[u0 u1] [W C]]]]]].
  assert (g0 = g) by congruence. subst g0. exists u0, u1. split; [exact W | exact C].
Qed.
Lemma certification_only : forall s s' u0 u1, state_ok s ->
  period_certification s = Some s' -> nth_error s 191 = Some (u0, u1) ->
  (dot128 (Z.lxor u0 0x90014964b32f4329) (Z.lxor u1 0x3b8d12ac548a7c7a)
     0x3d84e1ac0dc82880 0x0000000000000001 = true -> s' = s) /\
  (forall i, i <> 191%nat -> nth_error s' i = nth_error s i).
Proof.
  intros s s' u0 u1 Hs E W. destruct (certification s Hs) as [t [F [_ [_ [Fr K]]]]].
  assert (t = s') by congruence. subst t. split; [|exact Fr].
  intros C. exact (K (u0, u1) W C).
Qed.
