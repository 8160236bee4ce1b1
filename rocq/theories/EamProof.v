(** The EAM force routine: closed form for one configuration. *)
From Coq Require Import Reals ZArith List Bool Lia Lra.
From Verif Require Import Vec NbrModel LoopUtil PairModel PairProof ForceLoop EamModel.
Import ListNotations.
Local Open Scope R_scope.

Section Eam.
Variable bld : ebuild.
Variables phi dphi : nat -> nat -> R -> R.
Variable in_range : nat -> nat -> R -> bool.
Variables dens ddens : nat -> nat -> R -> R.
Variable reach : nat -> nat -> R -> bool.
Variables F dF FA dFA : nat -> nat -> R -> R.
Variables fbegin fend fstep : nat -> nat -> R.
Variables eweight sweight : R.
Variable limit_0 : nat -> R.
Variable ci : nat.
Variable c : conf.
Notation lo := (cnfstart c).
Notation hi := (cnfstart c + inconf c)%nat.
Notation nbd := (nbands bld).
Notation emb := (embed bld F dF FA dFA fbegin fend fstep).

Lemma nbands_pos : (0 < nbd <= 2)%nat.
Proof. unfold nbands. destruct (TBEAM bld); lia. Qed.

(** ** densities *)
Definition dA (b i : nat) (e : neigh) : R := if reach b (n_type e) (n_r e) then dens b (n_type e) (n_r e) else 0.
Definition dB (b i : nat) (e : neigh) : R :=
  if Nat.eqb (n_nr e) i then 0 else if reach b (typ c i) (n_r e) then dens b (typ c i) (n_r e) else 0.
Lemma add_density_spec : forall b i e f a, n_type e = typ c (n_nr e) ->
  add_density dens reach b c i e f a = f a + (if Nat.eqb a i then dA b i e else 0) + (if Nat.eqb (n_nr e) a then dB b i e else 0).
Proof.
  intros b i e f a TY. unfold add_density, dA, dB.
  assert (ST : n_nr e = i -> typ c i = n_type e) by (intros <-; auto).
  destruct (Nat.eqb_spec (typ c i) (n_type e)) as [E|N]; [rewrite E|].
  - destruct (reach b (n_type e) (n_r e)); unfold setf; rewrite ?(Nat.eqb_sym a (n_nr e));
      destruct (Nat.eqb_spec (n_nr e) i) as [E1|E1], (Nat.eqb_spec a i) as [E2|E2], (Nat.eqb_spec (n_nr e) a) as [E3|E3]; try congruence;
      rewrite ?E3, ?E2, ?(Nat.eqb_sym a (n_nr e)); try (destruct (Nat.eqb_spec a i); [congruence|]); try (destruct (Nat.eqb_spec (n_nr e) a); [congruence|]);
      try (destruct (Nat.eqb_spec (n_nr e) i); [congruence|]); rewrite ?Nat.eqb_refl; try (destruct (Nat.eqb_spec i (n_nr e)); [congruence|]); ring.
  - destruct (Nat.eqb_spec (n_nr e) i) as [S|S]; [exfalso; auto|].
    destruct (reach b (n_type e) (n_r e)), (reach b (typ c i) (n_r e)); unfold setf; rewrite ?(Nat.eqb_sym a (n_nr e));
      destruct (Nat.eqb_spec a i) as [E2|E2], (Nat.eqb_spec (n_nr e) a) as [E3|E3]; try congruence;
      rewrite ?E3, ?E2; try (destruct (Nat.eqb_spec a i); [congruence|]);
      try (destruct (Nat.eqb_spec (n_nr e) i); [congruence|]); rewrite ?Nat.eqb_refl; try (destruct (Nat.eqb_spec i (n_nr e)); [congruence|]); ring.
Qed.

Lemma second_fold : forall i l s, (forall e, In e l -> n_type e = typ c (n_nr e)) ->
  let s' := fold_left (second_neighbor bld phi dphi in_range dens reach ci c i) l s in
  dv s' = fold_left (neighbor_body (base bld) phi dphi in_range ci c i) l (dv s) /\
  (forall b a, (b < nbd)%nat -> rho s' b a = rho s b a + (if Nat.eqb a i then rsumf (dA b i) l else 0) +
     rsumf (fun e => if Nat.eqb (n_nr e) a then dB b i e else 0) l) /\
  gradF s' = gradF s /\ lim s' = lim s /\ rsum s' = rsum s /\ dum s' = dum s.
Proof.
  intros i. induction l as [|e l IH]; intros s TY.
  - cbn [fold_left]. cbv zeta. split; [auto|]. split; [|auto]. intros b a _. unfold rsumf; simpl. destruct (Nat.eqb a i); ring.
  - cbv zeta. cbn [fold_left]. destruct (IH (second_neighbor bld phi dphi in_range dens reach ci c i s e)) as (D & R & G & L & S & M); [intros; apply TY; right; auto|].
    split; [rewrite D; reflexivity|]. split; [|rewrite G, L, S, M; auto].
    intros b a Hb. rewrite R by auto. rewrite !rsumf_cons.
    assert (Q : rho (second_neighbor bld phi dphi in_range dens reach ci c i s e) b a = add_density dens reach b c i e (rho s b) a).
    { unfold second_neighbor, with_rho; simpl. unfold nbands in Hb. destruct (TBEAM bld).
      - assert (b = 0 \/ b = 1)%nat as [-> | ->] by lia; simpl; auto.
      - assert (b = 0)%nat as -> by lia. simpl; auto. }
    rewrite Q, add_density_spec by (apply TY; left; auto). destruct (Nat.eqb a i); ring.
Qed.

(** ** embedding *)
Definition cl (b t : nat) (x : R) : R :=
  if RESCALE bld then
    let y := if Rlt_dec (fend b t) x then fend b t else x in
    if Rlt_dec y (fbegin b t) then fbegin b t else y
  else x.
Definition lc (b t : nat) (x : R) : R :=
  if RESCALE bld then
    let y := if Rlt_dec (fend b t) x then fend b t else x in
    (if Rlt_dec (fend b t) x then DUMMY_WEIGHT * 10 * sq (x - fend b t) else 0) +
    (if Rlt_dec y (fbegin b t) then DUMMY_WEIGHT * 10 * sq (fbegin b t - y) else 0)
  else 0.

Lemma embed_body_spec : forall i b s, let s' := embed_body bld F dF FA dFA fbegin fend fstep ci c i b s in
  let t := typ c i in let x := rho s b i in
  frc (dv s') = frc (dv s) /\ str (dv s') = str (dv s) /\ err (dv s') = err (dv s) /\
  en (dv s') ci = en (dv s) ci + fst (emb b t (cl b t x)) /\ (forall d, d <> ci -> en (dv s') d = en (dv s) d) /\
  (forall b' a, rho s' b' a = if (Nat.eqb b' b && Nat.eqb a i)%bool then cl b t x else rho s b' a) /\
  (forall b' a, gradF s' b' a = if (Nat.eqb b' b && Nat.eqb a i)%bool then snd (emb b t (cl b t x)) else gradF s b' a) /\
  lim s' ci = lim s ci + lc b t x /\ (forall d, d <> ci -> lim s' d = lim s d) /\
  (forall b', rsum s' b' = if Nat.eqb b' b then rsum s b' + cl b t x else rsum s b') /\ dum s' = dum s.
Proof.
  intros i b s. cbv zeta. set (t := typ c i).
  set (s1 := if RESCALE bld then clamp_low fbegin ci b t i (clamp_high fend ci b t i s) else s).
  assert (S1 : dv s1 = dv s /\ (forall b' a, rho s1 b' a = if (Nat.eqb b' b && Nat.eqb a i)%bool then cl b t (rho s b i) else rho s b' a) /\
    gradF s1 = gradF s /\ lim s1 ci = lim s ci + lc b t (rho s b i) /\ (forall d, d <> ci -> lim s1 d = lim s d) /\ rsum s1 = rsum s /\ dum s1 = dum s).
  { unfold s1, cl, lc. destruct (RESCALE bld).
    - unfold clamp_low, clamp_high. destruct (Rlt_dec (fend b t) (rho s b i)); cbn [rho dv lim gradF rsum dum]; rewrite ?setf_eq; cbv zeta.
      + destruct (Rlt_dec (fend b t) (fbegin b t)); cbn [rho dv lim gradF rsum dum]; rewrite ?setf_eq.
        * repeat split; auto; try ring.
          -- intros b' a. unfold setf. destruct (Nat.eqb_spec b' b) as [->|]; simpl; auto. destruct (Nat.eqb a i); auto.
          -- intros d D. rewrite !setf_neq; auto.
        * repeat split; auto; try ring.
          -- intros b' a. unfold setf. destruct (Nat.eqb_spec b' b) as [->|]; simpl; auto. 
          -- intros d D. rewrite !setf_neq; auto.
      + destruct (Rlt_dec (rho s b i) (fbegin b t)); cbn [rho dv lim gradF rsum dum]; rewrite ?setf_eq.
        * repeat split; auto; try ring.
          -- intros b' a. unfold setf. destruct (Nat.eqb_spec b' b) as [->|]; simpl; auto. 
          -- intros d D. rewrite !setf_neq; auto.
        * repeat split; auto; try ring. intros b' a. destruct (Nat.eqb_spec b' b) as [->|]; simpl; auto. destruct (Nat.eqb_spec a i) as [->|]; auto.
    - repeat split; auto; try ring. intros b' a. destruct (Nat.eqb_spec b' b) as [->|]; simpl; auto. destruct (Nat.eqb_spec a i) as [->|]; auto. }
  destruct S1 as (D & R & G & L & L2 & S & M).
  unfold embed_body. fold t. fold s1. cbv zeta. assert (RI : rho s1 b i = cl b t (rho s b i)) by (rewrite R, !Nat.eqb_refl; auto).
  rewrite RI. destruct (emb b t (cl b t (rho s b i))) as [v g] eqn:E. cbn [dv frc str err en rho gradF lim rsum dum fst snd].
  rewrite D, G, L, S, M, setf_eq. split; [auto|]. split; [auto|]. split; [auto|]. split; [auto|]. split; [intros; apply setf_neq; auto|].
  split; [exact R|]. split; [|split; [auto|split; [auto|split; [|auto]]]].
  - intros b' a. unfold setf. destruct (Nat.eqb_spec b' b) as [->|]; simpl; auto.
  - intros b'. unfold setf. destruct (Nat.eqb_spec b' b) as [->|]; auto.
Qed.

Lemma embed_loop : forall i s, let s' := for_up 0 nbd (embed_body bld F dF FA dFA fbegin fend fstep ci c i) s in
  let t := typ c i in
  frc (dv s') = frc (dv s) /\ str (dv s') = str (dv s) /\ err (dv s') = err (dv s) /\
  en (dv s') ci = en (dv s) ci + rsumf (fun b => fst (emb b t (cl b t (rho s b i)))) (seq 0 nbd) /\ (forall d, d <> ci -> en (dv s') d = en (dv s) d) /\
  (forall b a, rho s' b a = if (Nat.ltb b nbd && Nat.eqb a i)%bool then cl b t (rho s b i) else rho s b a) /\
  (forall b a, gradF s' b a = if (Nat.ltb b nbd && Nat.eqb a i)%bool then snd (emb b t (cl b t (rho s b i))) else gradF s b a) /\
  lim s' ci = lim s ci + rsumf (fun b => lc b t (rho s b i)) (seq 0 nbd) /\ (forall d, d <> ci -> lim s' d = lim s d) /\
  (forall b, rsum s' b = if Nat.ltb b nbd then rsum s b + cl b t (rho s b i) else rsum s b) /\ dum s' = dum s.
Proof.
  intros i s. cbv zeta. set (t := typ c i).
  pose (Q := fun m s' => frc (dv s') = frc (dv s) /\ str (dv s') = str (dv s) /\ err (dv s') = err (dv s) /\
  en (dv s') ci = en (dv s) ci + rsumf (fun b => fst (emb b t (cl b t (rho s b i)))) (seq 0 m) /\ (forall d, d <> ci -> en (dv s') d = en (dv s) d) /\
  (forall b a, rho s' b a = if (Nat.ltb b m && Nat.eqb a i)%bool then cl b t (rho s b i) else rho s b a) /\
  (forall b a, gradF s' b a = if (Nat.ltb b m && Nat.eqb a i)%bool then snd (emb b t (cl b t (rho s b i))) else gradF s b a) /\
  lim s' ci = lim s ci + rsumf (fun b => lc b t (rho s b i)) (seq 0 m) /\ (forall d, d <> ci -> lim s' d = lim s d) /\
  (forall b, rsum s' b = if Nat.ltb b m then rsum s b + cl b t (rho s b i) else rsum s b) /\ dum s' = dum s).
  change (Q nbd (for_up 0 nbd (embed_body bld F dF FA dFA fbegin fend fstep ci c i) s)). apply (for_up_inv Q); [lia| |].
  - unfold Q. simpl. unfold rsumf; simpl. repeat split; auto; ring.
  - intros m s1 Hm (A1 & A2 & A3 & A4 & A5 & A6 & A7 & A8 & A9 & A10 & A11).
    destruct (embed_body_spec i m s1) as (B1 & B2 & B3 & B4 & B5 & B6 & B7 & B8 & B9 & B10 & B11). fold t in B4, B6, B7, B8, B10.
    assert (X : rho s1 m i = rho s m i) by (rewrite A6, Nat.ltb_irrefl; auto). rewrite X in *.
    unfold Q. rewrite seq_S, !rsumf_snoc. cbn [Nat.add].
    split; [congruence|]. split; [congruence|]. split; [congruence|]. split; [rewrite B4, A4; ring|]. split; [intros d D; rewrite B5, A5; auto|].
    split; [|split; [|split; [rewrite B8, A8; ring|split; [intros d D; rewrite B9, A9; auto|split; [|congruence]]]]].
    + intros b a. rewrite B6, A6. destruct (Nat.eqb_spec b m) as [->|]; simpl.
      * rewrite Nat.ltb_irrefl. destruct (Nat.ltb_spec m (S m)); [|lia]. simpl. destruct (Nat.eqb a i); auto.
      * destruct (Nat.ltb_spec b m), (Nat.ltb_spec b (S m)); auto; lia.
    + intros b a. rewrite B7, A7. destruct (Nat.eqb_spec b m) as [->|]; simpl.
      * rewrite Nat.ltb_irrefl. destruct (Nat.ltb_spec m (S m)); [|lia]. simpl. destruct (Nat.eqb a i); auto.
      * destruct (Nat.ltb_spec b m), (Nat.ltb_spec b (S m)); auto; lia.
    + intros b. rewrite B10, A10. destruct (Nat.eqb_spec b m) as [->|]; simpl.
      * rewrite Nat.ltb_irrefl. destruct (Nat.ltb_spec m (S m)); [|lia]. auto.
      * destruct (Nat.ltb_spec b m), (Nat.ltb_spec b (S m)); auto; lia.
Qed.

(** ** second loop *)
Hypothesis ORD : ordered c.
Hypothesis TYP : forall i e, (lo <= i < hi)%nat -> In e (nb c i) -> n_type e = typ c (n_nr e).
Definition gotd (b i a : nat) : R := rsumf (fun k => rsumf (fun e => if Nat.eqb (n_nr e) a then dB b k e else 0) (nb c k)) (seq lo (i - lo)).
(** density of an atom, and what is used of it *)
Definition full (b a : nat) : R := rsumf (dA b a) (nb c a) + gotd b hi a.
Definition seen (b a : nat) : R := cl b (typ c a) (full b a).
Definition eF (b a : nat) : R := fst (emb b (typ c a) (seen b a)).
Definition gF (b a : nat) : R := snd (emb b (typ c a) (seen b a)).
Definition limc (b a : nat) : R := lc b (typ c a) (full b a).
Lemma gotd_S : forall b i a, (lo <= i)%nat -> gotd b (S i) a = gotd b i a + rsumf (fun e => if Nat.eqb (n_nr e) a then dB b i e else 0) (nb c i).
Proof. intros. unfold gotd. rewrite seq_snoc, rsumf_snoc by auto. auto. Qed.
Lemma dB_zero : forall b a k, (lo <= k < hi)%nat -> (a < k)%nat -> rsumf (fun e => if Nat.eqb (n_nr e) a then dB b k e else 0) (nb c k) = 0.
Proof.
  intros b a k Hk Ha. apply rsumf_zero. intros e He. destruct (Nat.eqb_spec (n_nr e) a); auto. pose proof (ORD k e Hk He). lia.
Qed.
Lemma gotd_done : forall b i a, (lo <= a < hi)%nat -> (a < i)%nat -> (i <= hi)%nat -> gotd b i a = gotd b hi a.
Proof.
  intros b i a Ha L U. remember (hi - i)%nat as d eqn:D. revert i L U D. induction d; intros i L U D.
  - f_equal. lia.
  - rewrite <- (IHd (S i)) by lia. rewrite gotd_S by lia. rewrite dB_zero by lia. ring.
Qed.

Notation T2 := (pT dphi in_range c).
Notation P2 := (P phi in_range c).
Notation son := (STRESS (base bld) && us c)%bool.
Definition upto (i : nat) (f : nat -> nat -> R) : R := rsumf (fun k => rsumf (fun b => f b k) (seq 0 nbd)) (seq lo (i - lo)).
Lemma upto_S : forall i f, (lo <= i)%nat -> upto (S i) f = upto i f + rsumf (fun b => f b i) (seq 0 nbd).
Proof. intros. unfold upto. rewrite seq_snoc, rsumf_snoc by auto. auto. Qed.

Definition inv2 (s0 : est) (i : nat) (s : est) : Prop :=
  (forall a, frc (dv s) a = vsub (vadd (frc (dv s0) a) (if (Nat.leb lo a && Nat.ltb a i)%bool then gown T2 c a else v0)) (ggot T2 c i a)) /\
  en (dv s) ci = en (dv s0) ci + gen P2 c i + upto i eF /\
  (forall d, d <> ci -> en (dv s) d = en (dv s0) d) /\
  (forall d k, str (dv s) d k = if (Nat.eqb d ci && Nat.ltb k 6 && son)%bool then str (dv s0) d k - gstr T2 c k i else str (dv s0) d k) /\
  err (dv s) = err (dv s0) /\
  (forall b a, (b < nbd)%nat -> (i <= a < hi)%nat -> rho s b a = gotd b i a) /\
  (forall b a, (b < nbd)%nat -> (lo <= a < i)%nat -> rho s b a = seen b a /\ gradF s b a = gF b a) /\
  lim s ci = lim s0 ci + upto i limc /\ (forall d, d <> ci -> lim s d = lim s0 d) /\
  (forall b, (b < nbd)%nat -> rsum s b = rsum s0 b + rsumf (seen b) (seq lo (i - lo))) /\ dum s = dum s0.

Lemma inv2_step : forall s0 i s, (lo <= i < hi)%nat -> inv2 s0 i s ->
  inv2 s0 (S i) (second_atom bld phi dphi in_range dens reach F dF FA dFA fbegin fend fstep ci c i s).
Proof.
  intros s0 i s Hi (A1 & A2 & A3 & A4 & A5 & A6 & A7 & A8 & A9 & A10 & A11). unfold second_atom.
  destruct (second_fold i (nb c i) s (fun e H => TYP i e Hi H)) as (B1 & B2 & B3 & B4 & B5 & B6).
  set (s1 := fold_left (second_neighbor bld phi dphi in_range dens reach ci c i) (nb c i) s) in *. clearbody s1.
  destruct (fold_spec _ _ _ _ _ (pair_body_spec (base bld) phi dphi in_range ci c) i (nb c i) (dv s)) as (C1 & C2 & C3 & C4 & C5).
  rewrite <- B1 in C1, C2, C3, C4, C5. clear B1.
  destruct (embed_loop i s1) as (D1 & D2 & D3 & D4 & D5 & D6 & D7 & D8 & D9 & D10 & D11).
  set (s2 := for_up 0 nbd (embed_body bld F dF FA dFA fbegin fend fstep ci c i) s1) in *. clearbody s2.
  assert (FU : forall b, (b < nbd)%nat -> rho s1 b i = full b i).
  { intros b Hb. rewrite B2, Nat.eqb_refl, A6 by (auto; lia). unfold full. rewrite <- (gotd_done b (S i) i), gotd_S by lia. ring. }
  assert (SE : forall (f : nat -> R -> R), rsumf (fun b => f b (rho s1 b i)) (seq 0 nbd) = rsumf (fun b => f b (full b i)) (seq 0 nbd)).
  { intros f. apply rsumf_ext. intros b Hb. apply in_seq in Hb. rewrite FU by lia. auto. }
  unfold inv2. rewrite D1, D2, D3, D4, D8, D11. rewrite !upto_S by lia.
  split; [|split; [|split; [|split; [|split; [|split; [|split; [|split; [|split; [|split]]]]]]]]].
  - intros a. rewrite C1, A1, ggot_S by lia. unfold gown. destruct (Nat.eqb_spec a i) as [->|N].
    + destruct (Nat.leb_spec lo i), (Nat.ltb_spec i i), (Nat.ltb_spec i (S i)); try lia. simpl. vring.
    + destruct (Nat.leb_spec lo a), (Nat.ltb_spec a i), (Nat.ltb_spec a (S i)); try lia; simpl; vring.
  - rewrite C2, A2, gen_S by lia. rewrite (SE (fun b x => fst (emb b (typ c i) (cl b (typ c i) x)))). unfold eF, seen. ring.
  - intros d D. rewrite D5, C3, A3; auto.
  - intros d k. rewrite C4, A4, gstr_S by lia. destruct (Nat.eqb d ci && Nat.ltb k 6 && son)%bool; [ring|auto].
  - congruence.
  - intros b a Hb Ha. rewrite D6. destruct (Nat.ltb_spec b nbd); [|lia]. destruct (Nat.eqb_spec a i); [lia|]. simpl.
    rewrite B2, A6 by (auto; lia). destruct (Nat.eqb_spec a i); [lia|]. rewrite gotd_S by lia. ring.
  - intros b a Hb Ha. rewrite D6, D7. destruct (Nat.ltb_spec b nbd); [|lia]. destruct (Nat.eqb_spec a i) as [->|N]; simpl.
    + rewrite FU by auto. auto.
    + rewrite B2, B3 by auto. destruct (Nat.eqb_spec a i); [contradiction|]. destruct (A7 b a Hb ltac:(lia)) as [-> ->].
      rewrite dB_zero by lia. split; [ring|auto].
  - rewrite B4, A8. rewrite (SE (fun b x => lc b (typ c i) x)). unfold limc. ring.
  - intros d D. rewrite D9, B4, A9; auto.
  - intros b Hb. rewrite D10. destruct (Nat.ltb_spec b nbd); [|lia]. rewrite B5, A10 by auto. rewrite seq_snoc, rsumf_snoc by lia. rewrite FU by auto. unfold seen at 3. ring.
  - congruence.
Qed.

Lemma inv2_init : forall s, (forall b a, (b < nbd)%nat -> (lo <= a < hi)%nat -> rho s b a = 0) -> inv2 s lo s.
Proof.
  intros s R. unfold inv2, upto. rewrite gen_lo, Nat.sub_diag.
  split; [|split; [|split; [|split; [|split; [|split; [|split; [|split; [|split; [|split]]]]]]]]]; auto.
  - intros a. rewrite ggot_lo. destruct (Nat.leb_spec lo a), (Nat.ltb_spec a lo); try lia; simpl; vring.
  - unfold rsumf; simpl. ring.
  - intros d k. rewrite gstr_lo. destruct (Nat.eqb d ci && Nat.ltb k 6 && son)%bool; [ring|auto].
  - intros b a Hb Ha. rewrite R by auto. unfold gotd. rewrite Nat.sub_diag. auto.
  - intros; lia.
  - unfold rsumf; simpl. ring.
  - intros. unfold rsumf; simpl. ring.
Qed.

Lemma reset_rho_spec : forall s, let s' := for_up lo hi (reset_rho bld c) s in
  dv s' = for_up lo hi (reset_atom c) (dv s) /\
  (forall b a, (b < nbd)%nat -> (lo <= a < hi)%nat -> rho s' b a = 0) /\
  gradF s' = gradF s /\ lim s' = lim s /\ rsum s' = rsum s /\ dum s' = dum s.
Proof.
  intros s. cbv zeta.
  pose (Q := fun i s' => dv s' = for_up lo i (reset_atom c) (dv s) /\
    (forall b a, (b < nbd)%nat -> (lo <= a < i)%nat -> rho s' b a = 0) /\ gradF s' = gradF s /\ lim s' = lim s /\ rsum s' = rsum s /\ dum s' = dum s).
  change (Q hi (for_up lo hi (reset_rho bld c) s)). apply (for_up_inv Q); [lia| |].
  - unfold Q. rewrite for_up_nil. split; [auto|]. split; [intros; lia|auto].
  - intros i s1 Hi (A & B & C). unfold Q, reset_rho; cbn [dv rho gradF lim rsum dum]. split; [rewrite for_up_S, A by lia; auto|]. split; [|exact C].
    intros b a Hb Ha. destruct (Nat.ltb_spec b nbd); [|lia]. unfold setf. destruct (Nat.eqb_spec a i); auto. apply B; auto. lia.
Qed.

(** ** third loop *)
Section Third.
Variable g : nat -> nat -> R.
Definition f3 (i : nat) (e : neigh) : R :=
  band_force ddens reach g c i e 0 +
  (if (TBEAM bld && (reach 1 (n_type e) (n_r e) || reach 1 (typ c i) (n_r e)))%bool then band_force ddens reach g c i e 1 else 0).
Definition T3 (i : nat) (e : neigh) : vec :=
  if (reach 0 (n_type e) (n_r e) || reach 0 (typ c i) (n_r e))%bool then vscale (f3 i e * wt i e) (n_dist_r e) else v0.
Lemma third_body_spec : body_spec (third_neighbor bld ddens reach g ci c) ci T3 (fun _ _ => 0) son.
Proof.
  assert (V : forall i e, (let f := band_force ddens reach g c i e 0 in
     let f0 := if TBEAM bld then if (reach 1 (n_type e) (n_r e) || reach 1 (typ c i) (n_r e))%bool then f + band_force ddens reach g c i e 1 else f else f in
     if Nat.eqb (n_nr e) i then f0 * (1 / 2) else f0) = f3 i e * wt i e).
  { intros i e. unfold f3, wt. cbv zeta. destruct (TBEAM bld); simpl; destruct (Nat.eqb (n_nr e) i); try (destruct (_ || _)%bool); ring. }
  constructor.
  - intros i s e a. unfold third_neighbor, T3. destruct (reach 0 (n_type e) (n_r e) || reach 0 (typ c i) (n_r e))%bool.
    + specialize (V i e). cbv zeta in V. cbv zeta. rewrite V. cbn [frc]. apply scatter_spec.
    + destruct (Nat.eqb a i), (Nat.eqb (n_nr e) a); vring.
  - intros i s e. unfold third_neighbor. destruct (reach 0 (n_type e) (n_r e) || reach 0 (typ c i) (n_r e))%bool; simpl; ring.
  - intros i s e d D. unfold third_neighbor. destruct (reach 0 (n_type e) (n_r e) || reach 0 (typ c i) (n_r e))%bool; auto.
  - intros i s e d k. unfold third_neighbor, T3. destruct (reach 0 (n_type e) (n_r e) || reach 0 (typ c i) (n_r e))%bool.
    + specialize (V i e). cbv zeta in V. cbv zeta. rewrite V. cbn [str]. destruct (STRESS (base bld)), (us c); simpl; rewrite ?andb_false_r; simpl; auto.
      rewrite andb_true_r. unfold setf. destruct (Nat.eqb_spec d ci) as [->|]; simpl; auto.
    + rewrite stress_v0. destruct (Nat.eqb d ci && Nat.ltb k 6 && son)%bool; [ring|auto].
  - intros i s e. unfold third_neighbor. destruct (reach 0 (n_type e) (n_r e) || reach 0 (typ c i) (n_r e))%bool; auto.
Qed.
End Third.

Lemma T3_ext : forall g h, (forall b a, (b < nbd)%nat -> (lo <= a < hi)%nat -> g b a = h b a) ->
  forall i e, (lo <= i < hi)%nat -> In e (nb c i) -> T3 g i e = T3 h i e.
Proof.
  intros g h H i e Hi He. pose proof (ORD i e Hi He) as Hj. unfold T3, f3, band_force. unfold nbands in H. destruct (reach 0 _ _ || _)%bool; auto.
  rewrite (H 0%nat i), (H 0%nat (n_nr e)) by (destruct (TBEAM bld); lia).
  destruct (TBEAM bld); auto. rewrite (H 1%nat i), (H 1%nat (n_nr e)) by lia. auto.
Qed.
Lemma loop_ext : forall T T', (forall i e, (lo <= i < hi)%nat -> In e (nb c i) -> T i e = T' i e) ->
  (forall a, (lo <= a < hi)%nat -> gown T c a = gown T' c a) /\ (forall a, ggot T c hi a = ggot T' c hi a) /\ (forall k, gstr T c k hi = gstr T' c k hi).
Proof.
  intros T T' H. split; [|split].
  - intros a Ha. apply vsumf_ext. auto.
  - intros a. unfold ggot. replace (hi - lo)%nat with (inconf c) by lia. apply vsumf_ext. intros k K. apply in_seq in K. apply vsumf_ext.
    intros e E. unfold gto. rewrite H; auto.
  - intros k. unfold gstr. replace (hi - lo)%nat with (inconf c) by lia. apply rsumf_ext. intros j J. apply in_seq in J. apply rsumf_ext. intros e E. rewrite H; auto.
Qed.

Notation X3 := (T3 gF).
(** results *)
Definition frc_f (a : nat) : vec :=
  if uf c then scl (base bld) c a (vsub (vadd (vsub (vadd (vscale (-1) (force_0 c a)) (gown T2 c a)) (ggot T2 c hi a)) (gown X3 c a)) (ggot X3 c hi a))
  else v0.
Definition en_f : R := (gen P2 c hi + upto hi eF) / INR (inconf c) - energy_0 c.
Definition str_f (k : nat) : R :=
  if stress_on (base bld) c then (- (gstr T2 c k hi + gstr X3 c k hi)) / conf_vol c - stress_0 c k else 0.
Definition lim_f : R := - limit_0 ci + upto hi limc.
Definition score_f (a : nat) : R := if scored (base bld) c a then conf_weight c * sqv (frc_f a) else 0.

Theorem eam_config : forall s,
  let s' := EamModel.config_body bld phi dphi in_range dens ddens reach F dF FA dFA fbegin fend fstep eweight sweight limit_0 ci c s in
  (forall a, (a < lo)%nat \/ (hi <= a)%nat -> frc (dv s') a = frc (dv s) a) /\
  (forall a, (lo <= a < hi)%nat -> frc (dv s') a = frc_f a) /\
  en (dv s') ci = en_f /\ (forall d, d <> ci -> en (dv s') d = en (dv s) d) /\
  (forall k, (k < 6)%nat -> STRESS (base bld) = true -> str (dv s') ci k = str_f k) /\
  (forall d k, d <> ci -> str (dv s') d k = str (dv s) d k) /\
  (RESCALE bld = true -> lim s' ci = lim_f) /\ (forall d, d <> ci -> lim s' d = lim s d) /\
  (forall b, (b < nbd)%nat -> rsum s' b = rsum s b + rsumf (seen b) (seq lo (inconf c))) /\ dum s' = dum s /\
  err (dv s') = err (dv s) + rsumf score_f (seq lo (inconf c)) + conf_weight c * eweight * sq en_f +
    (if stress_on (base bld) c then rsumf (fun k => conf_weight c * sweight * sq (str_f k)) (seq 0 6) else 0) +
    (if RESCALE bld then conf_weight c * sq lim_f else 0).
Proof.
  intros s. cbv zeta. unfold EamModel.config_body.
  set (s1 := with_dv s _). set (s2 := mk_est (dv s1) _ _ _ _ _).
  destruct (reset_rho_spec s2) as (A1 & A2 & A3 & A4 & A5 & A6). set (s3 := for_up lo hi (reset_rho bld c) s2) in *. clearbody s3.
  destruct (reset_spec c (dv s2)) as (B1 & B2 & B3 & B4). rewrite <- A1 in B1, B2, B3, B4. clear A1.
  assert (I : inv2 s3 hi (for_up lo hi (second_atom bld phi dphi in_range dens reach F dF FA dFA fbegin fend fstep ci c) s3)).
  { apply (for_up_inv (inv2 s3)); [lia|apply inv2_init; auto|]. intros i t Hi Ht. apply inv2_step; auto. }
  set (s4 := for_up lo hi (second_atom bld phi dphi in_range dens reach F dF FA dFA fbegin fend fstep ci c) s3) in *. clearbody s4.
  destruct I as (C1 & C2 & C3 & C4 & C5 & _ & C7 & C8 & C9 & C10 & C11).
  replace (hi - lo)%nat with (inconf c) in C10 by lia.
  set (d5 := if uf c then for_up lo hi (third_atom bld ddens reach (gradF s4) ci c) (dv s4) else dv s4).
  assert (SON : forall d k, (k < 6)%nat -> STRESS (base bld) = true -> str (dv s3) d k = if Nat.eqb d ci then 0 else str (dv s) d k).
  { intros d k K ON. rewrite B3. unfold s2, s1, reset_conf; simpl. rewrite ON. unfold setf. destruct (Nat.eqb_spec d ci) as [->|]; auto. destruct (Nat.ltb_spec k 6); [auto|lia]. }
  assert (SOTH : forall d k, d <> ci -> str (dv s3) d k = str (dv s) d k).
  { intros d k D. rewrite B3. unfold s2, s1, reset_conf; simpl. destruct (STRESS (base bld)); auto. rewrite setf_neq; auto. }
  assert (H5 : (forall a, (a < lo)%nat \/ (hi <= a)%nat -> frc d5 a = frc (dv s) a) /\ (forall a, (lo <= a < hi)%nat -> frc d5 a = frc_f a) /\
    en d5 ci = gen P2 c hi + upto hi eF /\ (forall d, d <> ci -> en d5 d = en (dv s) d) /\
    (forall k, (k < 6)%nat -> STRESS (base bld) = true -> str d5 ci k = if stress_on (base bld) c then - (gstr T2 c k hi + gstr X3 c k hi) else 0) /\
    (forall d k, d <> ci -> str d5 d k = str (dv s) d k) /\
    err d5 = err (dv s) + rsumf score_f (seq lo (inconf c))).
  { assert (E3 : en (dv s4) ci = gen P2 c hi + upto hi eF).
    { rewrite C2, B2. unfold s2, s1, reset_conf; simpl. rewrite setf_eq. ring. }
    assert (E3' : forall d, d <> ci -> en (dv s4) d = en (dv s) d).
    { intros d D. rewrite C3, B2 by auto. unfold s2, s1, reset_conf; simpl. apply setf_neq; auto. }
    assert (F3 : forall a, (lo <= a < hi)%nat -> frc (dv s4) a = vsub (vadd (if uf c then vscale (-1) (force_0 c a) else v0) (gown T2 c a)) (ggot T2 c hi a)).
    { intros a Ha. rewrite C1, B1. destruct (Nat.leb_spec lo a), (Nat.ltb_spec a hi); try lia. simpl. auto. }
    assert (F3' : forall a, (a < lo)%nat \/ (hi <= a)%nat -> frc (dv s4) a = frc (dv s) a).
    { intros a Ha. rewrite C1, B1, (ggot_out _ _ ORD) by lia. destruct (Nat.leb_spec lo a), (Nat.ltb_spec a hi); try lia; simpl; vring. }
    assert (R3 : err (dv s4) = err (dv s)) by (rewrite C5, B4; auto).
    destruct (uf c) eqn:UF.
    - destruct (scored_loop _ ci _ _ _ (third_body_spec (gradF s4)) c ORD (base bld) UF (dv s4)) as (D1 & D2 & D3 & D4 & D5 & D6).
      change (for_up lo hi (satom (third_neighbor bld ddens reach (gradF s4) ci c) c (base bld)) (dv s4)) with d5 in D1, D2, D3, D4, D5, D6. clearbody d5.
      destruct (loop_ext _ _ (T3_ext (gradF s4) gF (fun b a Hb Ha => proj2 (C7 b a Hb Ha)))) as (X1 & X2 & X4).
      assert (FI : forall a, (lo <= a < hi)%nat -> gfinal (T3 (gradF s4)) c (base bld) (frc (dv s4)) a = frc_f a).
      { intros a Ha. unfold gfinal, frc_f. rewrite UF. f_equal. rewrite X1, X2, F3 by auto. auto. }
      split; [intros; rewrite D1; auto|]. split; [intros; rewrite D2; auto|]. split; [|split; [intros; rewrite D4; auto|split; [|split]]].
      + rewrite D3, E3. unfold gen at 2. rewrite (rsumf_zero _ (seq lo _)); [ring|]. intros k _. apply rsumf_zero. auto.
      + intros k K ON. rewrite D5, C4, SON, Nat.eqb_refl by auto. destruct (Nat.ltb_spec k 6); [|lia]. unfold stress_on. rewrite ON, UF. simpl.
        destruct (us c); auto. rewrite X4. ring.
      + intros d k D. rewrite D5, C4, SOTH by auto. destruct (Nat.eqb_spec d ci); [contradiction|]. auto.
      + rewrite D6, R3. f_equal. apply rsumf_ext. intros a Ha. apply in_seq in Ha. unfold gscore, score_f, scored. rewrite UF, FI by lia. auto.
    - split; [auto|]. split; [|split; [auto|split; [auto|split; [|split]]]].
      + intros a Ha. unfold d5. rewrite F3 by auto. unfold frc_f. rewrite UF.
        assert (Z : forall i e, T2 i e = v0) by (intros; unfold pT; rewrite UF; auto).
        unfold gown, ggot. rewrite (vsumf_zero (T2 a)) by auto. rewrite vsumf_zero; [vring|]. intros k _. apply vsumf_zero. intros e _. unfold gto. rewrite Z. destruct (Nat.eqb (n_nr e) a); auto.
      + intros k K ON. unfold d5. rewrite C4, SON, Nat.eqb_refl by auto. unfold stress_on. rewrite UF, ON. cbn [andb].
        assert (Z : gstr T2 c k hi = 0).
        { unfold gstr. apply rsumf_zero. intros j _. apply rsumf_zero. intros e _. unfold pT. rewrite UF. apply stress_v0. }
        rewrite Z. destruct (us c), (Nat.ltb k 6); cbn [andb]; rewrite ?ON; cbn [andb]; ring.
      + intros d k D. unfold d5. rewrite C4, SOTH by auto. destruct (Nat.eqb_spec d ci); [contradiction|]. auto.
      + unfold d5. rewrite R3. rewrite rsumf_zero; [ring|]. intros a _. unfold score_f, scored. rewrite UF. auto. }
  clearbody d5. destruct H5 as (G1 & G2 & G3 & G4 & G5 & G6 & G7).
  destruct (tail_spec (base bld) eweight sweight ci c d5) as (T1 & T4 & T5 & T6 & T7).
  set (d6 := score_stress (base bld) sweight ci c (score_energy eweight ci c d5)) in *. clearbody d6.
  assert (L2 : RESCALE bld = true -> lim s4 ci = lim_f).
  { intros RS. rewrite C8, A4. unfold s2; simpl. rewrite RS, setf_eq. auto. }
  assert (E6 : en d6 ci = en_f) by (rewrite T4, G3; auto).
  assert (S6 : forall k, (k < 6)%nat -> STRESS (base bld) = true -> str d6 ci k = str_f k).
  { intros k K ON. rewrite T6, Nat.eqb_refl. destruct (Nat.ltb_spec k 6); [|lia]. unfold str_f. rewrite (G5 k K ON). simpl. destruct (stress_on (base bld) c); auto. }
  assert (SO6 : forall d k, d <> ci -> str d6 d k = str (dv s) d k).
  { intros d k D. rewrite T6. destruct (Nat.eqb_spec d ci); [contradiction|]. simpl. auto. }
  assert (R6 : err d6 = err (dv s) + rsumf score_f (seq lo (inconf c)) + conf_weight c * eweight * sq en_f +
    (if stress_on (base bld) c then rsumf (fun k => conf_weight c * sweight * sq (str_f k)) (seq 0 6) else 0)).
  { rewrite T7, E6, G7. f_equal. destruct (stress_on (base bld) c) eqn:ON; auto. apply rsumf_ext. intros k K. apply in_seq in K.
    rewrite S6; auto; [lia|]. unfold stress_on in ON. destruct (STRESS (base bld)); auto. }
  assert (LO : forall d, d <> ci -> lim s4 d = lim s d).
  { intros d D. rewrite C9, A4 by auto. unfold s2; simpl. destruct (RESCALE bld); auto. apply setf_neq; auto. }
  assert (RB : forall b, (b < nbd)%nat -> rsum s4 b = rsum s b + rsumf (seen b) (seq lo (inconf c))).
  { intros b Hb. rewrite C10, A5 by auto. auto. }
  assert (DB : dum s4 = dum s) by (rewrite C11, A6; auto).
  destruct (RESCALE bld) eqn:RS; cbn [with_dv dv rho gradF lim rsum dum frc en str err]; rewrite ?T1.
  - repeat (split; [auto; intros; rewrite ?T5, ?G1, ?G2, ?G4 by auto; auto|]). rewrite R6, (L2 eq_refl). auto.
  - repeat (split; [auto; intros; rewrite ?T5, ?G1, ?G2, ?G4 by auto; auto|]). rewrite R6. ring.
Qed.
End Eam.
