(** Densities with the rescaled MEAM potential; their range. *)
From Coq Require Import Reals ZArith List Bool Lia Lra Permutation.
From Verif Require Import Vec NbrModel NbrProof NbrProof2 LoopUtil PairModel PairProof PairSpec PairProof2 PairProof3
  ThreeSpec ThreeProof AngSpec MeamSpec SplineModel SplineProof SplineProof2 SplineProof3 SplineProof4 SplineProof5 RescaleModel RescaleProof3 RescaleProof4 RescaleProof9 RmeamModel RmeamSpec RmeamProof RmeamProof2.
Import ListNotations.
Local Open Scope R_scope.

(** computing the second derivatives twice changes nothing *)
Lemma spl_twice : forall fmt3 f, ok fmt3 f -> forall r, r <= endr (col f) -> at_slot fmt3 (spl true true (spl true true f)) r = at_slot fmt3 (spl true true f) r.
Proof.
  intros fmt3 f OK r Hr.
  assert (A : forall k, (first (col f) <= k <= last (col f))%nat -> d2tab (col (spl true true (spl true true f))) k = d2tab (col (spl true true f)) k).
  { intros k Hk. destruct OK as ((L & _) & _).
    assert (B : (Nat.leb (first (col f)) k && Nat.leb k (last (col f)))%bool = true) by (apply andb_true_intro; split; apply Nat.leb_le; lia).
    unfold spl. cbn [val col d2tab first last sl sr step]. rewrite !B.
    assert (S : forall s, slope_scaled 1 s s) by (intros s; unfold slope_scaled; destruct (Rlt_dec NATURAL s); [left; lra|right; lra]).
    rewrite <- Rmult_1_l. apply spline_scale; auto; try lia. intros i Hi. ring. }
  assert (D : forall k b st, (first (col f) <= k < last (col f))%nat -> splint_dir (d2tab (col (spl true true (spl true true f)))) (val f) k b st = splint_dir (d2tab (col (spl true true f))) (val f) k b st).
  { intros k b st K. unfold splint_dir. rewrite !A by lia. auto. }
  unfold at_slot. destruct fmt3 eqn:F.
  - change (slot_ed (col (spl true true (spl true true f))) r) with (slot_ed (col f) r). change (slot_ed (col (spl true true f)) r) with (slot_ed (col f) r).
    destruct OK as (_ & E). destruct (E eq_refl) as (EQ & _). destruct (Rlt_dec r (begin (col f))) as [B|B].
    + destruct (ed_short (col f) (val f) r B) as (_ & _ & _ & ->). auto.
    + destruct (ed_slot_neighbour (col f) (val f) EQ r ltac:(lra)) as (k & b & -> & K & _). apply D. auto.
  - change (slot_ne (col (spl true true (spl true true f))) r) with (slot_ne (col f) r). change (slot_ne (col (spl true true f)) r) with (slot_ne (col f) r).
    destruct OK as (LI & _). destruct (slot_ne (col f) r) as [[k b] st] eqn:S. destruct (ne_slot (col f) (val f) LI r k b st S) as (K & _). apply D. auto.
Qed.
Lemma cosine_le_1 : forall pos b i v w, dvec pos b i v <> v0 -> dvec pos b i w <> v0 -> cosine pos b i v w <= 1.
Proof.
  intros pos b i v w V W. pose proof (dist_pos pos b i v V) as P. pose proof (dist_pos pos b i w W) as Q. unfold cosine.
  assert (PQ : 0 < dist pos b i v * dist pos b i w) by (apply Rmult_lt_0_compat; auto).
  apply Rmult_le_reg_r with (dist pos b i v * dist pos b i w); auto. unfold Rdiv. rewrite Rmult_assoc, Rinv_l by lra.
  pose proof (cauchy_schwarz (dvec pos b i v) (dvec pos b i w)) as C. change (norm (dvec pos b i v)) with (dist pos b i v) in C. change (norm (dvec pos b i w)) with (dist pos b i w) in C.
  pose proof (Rle_abs (sprod (dvec pos b i v) (dvec pos b i w))). lra.
Qed.

(** the columns of type t (and u) can be scaled by a *)
Definition columns_ok (fmt3 : bool) (p : mpot) (nt : nat) (a : R) : Prop :=
  forall t, (t < nt)%nat -> ok fmt3 (mtr p t) /\ scalable a (sl (mtr p t)) /\ scalable a (sr (mtr p t)) /\
  ok fmt3 (mgg p t) /\ scalable a (sl (mgg p t)) /\ scalable a (sr (mgg p t)) /\ 1 <= endr (col (mgg p t)) /\
  forall u, (u < nt)%nat -> ok fmt3 (mff p t u) /\ ok fmt3 (mph p t u).

Section Scaled.
Variables (fmt3 : bool) (p0 : mpot) (nt : nat) (up : bool) (a : R) (lo hi : nat -> R).
Hypothesis OKS : columns_ok fmt3 p0 nt a.
Notation p := (m_init p0).
Notation q := (m_init (m_update p up a lo hi)).
Variables (c : conf) (pos : nat -> vec) (b : box) (L : nat -> list (nat * image)) (x : nat).
Hypothesis TX : (typ c x < nt)%nat.
Hypothesis TL : forall v, In v (L x) -> (typ c (fst v) < nt)%nat /\ dvec pos b x v <> v0.

Lemma f_same : forall s t r, (s < nt)%nat -> (t < nt)%nat -> off (min2 q) (mfv fmt3 q) s t r = off (min2 p) (mfv fmt3 p) s t r.
Proof.
  intros s t r S T. unfold off. change (min2 q s t r) with (min2 p s t r). destruct (min2 p s t r) eqn:E; auto.
  unfold min2, below_end in E. destruct (Rlt_dec r _) as [H|]; [|discriminate].
  unfold mfv. apply spl_twice; [apply OKS; lia|]. cbn in H. apply Rlt_le. exact H.
Qed.
(** transfer functions and three-body term *)
Lemma density_parts : forall slots,
  table_density fmt3 slots q c pos b L x =
  a * rsumf (fun v => if mreach p (typ c (fst v)) (dist pos b x v) then mdens fmt3 p (typ c (fst v)) (dist pos b x v) else 0) (L x) +
  (if slots then a else 1) * (1/2 * rsumf (fun v => rsumf (at_ c pos b (ang (mfv fmt3 p) (min2 p) (mgv fmt3 slots p)) x v) (others L x v)) (L x)).
Proof.
  intros slots. unfold table_density, meam_density. f_equal.
  - rewrite <- rsumf_scale. apply rsumf_ext. intros v Hv. destruct (TL v Hv) as [T _].
    change (mreach q (typ c (fst v)) (dist pos b x v)) with (mreach p (typ c (fst v)) (dist pos b x v)).
    destruct (mreach p (typ c (fst v)) (dist pos b x v)) eqn:E; [|ring]. unfold mreach, below_end in E. destruct (Rlt_dec _ _) as [H|]; [|discriminate].
    destruct (OKS _ T) as (O1 & O2 & O3 & _). unfold mdens. apply (scaled_slot fmt3 a (mtr p0 (typ c (fst v))) O1 O2 O3). cbn in H. lra.
  - match goal with |- _ = ?K * (1 / 2 * ?Y) => transitivity (1 / 2 * (K * Y)); [f_equal|ring] end.
    rewrite <- rsumf_scale. apply rsumf_ext. intros v Hv. rewrite <- rsumf_scale. apply rsumf_ext. intros w Hw.
    unfold others in Hw. apply filter_In in Hw. destruct Hw as [Hw _]. destruct (TL v Hv) as [T1 D1]. destruct (TL w Hw) as [T2 D2].
    unfold at_, ang. rewrite !f_same by auto. destruct slots.
    + unfold mgv. destruct (OKS _ TX) as (_ & _ & _ & O4 & O5 & O6 & O7 & _).
      change (mgg q (typ c x)) with (spl true true (m_scaled a (spl true true (mgg p0 (typ c x))))).
      rewrite (scaled_slot fmt3 a (mgg p0 (typ c x)) O4 O5 O6); [cbn; ring|]. pose proof (cosine_le_1 pos b x v w D1 D2). lra.
    + unfold mgv. cbn. ring.
Qed.
Theorem density_scaled : table_density fmt3 true q c pos b L x = a * table_density fmt3 true p c pos b L x.
Proof. rewrite density_parts. unfold table_density at 1, meam_density. ring. Qed.
End Scaled.

(** ** range *)
Section Range.
Variables fmt3 slots : bool.
Variables (nt : nat) (cs : nat -> conf) (nconf : nat) (r0 : nat -> R) (p0 : mpot) (upper : R).
Hypothesis CONT : forall ci, cnfstart (cs (S ci)) = (cnfstart (cs ci) + inconf (cs ci))%nat.
Variables (pos : nat -> vec) (bx : nat -> box) (rcut : nat -> nat -> R).
Hypothesis FG : forall ci, (ci < nconf)%nat -> full_geometry (cs ci) pos (bx ci) rcut.
Variable L : nat -> nat -> list (nat * image).
Definition atom_of (ci a : nat) : Prop := (ci < nconf)%nat /\ (cnfstart (cs ci) <= a < cnfstart (cs ci) + inconf (cs ci))%nat.
Hypothesis HL : forall ci a, atom_of ci a -> all_neighbors (cs ci) pos (bx ci) rcut a (L ci a).
Let p := m_init p0.
Let s := m_found fmt3 slots p cs nconf r0.
Let rho ci a := table_density fmt3 slots p (cs ci) pos (bx ci) (L ci) a.
Hypothesis TYP : forall ci a, atom_of ci a -> (typ (cs ci) a < nt)%nat.
Hypothesis PRESENT : forall t, (t < nt)%nat -> exists ci a, atom_of ci a /\ typ (cs ci) a = t.
Hypothesis BIG : forall ci a, atom_of ci a -> Rabs (rho ci a) < 10 ^ 100.
Hypothesis STEP : forall t, (t < nt)%nat -> 0 < step (col (mem p0 t)).
Hypothesis UP : 0 < upper.
Hypothesis NT : (0 < nt)%nat.
Notation a := (factor nt (m_embed p) upper s).
Lemma found : forall ci x, atom_of ci x -> srho s x = rho ci x /\ minrho s (typ (cs ci) x) <= rho ci x <= maxrho s (typ (cs ci) x).
Proof.
  intros ci x [H K]. destruct (m_scan_textbook (mdens fmt3 p) (mreach p) (mfv fmt3 p) (min2 p) (mgv fmt3 slots p) cs nconf CONT pos bx rcut FG L (fun ci a H K => HL ci a (conj H K)) r0) as [A _].
  apply (A ci x H K).
Qed.
Lemma extreme : forall t, (t < nt)%nat -> exists ci x cj y, atom_of ci x /\ atom_of cj y /\ typ (cs ci) x = t /\ typ (cs cj) y = t /\ maxrho s t = rho ci x /\ minrho s t = rho cj y.
Proof.
  intros t T. destruct (PRESENT t T) as (ck & z & Z & E). destruct (found ck z Z) as (_ & F1 & F2). rewrite E in F1, F2. pose proof (BIG ck z Z) as B. apply Rabs_def2 in B.
  destruct (m_scan_textbook (mdens fmt3 p) (mreach p) (mfv fmt3 p) (min2 p) (mgv fmt3 slots p) cs nconf CONT pos bx rcut FG L (fun ci a H K => HL ci a (conj H K)) r0) as [_ A].
  fold (m_found fmt3 slots p cs nconf r0) in A. fold s in A. destruct (A t) as [[A1|(ci & x & I1 & I2 & I3 & I4)] [A2|(cj & y & J1 & J2 & J3 & J4)]]; try lra.
  exists ci, x, cj, y. unfold atom_of. auto 10.
Qed.
Lemma extreme_ok : forall t, (t < nt)%nat -> - 10 ^ 100 < maxrho s t /\ minrho s t < 10 ^ 100 /\ minrho s t <= maxrho s t.
Proof.
  intros t T. destruct (extreme t T) as (ci & x & cj & y & X & Y & E & F & -> & M). rewrite M. pose proof (BIG _ _ X) as B. apply Rabs_def2 in B. pose proof (BIG _ _ Y) as B'. apply Rabs_def2 in B'.
  destruct (found ci x X) as (_ & G & _). rewrite E, M in G. lra.
Qed.
(** sign of the factor, and how large densities are with it *)
Theorem factor_sign : (upwards nt s = true /\ 0 < a \/ upwards nt s = false /\ a < 0) /\
  forall ci x, atom_of ci x -> Rabs (a * rho ci x) < upper.
Proof.
  destruct (factor_dominant nt (m_embed p) upper s NT (fun t T => conj (proj1 (extreme_ok t T)) (proj1 (proj2 (extreme_ok t T))))) as (t & u & T & U & MX & MN & UW & F).
  cbv zeta in F. change (em (m_embed p) t) with (spl true true (mem p0 t)) in F. change (em (m_embed p) u) with (spl true true (mem p0 u)) in F.
  change (step (col (spl true true (mem p0 t)))) with (step (col (mem p0 t))) in F. change (step (col (spl true true (mem p0 u)))) with (step (col (mem p0 u))) in F.
  destruct F as [F1 F2]. pose proof (STEP t T) as ST. pose proof (STEP u U) as SU. destruct (extreme_ok t T) as (_ & _ & O1). destruct (extreme_ok u U) as (_ & _ & O2).
  pose proof (MX u U) as M1. pose proof (MN t T) as M2.
  assert (AB : forall k m v, 0 < k -> k * m < upper -> - m <= v <= m -> Rabs (k * v) < upper).
  { intros k m v K KM [V1 V2]. apply Rabs_def1.
    - apply Rle_lt_trans with (k * m); auto. apply Rmult_le_compat_l; lra.
    - assert (k * - v <= k * m) by (apply Rmult_le_compat_l; lra). lra. }
  destruct (Rle_dec (- minrho s u) (maxrho s t)) as [D|D].
  - assert (R0 : 0 < maxrho s t + 3 / 10 * step (col (mem p0 t))) by lra. specialize (F1 D ltac:(lra)).
    assert (A0 : 0 < a). { destruct (Rlt_dec 0 a); auto. exfalso. assert (0 <= - a * (maxrho s t + 3 / 10 * step (col (mem p0 t)))) by (apply Rmult_le_pos; lra). lra. }
    split; [left; split; [apply UW; auto|auto]|]. intros ci x X. destruct (found ci x X) as (_ & G1 & G2).
    pose proof (MX _ (TYP ci x X)). pose proof (MN _ (TYP ci x X)). apply (AB a (maxrho s t)); [auto| |lra].
    assert (0 < a * (3 / 10 * step (col (mem p0 t)))) by (apply Rmult_lt_0_compat; lra). lra.
  - apply Rnot_le_lt in D. assert (R0 : minrho s u - 3 / 10 * step (col (mem p0 u)) < 0) by lra. specialize (F2 D ltac:(lra)).
    assert (A0 : a < 0). { destruct (Rlt_dec a 0); auto. exfalso. assert (0 <= a * - (minrho s u - 3 / 10 * step (col (mem p0 u)))) by (apply Rmult_le_pos; lra). lra. }
    split; [right; split; [destruct (upwards nt s); auto; exfalso; assert (- minrho s u <= maxrho s t) by (apply UW; auto); lra|auto]|].
    intros ci x X. destruct (found ci x X) as (_ & G1 & G2). pose proof (MX _ (TYP ci x X)). pose proof (MN _ (TYP ci x X)).
    rewrite <- Rabs_Ropp, Ropp_mult_distr_l. apply (AB (- a) (- minrho s u)); [lra| |lra].
    assert (0 < - a * (3 / 10 * step (col (mem p0 u)))) by (apply Rmult_lt_0_compat; lra). lra.
Qed.
(** the new embedding functions reach over the densities *)
Theorem new_range : forall ci x, atom_of ci x -> let t := typ (cs ci) x in
  let f := scaled_em (upwards nt s) a (left_of (m_embed p) s t) (right_of (m_embed p) s t) (resampled (mem p t) (left_of (m_embed p) s t) (right_of (m_embed p) s t)) in
  begin (col f) < a * rho ci x < endr (col f).
Proof.
  intros ci x X. cbv zeta. destruct (found ci x X) as (_ & G1 & G2). destruct factor_sign as [FS _]. pose proof (STEP _ (TYP ci x X)) as ST.
  set (t := typ (cs ci) x) in *. unfold scaled_em. unfold left_of, right_of. change (step (col (em (m_embed p) t))) with (step (col (mem p0 t))).
  destruct FS as [[-> A]|[-> A]]; cbn [col begin endr].
  - split; apply Rmult_lt_compat_l; lra.
  - split; apply Rmult_lt_gt_compat_neg_l; lra.
Qed.
End Range.
