(** The EAM routine on two descriptions of one crystal. *)
From Coq Require Import Reals ZArith List Bool Lia Lra Permutation.
From Verif Require Import Vec NbrModel NbrProof NbrProof2 NbrProof3 LoopUtil PairModel PairProof PairSpec PairProof2 PairProof3 CellSpec CellProof CellProof2
  EamModel EamProof EamSpec EamProof3 EamProof4.
Import ListNotations.
Local Open Scope R_scope.

Section Cell.
Variables (c1 c2 : conf) (pos1 pos2 : nat -> vec) (b1 b2 : box) (m : nat) (tau : nat * image -> nat * image).
Hypothesis SC : same_crystal c1 c2 pos1 pos2 b1 b2 m tau.
Variable rcut : nat -> nat -> R.
Notation in1 i := (cnfstart c1 <= i < cnfstart c1 + inconf c1)%nat.
Notation in2 i := (cnfstart c2 <= i < cnfstart c2 + inconf c2)%nat.
Notation O3 := (0, 0, 0)%Z.
(** images of an atom of the larger cell are images of one atom of the smaller cell *)
Hypothesis LAT : forall A N, in2 A -> fst (tau (A, N)) = fst (tau (A, O3)).
Variable nbd : nat.
Variables dens ddens : nat -> nat -> R -> R.
Variable reach : nat -> nat -> R -> bool.
Variables E dE : nat -> nat -> R -> R.
Variables L1 L2 : nat -> list (nat * image).
Hypothesis HL1 : forall a, in1 a -> all_neighbors c1 pos1 b1 rcut a (L1 a).
Hypothesis HL2 : forall a, in2 a -> all_neighbors c2 pos2 b2 rcut a (L2 a).
Notation rp := (rep tau).
Notation ev := (env tau).

Lemma same_density : forall b A, in2 A -> density c2 pos2 b2 dens reach L2 b A = density c1 pos1 b1 dens reach L1 b (rp A).
Proof.
  intros b A HA. unfold density. apply (env_sum _ _ _ _ _ _ _ _ SC rcut L1 L2 HL1 HL2); auto. intros B N HB.
  rewrite (env_dist _ _ _ _ _ _ _ _ SC), (env_type _ _ _ _ _ _ _ _ SC) by auto. auto.
Qed.
Lemma same_slope : forall b A, in2 A -> slope c2 pos2 b2 dens reach dE L2 b A = slope c1 pos1 b1 dens reach dE L1 b (rp A).
Proof. intros b A HA. unfold slope. rewrite same_density, <- (rep_type _ _ _ _ _ _ _ _ SC) by auto. auto. Qed.
Lemma same_ebond : forall A B N, in2 A -> in2 B ->
  embed_bond c2 pos2 b2 nbd dens ddens reach dE L2 A (B, N) = embed_bond c1 pos1 b1 nbd dens ddens reach dE L1 (rp A) (ev A (B, N)).
Proof.
  intros A B N HA HB. unfold embed_bond. rewrite (env_dist _ _ _ _ _ _ _ _ SC), (env_dvec _ _ _ _ _ _ _ _ SC), (env_type _ _ _ _ _ _ _ _ SC), (rep_type _ _ _ _ _ _ _ _ SC) by auto.
  f_equal. f_equal. apply rsumf_ext. intros b _. cbn [fst]. rewrite !same_slope by auto. assert (Q : rp B = fst (ev A (B, N))) by (unfold env, rep; cbn [fst]; symmetry; apply LAT; auto). rewrite Q. auto.
Qed.
Theorem same_embed_energy : embed_energy c2 pos2 b2 nbd dens reach E L2 = INR m * embed_energy c1 pos1 b1 nbd dens reach E L1.
Proof.
  unfold embed_energy. rewrite (rsumf_ext _ (fun A => (fun a => rsumf (fun k => E k (typ c1 a) (density c1 pos1 b1 dens reach L1 k a)) (seq 0 nbd)) (rp A))).
  - rewrite (rep_sum _ _ _ _ _ _ _ _ SC (fun a => rsumf (fun k => E k (typ c1 a) (density c1 pos1 b1 dens reach L1 k a)) (seq 0 nbd))). auto.
  - intros A HA. apply in_seq in HA. apply rsumf_ext. intros k _. rewrite same_density, (rep_type _ _ _ _ _ _ _ _ SC) by lia. auto.
Qed.
Theorem same_embed_virial : forall k, embed_virial c2 pos2 b2 nbd dens ddens reach dE L2 k = INR m * embed_virial c1 pos1 b1 nbd dens ddens reach dE L1 k.
Proof.
  intros k. unfold embed_virial.
  rewrite (rsumf_ext _ (fun A => (fun a => rsumf (fun v => stress_of (dvec pos1 b1 a v) (embed_bond c1 pos1 b1 nbd dens ddens reach dE L1 a v) k) (L1 a)) (rp A))).
  - rewrite (rep_sum _ _ _ _ _ _ _ _ SC (fun a => rsumf (fun v => stress_of (dvec pos1 b1 a v) (embed_bond c1 pos1 b1 nbd dens ddens reach dE L1 a v) k) (L1 a))). ring.
  - intros A HA. apply in_seq in HA. apply (env_sum _ _ _ _ _ _ _ _ SC rcut L1 L2 HL1 HL2); [lia|]. intros B N HB. rewrite (env_dvec _ _ _ _ _ _ _ _ SC), same_ebond by (auto; lia). auto.
Qed.
End Cell.

Lemma neighbors_all : forall rcut n cs pos bx, (forall ci, (ci < n)%nat -> geometry (cs ci) pos (bx ci) rcut) -> exists L, forall ci a, (ci < n)%nat ->
    (cnfstart (cs ci) <= a < cnfstart (cs ci) + inconf (cs ci))%nat -> all_neighbors (cs ci) pos (bx ci) rcut a (L ci a).
Proof.
  intros rcut n cs pos bx. induction n; intros G.
  - exists (fun _ _ => []). intros; lia.
  - destruct IHn as (L & HL); [intros; apply G; lia|]. destruct (all_neighbors_exist (cs n) pos (bx n) rcut (G n ltac:(lia))) as (M & HM).
    exists (fun ci => if Nat.eqb ci n then M else L ci). intros ci a H Ha. destruct (Nat.eqb_spec ci n) as [E|N]; [rewrite E in *; auto|apply HL; auto; lia].
Qed.

Theorem eam_cell_independent : forall bld phi dphi in_range dens ddens reach F dF FA dFA fbegin fend fstep
  ew1 sw1 ew2 sw2 l1 l2 d1 d2 pu1 pu2 nt na1 na2 cs1 cs2 n1 n2,
  STRESS (base bld) = true -> (0 < nt)%nat -> bands_nested bld reach ->
  (forall ci, cnfstart (cs1 (S ci)) = (cnfstart (cs1 ci) + inconf (cs1 ci))%nat) ->
  (forall ci, cnfstart (cs2 (S ci)) = (cnfstart (cs2 ci) + inconf (cs2 ci))%nat) ->
  (forall s t r, phi s t r = phi t s r) -> (forall s t r, dphi s t r = dphi t s r) ->
  (forall s t r, in_range s t r = in_range t s r) ->
  forall pos1 pos2 bx1 bx2 rcut,
  (forall ci, (ci < n1)%nat -> geometry (cs1 ci) pos1 (bx1 ci) rcut) ->
  (forall ci, (ci < n2)%nat -> geometry (cs2 ci) pos2 (bx2 ci) rcut) ->
  forall x y m tau s1 s2, (x < n1)%nat -> (y < n2)%nat -> (0 < inconf (cs1 x))%nat -> conf_vol (cs1 x) <> 0 ->
  same_crystal (cs1 x) (cs2 y) pos1 pos2 (bx1 x) (bx2 y) m tau ->
  (forall A N, (cnfstart (cs2 y) <= A < cnfstart (cs2 y) + inconf (cs2 y))%nat -> fst (tau (A, N)) = fst (tau (A, (0, 0, 0)%Z))) ->
  uf (cs1 x) = true -> us (cs1 x) = true -> uf (cs2 y) = true -> us (cs2 y) = true ->
  let r1 := dv (EamModel.calc_forces bld phi dphi in_range dens ddens reach F dF FA dFA fbegin fend fstep ew1 sw1 l1 d1 pu1 nt na1 cs1 n1 s1) in
  let r2 := dv (EamModel.calc_forces bld phi dphi in_range dens ddens reach F dF FA dFA fbegin fend fstep ew2 sw2 l2 d2 pu2 nt na2 cs2 n2 s2) in
  en r1 x + energy_0 (cs1 x) = en r2 y + energy_0 (cs2 y) /\
  forall k, (k < 6)%nat -> str r1 x k + stress_0 (cs1 x) k = str r2 y k + stress_0 (cs2 y) k.
Proof.
  intros bld phi dphi in_range dens ddens reach F dF FA dFA fbegin fend fstep ew1 sw1 ew2 sw2 l1 l2 d1 d2 pu1 pu2 nt na1 na2 cs1 cs2 n1 n2 ST NT NEST C1 C2 PS DS IS pos1 pos2 bx1 bx2 rcut G1 G2
    x y m tau s1 s2 Hx Hy NE VO SC LAT U1 S1 U2 S2 r1 r2.
  destruct (neighbors_all rcut n1 cs1 pos1 bx1 G1) as (L1 & HL1). destruct (neighbors_all rcut n2 cs2 pos2 bx2 G2) as (L2 & HL2).
  destruct (eam_textbook bld phi dphi in_range dens ddens reach F dF FA dFA fbegin fend fstep ew1 sw1 l1 d1 pu1 nt na1 cs1 n1 C1 NT pos1 bx1 rcut G1 L1 HL1 PS DS IS NEST s1 x Hx) as (_ & _ & E1 & T1).
  destruct (eam_textbook bld phi dphi in_range dens ddens reach F dF FA dFA fbegin fend fstep ew2 sw2 l2 d2 pu2 nt na2 cs2 n2 C2 NT pos2 bx2 rcut G2 L2 HL2 PS DS IS NEST s2 y Hy) as (_ & _ & E2 & T2).
  fold r1 in E1, T1. fold r2 in E2, T2. clearbody r1 r2.
  pose proof (sc_m _ _ _ _ _ _ _ _ SC) as MP. assert (MR : INR m <> 0) by (apply not_0_INR; lia).
  assert (NR : INR (inconf (cs1 x)) <> 0) by (apply not_0_INR; lia).
  split.
  - rewrite E1, E2, (sc_number _ _ _ _ _ _ _ _ SC), mult_INR.
    rewrite (same_energy _ _ _ _ _ _ _ _ SC rcut phi in_range (L1 x) (L2 y)) by (solve [intros; apply HL1; auto | intros; apply HL2; auto]).
    rewrite (same_embed_energy _ _ _ _ _ _ _ _ SC rcut (nbands bld) dens reach _ (L1 x) (L2 y)) by (solve [intros; apply HL1; auto | intros; apply HL2; auto]).
    field. auto.
  - intros k K. rewrite (T1 ST k K), (T2 ST k K), U1, S1, U2, S2. cbn [andb]. rewrite (sc_volume _ _ _ _ _ _ _ _ SC).
    rewrite (same_virial _ _ _ _ _ _ _ _ SC rcut dphi in_range (L1 x) (L2 y)) by (solve [intros; apply HL1; auto | intros; apply HL2; auto]).
    rewrite (same_embed_virial _ _ _ _ _ _ _ _ SC rcut LAT (nbands bld) dens ddens reach _ (L1 x) (L2 y)) by (solve [intros; apply HL1; auto | intros; apply HL2; auto]).
    field. auto.
Qed.
(** the map of a supercell has the property asked for *)
Lemma super_lat : forall k1 k2 k3 c1 c2 A N, fst (CellProof2.tau k1 k2 k3 c1 c2 (A, N)) = fst (CellProof2.tau k1 k2 k3 c1 c2 (A, (0, 0, 0)%Z)).
Proof. intros k1 k2 k3 c1 c2 A [[x y] z]. auto. Qed.
