(** The ADP routine on two descriptions of one crystal, and the stress of bonds of an atom to
    images of itself. *)
From Coq Require Import Reals ZArith List Bool Lia Lra.
From Verif Require Import Vec NbrModel NbrProof NbrProof2 NbrProof3 LoopUtil PairModel PairProof PairSpec PairProof2 PairProof3 ForceLoop BondProof EamModel EamProof EamSpec EamProof2 EamProof3 EamProof4 EamProof5
  CellSpec CellProof CellProof2 CellProof3 ThreeSpec ThreeProof SwProof3 AdpModel AdpSpec AdpProof AdpProof2 AdpProof3.
Import ListNotations.
Local Open Scope R_scope.

Section Cell.
Variables (c1 c2 : conf) (pos1 pos2 : nat -> vec) (b1 b2 : box) (m : nat) (tau : nat * image -> nat * image).
Hypothesis SC : same_crystal c1 c2 pos1 pos2 b1 b2 m tau.
Variable rcut : nat -> nat -> R.
Notation in1 i := (cnfstart c1 <= i < cnfstart c1 + inconf c1)%nat.
Notation in2 i := (cnfstart c2 <= i < cnfstart c2 + inconf c2)%nat.
Notation O3 := (0, 0, 0)%Z.
Hypothesis LAT : forall A N, in2 A -> fst (tau (A, N)) = fst (tau (A, O3)).
Variables u du : nat -> nat -> R -> R.
Variable u_range : nat -> nat -> R -> bool.
Variables w dw : nat -> nat -> R -> R.
Variable w_range : nat -> nat -> R -> bool.
Variables L1 L2 : nat -> list (nat * image).
Hypothesis HL1 : forall a, in1 a -> all_neighbors c1 pos1 b1 rcut a (L1 a).
Hypothesis HL2 : forall a, in2 a -> all_neighbors c2 pos2 b2 rcut a (L2 a).
Notation rp := (rep tau).
Notation ev := (env tau).

Lemma same_cut : forall f rg A B N, in2 A -> in2 B -> cut c2 pos2 b2 f rg A (B, N) = cut c1 pos1 b1 f rg (rp A) (ev A (B, N)).
Proof.
  intros f rg A B N HA HB. unfold cut.
  rewrite (env_dist _ _ _ _ _ _ _ _ SC), (env_type _ _ _ _ _ _ _ _ SC), (rep_type _ _ _ _ _ _ _ _ SC) by auto. auto.
Qed.
Lemma same_dipole : forall A, in2 A -> dipole c2 pos2 b2 u u_range L2 A = dipole c1 pos1 b1 u u_range L1 (rp A).
Proof.
  intros A HA. unfold dipole, vsum. f_equal; apply (env_sum _ _ _ _ _ _ _ _ SC rcut L1 L2 HL1 HL2); auto; intros B N HB;
    rewrite same_cut, (env_dvec _ _ _ _ _ _ _ _ SC) by auto; auto.
Qed.
Lemma same_quadrupole : forall A k l, in2 A -> quadrupole c2 pos2 b2 w w_range L2 A k l = quadrupole c1 pos1 b1 w w_range L1 (rp A) k l.
Proof.
  intros A k l HA. unfold quadrupole. apply (env_sum _ _ _ _ _ _ _ _ SC rcut L1 L2 HL1 HL2); auto; intros B N HB;
    rewrite same_cut, (env_dvec _ _ _ _ _ _ _ _ SC) by auto; auto.
Qed.
Lemma same_nu : forall A, in2 A -> nu_of c2 pos2 b2 w w_range L2 A = nu_of c1 pos1 b1 w w_range L1 (rp A).
Proof. intros A HA. unfold nu_of. rewrite !same_quadrupole by auto. auto. Qed.
Lemma rep_env : forall A B N, in2 B -> rp B = fst (ev A (B, N)).
Proof. intros A B N HB. unfold env, rep; cbn [fst]; symmetry; apply LAT; auto. Qed.
Lemma same_adp_bond : forall A B N, in2 A -> in2 B ->
  adp_bond c2 pos2 b2 u du u_range w dw w_range L2 A (B, N) = adp_bond c1 pos1 b1 u du u_range w dw w_range L1 (rp A) (ev A (B, N)).
Proof.
  intros A B N HA HB. unfold adp_bond, dipole_bond, quadrupole_bond, quad_mul.
  rewrite !same_cut, (env_dvec _ _ _ _ _ _ _ _ SC), (env_dist _ _ _ _ _ _ _ _ SC) by auto. cbn [fst].
  rewrite !same_dipole, !same_nu, !same_quadrupole, (rep_env A B N) by auto. auto.
Qed.
Theorem same_adp_energy : adp_energy c2 pos2 b2 u u_range w w_range L2 = INR m * adp_energy c1 pos1 b1 u u_range w w_range L1.
Proof.
  unfold adp_energy.
  rewrite (rsumf_ext (fun a => sqv (dipole c2 pos2 b2 u u_range L2 a)) (fun A => (fun a => sqv (dipole c1 pos1 b1 u u_range L1 a)) (rp A))).
  2: { intros A HA. apply in_seq in HA. rewrite same_dipole by lia. auto. }
  rewrite (rsumf_ext (fun a => rsumf (fun k => rsumf (fun l => sq (quadrupole c2 pos2 b2 w w_range L2 a k l)) (seq 0 3)) (seq 0 3))
     (fun A => (fun a => rsumf (fun k => rsumf (fun l => sq (quadrupole c1 pos1 b1 w w_range L1 a k l)) (seq 0 3)) (seq 0 3)) (rp A))).
  2: { intros A HA. apply in_seq in HA. apply rsumf_ext. intros k _. apply rsumf_ext. intros l _. rewrite same_quadrupole by lia. auto. }
  rewrite (rsumf_ext (fun a => sq (nu_of c2 pos2 b2 w w_range L2 a)) (fun A => (fun a => sq (nu_of c1 pos1 b1 w w_range L1 a)) (rp A))).
  2: { intros A HA. apply in_seq in HA. rewrite same_nu by lia. auto. }
  rewrite (rep_sum _ _ _ _ _ _ _ _ SC (fun a => sqv (dipole c1 pos1 b1 u u_range L1 a))).
  rewrite (rep_sum _ _ _ _ _ _ _ _ SC (fun a => rsumf (fun k => rsumf (fun l => sq (quadrupole c1 pos1 b1 w w_range L1 a k l)) (seq 0 3)) (seq 0 3))).
  rewrite (rep_sum _ _ _ _ _ _ _ _ SC (fun a => sq (nu_of c1 pos1 b1 w w_range L1 a))). ring.
Qed.
Theorem same_adp_virial : forall k, adp_virial c2 pos2 b2 u du u_range w dw w_range L2 k = INR m * adp_virial c1 pos1 b1 u du u_range w dw w_range L1 k.
Proof.
  intros k. unfold adp_virial.
  rewrite (rsumf_ext _ (fun A => (fun a => rsumf (fun v => stress_of (dvec pos1 b1 a v) (adp_bond c1 pos1 b1 u du u_range w dw w_range L1 a v) k) (L1 a)) (rp A))).
  - rewrite (rep_sum _ _ _ _ _ _ _ _ SC (fun a => rsumf (fun v => stress_of (dvec pos1 b1 a v) (adp_bond c1 pos1 b1 u du u_range w dw w_range L1 a v) k) (L1 a))). ring.
  - intros A HA. apply in_seq in HA. apply (env_sum _ _ _ _ _ _ _ _ SC rcut L1 L2 HL1 HL2); [lia|]. intros B N HB.
    rewrite (env_dvec _ _ _ _ _ _ _ _ SC), same_adp_bond by (auto; lia). auto.
Qed.
End Cell.

(** energies per atom agree; stresses agree up to the terms of the bonds to own images *)
Theorem adp_cells : forall bld phi dphi in_range dens ddens reach F dF FA dFA fbegin fend fstep u du u_range w dw w_range
  ew1 sw1 ew2 sw2 l1 l2 d1 d2 pu1 pu2 nt na1 na2 cs1 cs2 n1 n2,
  STRESS (base bld) = true -> (0 < nt)%nat ->
  (forall ci, cnfstart (cs1 (S ci)) = (cnfstart (cs1 ci) + inconf (cs1 ci))%nat) ->
  (forall ci, cnfstart (cs2 (S ci)) = (cnfstart (cs2 ci) + inconf (cs2 ci))%nat) ->
  (forall s t r, phi s t r = phi t s r) -> (forall s t r, dphi s t r = dphi t s r) ->
  (forall s t r, in_range s t r = in_range t s r) ->
  (forall s t r, u s t r = u t s r) -> (forall s t r, du s t r = du t s r) -> (forall s t r, u_range s t r = u_range t s r) ->
  (forall s t r, w s t r = w t s r) -> (forall s t r, dw s t r = dw t s r) -> (forall s t r, w_range s t r = w_range t s r) ->
  forall pos1 pos2 bx1 bx2 rcut,
  (forall ci, (ci < n1)%nat -> geometry (cs1 ci) pos1 (bx1 ci) rcut) ->
  (forall ci, (ci < n2)%nat -> geometry (cs2 ci) pos2 (bx2 ci) rcut) ->
  forall L1 L2,
  (forall ci a, (ci < n1)%nat -> (cnfstart (cs1 ci) <= a < cnfstart (cs1 ci) + inconf (cs1 ci))%nat -> all_neighbors (cs1 ci) pos1 (bx1 ci) rcut a (L1 ci a)) ->
  (forall ci a, (ci < n2)%nat -> (cnfstart (cs2 ci) <= a < cnfstart (cs2 ci) + inconf (cs2 ci))%nat -> all_neighbors (cs2 ci) pos2 (bx2 ci) rcut a (L2 ci a)) ->
  forall x y m tau s1 s2, (x < n1)%nat -> (y < n2)%nat -> (0 < inconf (cs1 x))%nat -> conf_vol (cs1 x) <> 0 ->
  same_crystal (cs1 x) (cs2 y) pos1 pos2 (bx1 x) (bx2 y) m tau ->
  (forall A N, (cnfstart (cs2 y) <= A < cnfstart (cs2 y) + inconf (cs2 y))%nat -> fst (tau (A, N)) = fst (tau (A, (0, 0, 0)%Z))) ->
  uf (cs1 x) = true -> us (cs1 x) = true -> uf (cs2 y) = true -> us (cs2 y) = true ->
  let r1 := dv (es (AdpModel.calc_forces bld phi dphi in_range dens ddens reach F dF FA dFA fbegin fend fstep u du u_range w dw w_range ew1 sw1 l1 d1 pu1 nt na1 cs1 n1 s1)) in
  let r2 := dv (es (AdpModel.calc_forces bld phi dphi in_range dens ddens reach F dF FA dFA fbegin fend fstep u du u_range w dw w_range ew2 sw2 l2 d2 pu2 nt na2 cs2 n2 s2)) in
  en r1 x + energy_0 (cs1 x) = en r2 y + energy_0 (cs2 y) /\
  forall k, (k < 6)%nat ->
    str r1 x k + stress_0 (cs1 x) k - own_virial (cs1 x) pos1 (bx1 x) w dw w_range (L1 x) k / conf_vol (cs1 x) =
    str r2 y k + stress_0 (cs2 y) k - own_virial (cs2 y) pos2 (bx2 y) w dw w_range (L2 y) k / conf_vol (cs2 y).
Proof.
  intros bld phi dphi in_range dens ddens reach F dF FA dFA fbegin fend fstep u du u_range w dw w_range ew1 sw1 ew2 sw2 l1 l2 d1 d2 pu1 pu2 nt na1 na2 cs1 cs2 n1 n2 ST NT C1 C2 PS DS IS US dUS URS WS dWS WRS
    pos1 pos2 bx1 bx2 rcut G1 G2 L1 L2 HL1 HL2 x y m tau s1 s2 Hx Hy NE VO SC LAT U1 S1 U2 S2 r1 r2.
  destruct (adp_textbook bld phi dphi in_range dens ddens reach F dF FA dFA fbegin fend fstep u du u_range w dw w_range ew1 sw1 l1 d1 pu1 nt na1 cs1 n1 C1 NT pos1 bx1 rcut G1 L1 HL1 PS DS IS US dUS URS WS dWS WRS s1 x Hx) as (_ & _ & E1 & T1).
  destruct (adp_textbook bld phi dphi in_range dens ddens reach F dF FA dFA fbegin fend fstep u du u_range w dw w_range ew2 sw2 l2 d2 pu2 nt na2 cs2 n2 C2 NT pos2 bx2 rcut G2 L2 HL2 PS DS IS US dUS URS WS dWS WRS s2 y Hy) as (_ & _ & E2 & T2).
  fold r1 in E1, T1. fold r2 in E2, T2. clearbody r1 r2.
  pose proof (sc_m _ _ _ _ _ _ _ _ SC) as MP. assert (MR : INR m <> 0) by (apply not_0_INR; lia).
  assert (NR : INR (inconf (cs1 x)) <> 0) by (apply not_0_INR; lia).
  assert (H1 := fun a => HL1 x a Hx). assert (H2 := fun a => HL2 y a Hy).
  split.
  - rewrite E1, E2, (sc_number _ _ _ _ _ _ _ _ SC), mult_INR.
    rewrite (same_energy _ _ _ _ _ _ _ _ SC rcut phi in_range (L1 x) (L2 y) H1 H2).
    rewrite (same_embed_energy _ _ _ _ _ _ _ _ SC rcut 1 dens reach _ (L1 x) (L2 y) H1 H2).
    rewrite (same_adp_energy _ _ _ _ _ _ _ _ SC rcut u u_range w w_range (L1 x) (L2 y) H1 H2).
    field. auto.
  - intros k K. rewrite (T1 ST k K), (T2 ST k K), U1, S1, U2, S2. cbn [andb]. rewrite (sc_volume _ _ _ _ _ _ _ _ SC).
    rewrite (same_virial _ _ _ _ _ _ _ _ SC rcut dphi in_range (L1 x) (L2 y) H1 H2).
    rewrite (same_embed_virial _ _ _ _ _ _ _ _ SC rcut LAT 1 dens ddens reach _ (L1 x) (L2 y) H1 H2).
    rewrite (same_adp_virial _ _ _ _ _ _ _ _ SC rcut LAT u du u_range w dw w_range (L1 x) (L2 y) H1 H2).
    field. auto.
Qed.

(** ** One atom in the unit cube, and the same crystal with two atoms in a cell *)
Section Own.
Variable f1 f2 : nat -> list neigh.
Notation cs1 := (only 1 1 true true f1).
Notation cs2 := (only 2 2 true true f2).
Variables L1 L2 : nat -> list (nat * image).
Hypothesis HL1 : forall a, (0 <= a < 1)%nat -> all_neighbors (cs1 0%nat) origin cube (fun _ _ => 1) a (L1 a).
Hypothesis HL2 : forall a, (0 <= a < 2)%nat -> all_neighbors (cs2 0%nat) pair_pos two_box (fun _ _ => 1) a (L2 a).
Notation d1 v := (dvec origin cube 0 v).
Lemma in_z : In (0%nat, (0, 0, 1)%Z) (L1 0%nat).
Proof.
  apply (HL1 0%nat ltac:(lia)). split; [simpl; lia|]. split; [intros [_ K]; discriminate|]. rewrite cube_displacement. unfold norm, sprod; simpl.
  match goal with |- sqrt ?x <= 1 => replace x with 1 by ring end. rewrite sqrt_1. lra.
Qed.
Lemma q22_pos : 0 < quadrupole (cs1 0%nat) origin cube onef all_range L1 0 2 2.
Proof.
  unfold quadrupole. set (f := fun v => _).
  assert (FN : forall v, In v (L1 0%nat) -> 0 <= f v).
  { intros v _. unfold f, cut, onef, all_range, co. pose proof (Rle_0_sqr (vz (d1 v))). unfold Rsqr in *. lra. }
  destruct (Rle_lt_or_eq_dec 0 (rsumf f (L1 0%nat)) (rsumf_nonneg _ _ FN)) as [|E]; auto. symmetry in E.
  pose proof (sum_zero f _ FN E _ in_z) as Z. unfold f, cut, onef, all_range, co, dvec in Z. cbn [fst snd] in Z. rewrite cube_displacement in Z. simpl in Z. lra.
Qed.
Lemma own_one : own_virial (cs1 0%nat) origin cube onef zf all_range L1 2 =
  sq (quadrupole (cs1 0%nat) origin cube onef all_range L1 0 2 0) + sq (quadrupole (cs1 0%nat) origin cube onef all_range L1 0 2 1) +
  sq (quadrupole (cs1 0%nat) origin cube onef all_range L1 0 2 2).
Proof.
  unfold own_virial. change (seq (cnfstart (cs1 0%nat)) (inconf (cs1 0%nat))) with [0%nat]. rewrite rsumf_cons. unfold rsumf at 2; simpl map; unfold Vec.rsum at 1; cbn [fold_right].
  set (q := quadrupole (cs1 0%nat) origin cube onef all_range L1 0).
  rewrite (rsumf_ext _ (fun v => q 2%nat 0%nat * (cut (cs1 0%nat) origin cube onef all_range 0 v * (co (d1 v) 2 * co (d1 v) 0)) +
     q 2%nat 1%nat * (cut (cs1 0%nat) origin cube onef all_range 0 v * (co (d1 v) 2 * co (d1 v) 1)) + q 2%nat 2%nat * (cut (cs1 0%nat) origin cube onef all_range 0 v * (co (d1 v) 2 * co (d1 v) 2)))).
  - rewrite !rsumf_plus, !rsumf_scale. fold (quadrupole (cs1 0%nat) origin cube onef all_range L1 0 2 0) (quadrupole (cs1 0%nat) origin cube onef all_range L1 0 2 1) (quadrupole (cs1 0%nat) origin cube onef all_range L1 0 2 2).
    fold q. unfold sq. ring.
  - intros [j n] I. apply (HL1 0%nat ltac:(lia)) in I. destruct I as [J _]. simpl in J. assert (j = 0)%nat as -> by lia.
    cbn [fst Nat.eqb]. unfold own_bond, stress_of, quad_mul. cbv zeta. fold q. clearbody q. unfold cut, onef, zf, all_range, co. cbn [vadd vscale vx vy vz]. unfold Rdiv. ring.
Qed.
Lemma own_two : own_virial (cs2 0%nat) pair_pos two_box onef zf all_range L2 2 = 0.
Proof.
  unfold own_virial. apply rsumf_zero. intros a Ha. apply in_seq in Ha. change (cnfstart (cs2 0%nat)) with 0%nat in Ha. change (inconf (cs2 0%nat)) with 2%nat in Ha.
  apply rsumf_zero. intros [j [[x y] z]] I. cbn [fst]. destruct (Nat.eqb_spec j a) as [->|]; auto.
  apply (HL2 a ltac:(lia)) in I. destruct I as (_ & _ & I).
  assert (D : dvec pair_pos two_box a (a, (x, y, z)) = V3 (IZR x) (IZR y) (2 * IZR z)).
  { unfold dvec; cbn [fst snd]. rewrite two_displacement. destruct (Nat.eqb a 0); f_equal; ring. }
  unfold dvec in D; cbn [fst snd] in D. rewrite D in I.
  destruct (comp_le_norm (V3 (IZR x) (IZR y) (2 * IZR z))) as (_ & _ & C). cbn [vz] in C.
  assert (Z : z = 0%Z).
  { assert (B : Rabs (2 * IZR z) < 2) by lra. apply Rabs_def2 in B. 
    assert (-1 < IZR z < 1) as [B1 B2] by lra. apply (lt_IZR (-1)) in B1. apply (lt_IZR z 1) in B2. lia. }
  unfold stress_of. unfold dvec; cbn [fst snd]. rewrite D, Z. cbn [vz]. ring.
Qed.
End Own.

Lemma halves : (exists f, geometry (only 1 1 true true f 0) origin cube (fun _ _ => 1)) /\ exists f, geometry (only 2 2 true true f 0) pair_pos two_box (fun _ _ => 1).
Proof.
  split.
  - destruct (half_exists _ _ _ _ one_full) as (f & G). exists f. exact G.
  - destruct (half_exists _ _ _ _ two_full) as (f & G). exists f. exact G.
Qed.

(** the stress of the routine is not that of the potential *)
Theorem adp_stress_refuted : exists (cs : nat -> conf) pos bx rcut u du u_range w dw w_range L,
  (forall ci, cnfstart (cs (S ci)) = (cnfstart (cs ci) + inconf (cs ci))%nat) /\
  geometry (cs 0%nat) pos bx rcut /\ (forall a, (cnfstart (cs 0%nat) <= a < cnfstart (cs 0%nat) + inconf (cs 0%nat))%nat -> all_neighbors (cs 0%nat) pos bx rcut a (L a)) /\
  (forall s t r, u s t r = u t s r) /\ (forall s t r, du s t r = du t s r) /\ (forall s t r, u_range s t r = u_range t s r) /\
  (forall s t r, w s t r = w t s r) /\ (forall s t r, dw s t r = dw t s r) /\ (forall s t r, w_range s t r = w_range t s r) /\
  (forall s t x, derivable_pt_lim (u s t) x (du s t x)) /\ (forall s t x, derivable_pt_lim (w s t) x (dw s t x)) /\
  uf (cs 0%nat) = true /\ us (cs 0%nat) = true /\
  forall bld ew sw l0 d0 natoms s, STRESS (base bld) = true ->
  str (dv (es (AdpModel.calc_forces bld zf zf all_range zf zf all_range zf zf zf zf (fun _ _ => 0) (fun _ _ => 1) (fun _ _ => 1)
     u du u_range w dw w_range ew sw l0 d0 0 1 natoms cs 1 s))) 0%nat 2%nat <>
  adp_virial (cs 0%nat) pos bx u du u_range w dw w_range L 2 / conf_vol (cs 0%nat) - stress_0 (cs 0%nat) 2%nat.
Proof.
  destruct halves as [(f & G) _]. exists (only 1 1 true true f), origin, cube, (fun _ _ => 1), zf, zf, all_range, onef, zf, all_range.
  destruct (all_neighbors_exist _ _ _ _ G) as (L & HL). exists L.
  split; [apply single_cont|]. split; [auto|]. split; [auto|]. do 6 (split; [auto|]). split; [intros; apply derivable_pt_lim_const|]. split; [intros; apply derivable_pt_lim_const|].
  split; [auto|]. split; [auto|]. intros bld ew sw l0 d0 natoms s ST.
  destruct (adp_textbook bld zf zf all_range zf zf all_range zf zf zf zf (fun _ _ => 0) (fun _ _ => 1) (fun _ _ => 1) zf zf all_range onef zf all_range ew sw l0 d0 0 1 natoms (only 1 1 true true f) 1 (single_cont _ _ _ _ _) ltac:(lia)
     origin (fun _ => cube) (fun _ _ => 1)) with (L := fun _ : nat => L) (s := s) (ci := 0%nat) as (_ & _ & _ & T); auto.
  { intros ci H. assert (ci = 0)%nat as -> by lia. auto. }
  { intros ci a H Ha. assert (ci = 0)%nat as -> by lia. auto. }
  rewrite (T ST 2%nat ltac:(lia)). change (uf (only 1 1 true true f 0) && us (only 1 1 true true f 0))%bool with true. cbv iota.
  rewrite (own_one f L HL). pose proof (q22_pos f L HL) as Q.
  assert (PV : pair_virial (only 1 1 true true f 0) origin cube zf all_range L 2 = 0).
  { unfold pair_virial. rewrite rsumf_zero; [ring|]. intros a _. apply rsumf_zero. intros v _. unfold bond_force, zf, stress_of. destruct (active _ _ _ _ _ _); simpl; unfold Rdiv; ring. }
  match goal with |- context[embed_virial ?a ?b ?c ?d ?e ?g ?h ?i ?j ?k] => assert (EV : embed_virial a b c d e g h i j k = 0) end.
  { unfold embed_virial. rewrite rsumf_zero; [ring|]. intros a _. apply rsumf_zero. intros v _. unfold embed_bond, stress_of.
    simpl seq. unfold rsumf; simpl map; unfold Vec.rsum; cbn [fold_right]. unfold dtrans, zf, all_range. cbn [vscale vz]. unfold Rdiv. ring. }
  rewrite PV, EV. change (conf_vol (only 1 1 true true f 0)) with 1. set (q0 := quadrupole _ _ _ _ _ _ _ 2 0) in *. set (q1 := quadrupole _ _ _ _ _ _ _ 2 1) in *. set (q2 := quadrupole _ _ _ _ _ _ _ 2 2) in *.
  set (av := adp_virial _ _ _ _ _ _ _ _ _ _ _). unfold sq. pose proof (Rle_0_sqr q0). pose proof (Rle_0_sqr q1). unfold Rsqr in *. nra.
Qed.

(** and it depends on the cell *)
Theorem adp_cells_refuted : exists (cs1 cs2 : nat -> conf) pos1 pos2 bx1 bx2 rcut u du u_range w dw w_range m tau,
  (forall ci, cnfstart (cs1 (S ci)) = (cnfstart (cs1 ci) + inconf (cs1 ci))%nat) /\
  (forall ci, cnfstart (cs2 (S ci)) = (cnfstart (cs2 ci) + inconf (cs2 ci))%nat) /\
  geometry (cs1 0%nat) pos1 bx1 rcut /\ geometry (cs2 0%nat) pos2 bx2 rcut /\
  same_crystal (cs1 0%nat) (cs2 0%nat) pos1 pos2 bx1 bx2 m tau /\
  stress_0 (cs1 0%nat) = stress_0 (cs2 0%nat) /\
  forall bld ew sw l0 d0 natoms s, STRESS (base bld) = true ->
  str (dv (es (AdpModel.calc_forces bld zf zf all_range zf zf all_range zf zf zf zf (fun _ _ => 0) (fun _ _ => 1) (fun _ _ => 1)
     u du u_range w dw w_range ew sw l0 d0 0 1 natoms cs2 1 s))) 0%nat 2%nat <
  str (dv (es (AdpModel.calc_forces bld zf zf all_range zf zf all_range zf zf zf zf (fun _ _ => 0) (fun _ _ => 1) (fun _ _ => 1)
     u du u_range w dw w_range ew sw l0 d0 0 1 natoms cs1 1 s))) 0%nat 2%nat.
Proof.
  destruct halves as [(f1 & G1) (f2 & G2)].
  exists (only 1 1 true true f1), (only 2 2 true true f2), origin, pair_pos, cube, two_box, (fun _ _ => 1), zf, zf, all_range, onef, zf, all_range, 2%nat, (tau 1 1 2 (one 0) (two_atoms 0)).
  assert (SC : same_crystal (only 1 1 true true f1 0) (only 2 2 true true f2 0) origin pair_pos cube two_box 2 (tau 1 1 2 (one 0) (two_atoms 0))).
  { destruct two_same as [A B C D E I J K M]. constructor; auto. }
  split; [apply single_cont|]. split; [apply single_cont|]. split; [auto|]. split; [auto|]. split; [auto|]. split; [auto|].
  intros bld ew sw l0 d0 natoms s ST.
  destruct (all_neighbors_exist _ _ _ _ G1) as (L1 & HL1). destruct (all_neighbors_exist _ _ _ _ G2) as (L2 & HL2).
  destruct (adp_cells bld zf zf all_range zf zf all_range zf zf zf zf (fun _ _ => 0) (fun _ _ => 1) (fun _ _ => 1) zf zf all_range onef zf all_range ew sw ew sw l0 l0 d0 d0 0 0 1 natoms natoms
    (only 1 1 true true f1) (only 2 2 true true f2) 1 1 ST ltac:(lia) (single_cont _ _ _ _ _) (single_cont _ _ _ _ _)) with (pos1 := origin) (pos2 := pair_pos) (bx1 := fun _ : nat => cube) (bx2 := fun _ : nat => two_box)
    (rcut := fun _ _ : nat => 1) (L1 := fun _ : nat => L1) (L2 := fun _ : nat => L2) (x := 0%nat) (y := 0%nat) (m := 2%nat) (tau := tau 1 1 2 (one 0) (two_atoms 0)) (s1 := s) (s2 := s) as (_ & T); auto.
  { intros ci H. assert (ci = 0)%nat as -> by lia. auto. }
  { intros ci H. assert (ci = 0)%nat as -> by lia. auto. }
  { intros ci a H Ha. assert (ci = 0)%nat as -> by lia. auto. }
  { intros ci a H Ha. assert (ci = 0)%nat as -> by lia. auto. }
  { change (conf_vol (only 1 1 true true f1 0)) with 1. lra. }
  { intros A N _. apply super_lat. }
  specialize (T 2%nat ltac:(lia)). cbv beta in T. rewrite (own_one f1 L1 HL1), (own_two f2 L2 HL2) in T. pose proof (q22_pos f1 L1 HL1) as Q.
  change (stress_0 (only 1 1 true true f1 0) 2%nat) with 0 in T. change (stress_0 (only 2 2 true true f2 0) 2%nat) with 0 in T.
  change (conf_vol (only 1 1 true true f1 0)) with 1 in T.
  match type of T with ?a + 0 - _ = ?b + 0 - _ => set (A := a) in *; set (B := b) in * end. clearbody A B.
  set (q0 := quadrupole _ _ _ _ _ _ _ 2 0) in *. set (q1 := quadrupole _ _ _ _ _ _ _ 2 1) in *. set (q2 := quadrupole _ _ _ _ _ _ _ 2 2) in *.
  unfold sq, Rdiv in T. rewrite Rmult_0_l in T. pose proof (Rle_0_sqr q0). pose proof (Rle_0_sqr q1). unfold Rsqr in *. nra.
Qed.
