(** The routine for EAM with electrostatics is the sum of two other ones; C32. *)
From Coq Require Import Reals ZArith List Bool Lia Lra.
From Verif Require Import Vec NbrModel NbrProof NbrProof2 LoopUtil PairModel PairProof PairSpec PairProof2 PairProof3 AddProof BondProof FuncModel CellSpec CellProof CellProof3
  EamModel EamProof EamSpec EamProof2 EamProof3 EamProof4 EamProof7 ElSpec ElModel ElProof ElProof2 ElProof3 ElProof5 ElProof6 ElProof12 EeModel EeProof EeProof2 EeProof3.
Import ListNotations.
Local Open Scope R_scope.

Section Sum.
Variable bld : build.
Variable NOPUNISH DIPOLE : bool.
Variables phi dphi : nat -> nat -> R -> R.
Variable in_range : nat -> nat -> R -> bool.
Variables dens ddens : nat -> nat -> R -> R.
Variable reach : nat -> nat -> R -> bool.
Variables F dF : nat -> nat -> R -> R.
Variables fbegin fend : nat -> nat -> R.
Variables charge alpha : nat -> R.
Variables dpb dpc : nat -> nat -> R.
Variables fel gel ggel : R -> R.
Variables dp_cut dp_tol dp_mix self_coef : R.
Variables eweight sweight : R.
Variable limit_0 : nat -> R.
Variable dummy_0 : nat -> R.
Variable punish : R.
Variables ntypes natoms : nat.
Variables (cs : nat -> conf) (nconf : nat).
Hypothesis CONT : forall ci, cnfstart (cs (S ci)) = (cnfstart (cs ci) + inconf (cs ci))%nat.
Hypothesis NT : (0 < ntypes)%nat.
Hypothesis PS : forall s t r, phi s t r = phi t s r.
Hypothesis DS : forall s t r, dphi s t r = dphi t s r.
Hypothesis IS : forall s t r, in_range s t r = in_range t s r.
Hypothesis BS : forall s t, dpb s t = dpb t s.
Hypothesis CS : forall s t, dpc s t = dpc t s.
Hypothesis BE : forall b t, fbegin b t <= fend b t.
Variables (pos : nat -> vec) (bx : nat -> box) (rcut : nat -> nat -> R).
Hypothesis GEO : forall ci, (ci < nconf)%nat -> geometry (cs ci) pos (bx ci) rcut.
Hypothesis OK : forall ci, (ci < nconf)%nat -> DIPOLE = true -> alike charge alpha (cs ci) /\ all_charged charge alpha (cs ci).
Notation ee s := (EeModel.calc_forces bld NOPUNISH DIPOLE phi dphi in_range dens ddens reach F dF fbegin fend charge alpha dpb dpc fel gel ggel dp_cut dp_tol dp_mix self_coef eweight sweight limit_0 dummy_0 punish ntypes natoms cs nconf s).
Notation el s := (ElModel.calc_forces bld DIPOLE phi dphi in_range charge alpha dpb dpc fel gel ggel dp_cut dp_tol dp_mix self_coef eweight sweight punish cs nconf s).
Notation em s := (EamModel.calc_forces (eb bld NOPUNISH) phi dphi none dens ddens reach F dF F dF fbegin fend fbegin eweight sweight limit_0 dummy_0 punish ntypes natoms cs nconf s).
Lemma lists : exists L, forall ci a, (ci < nconf)%nat -> (cnfstart (cs ci) <= a < cnfstart (cs ci) + inconf (cs ci))%nat -> all_neighbors (cs ci) pos (bx ci) rcut a (L ci a).
Proof.
  revert GEO. generalize nconf as n. intros n. induction n; intros G.
  - exists (fun _ _ => []). intros; lia.
  - destruct IHn as (L & HL); [intros; apply G; lia|]. destruct (all_neighbors_exist (cs n) pos (bx n) rcut (G n ltac:(lia))) as (M & HM).
    exists (fun ci => if Nat.eqb ci n then M else L ci). intros ci a H Ha. destruct (Nat.eqb_spec ci n) as [E|N]; [rewrite E in *; auto|apply HL; auto; lia].
Qed.
Lemma no_pairs : forall ci L, pair_energy (cs ci) pos (bx ci) phi none L = 0 /\ (forall k, pair_virial (cs ci) pos (bx ci) dphi none L k = 0) /\ (forall a, pair_force (cs ci) pos (bx ci) dphi none L a = v0).
Proof.
  intros ci L. split; [|split].
  - unfold pair_energy. rewrite rsumf_zero; [ring|]. intros a _. apply rsumf_zero. reflexivity.
  - intros k. unfold pair_virial. rewrite rsumf_zero; [ring|]. intros a _. apply rsumf_zero. intros v _. change (bond_force (cs ci) pos (bx ci) dphi none a v) with v0.
    destruct k as [|[|[|[|[|]]]]]; cbn; ring.
  - intros a. unfold pair_force, vsum. change (fun v => vx (bond_force (cs ci) pos (bx ci) dphi none a v)) with (fun _ : nat * image => 0).
    change (fun v => vy (bond_force (cs ci) pos (bx ci) dphi none a v)) with (fun _ : nat * image => 0). change (fun v => vz (bond_force (cs ci) pos (bx ci) dphi none a v)) with (fun _ : nat * image => 0).
    rewrite !rsumf_zero by auto. auto.
Qed.
Theorem ee_is_sum : forall e d v e2, let r := ee (mk_eest e d) in let r1 := edv (el (mk_elst v d)) in let r2 := dv (em e2) in
  forall ci, (ci < nconf)%nat -> let c := cs ci in
  en (dv (ees r)) ci + energy_0 c = (en r1 ci + energy_0 c) + (en r2 ci + energy_0 c) /\
  (uf c = true -> us c = true -> STRESS bld = true -> forall k, (k < 6)%nat ->
     str (dv (ees r)) ci k + stress_0 c k = (str r1 ci k + stress_0 c k) + (str r2 ci k + stress_0 c k)) /\
  (uf c = true -> FWEIGHT bld = false -> forall a, (cnfstart c <= a < cnfstart c + inconf c)%nat ->
     vadd (frc (dv (ees r)) a) (force_0 c a) = vadd (vadd (frc r1 a) (force_0 c a)) (vadd (frc r2 a) (force_0 c a))).
Proof.
  intros e d v e2 r r1 r2 ci H c. destruct lists as (L & HL).
  pose proof (ee_values bld NOPUNISH DIPOLE phi dphi in_range dens ddens reach F dF fbegin fend charge alpha dpb dpc fel gel ggel dp_cut dp_tol dp_mix self_coef eweight sweight limit_0 dummy_0 punish ntypes natoms cs nconf
    CONT NT PS DS IS BS CS BE pos bx rcut GEO L HL OK e d ci H) as (A1 & _ & A3 & A4).
  pose proof (el_values bld DIPOLE phi dphi in_range charge alpha dpb dpc fel gel ggel dp_cut dp_tol dp_mix self_coef eweight sweight punish cs nconf CONT PS DS IS BS CS pos bx rcut GEO L HL (fun ci H DD => proj2 (OK ci H DD)) (mk_elst v d) ci H) as (B1 & _ & B3 & B4).
  assert (NEST : bands_nested (eb bld NOPUNISH) reach) by (intros X; discriminate).
  pose proof (eam_textbook (eb bld NOPUNISH) phi dphi none dens ddens reach F dF F dF fbegin fend fbegin eweight sweight limit_0 dummy_0 punish ntypes natoms cs nconf CONT NT pos bx rcut GEO L HL PS DS (fun _ _ _ => eq_refl) NEST e2 ci H) as (D1 & _ & D3 & D4).
  rewrite (ee_dipoles bld NOPUNISH DIPOLE phi dphi in_range dens ddens reach F dF fbegin fend charge alpha dpb dpc fel gel ggel dp_cut dp_tol dp_mix self_coef eweight sweight limit_0 dummy_0 punish ntypes natoms cs nconf
    NT PS DS IS BS CS pos bx rcut GEO L HL OK e d bld v) in A1, A3, A4.
  fold r in A1, A3, A4. fold r1 in B1, B3, B4. fold r2 in D1, D3, D4. fold c in A1, A3, A4, B1, B3, B4, D1, D3, D4. cbv zeta in A1, A3, A4, B1, B3, B4, D1, D3, D4.
  destruct (no_pairs ci (L ci)) as (Z1 & Z2 & Z3). fold c in Z1, Z2, Z3.
  assert (EB : forall a w, embed_bond c pos (bx ci) 1 dens ddens reach (dEu (eb bld NOPUNISH) F dF F dF fbegin fend fbegin) (L ci) a w =
      embed_bond c pos (bx ci) 1 dens ddens reach (cutdF dF fbegin fend) (L ci) a w) by (intros; apply bond_cut; auto).
  split; [|split].
  - rewrite A3, B3, D3, Z1. change (nbands (eb bld NOPUNISH)) with 1%nat.
    replace (embed_energy c pos (bx ci) 1 dens reach (Eu (eb bld NOPUNISH) F dF F dF fbegin fend fbegin) (L ci)) with (embed_energy c pos (bx ci) 1 dens reach (cutF F fbegin fend) (L ci)).
    + unfold eenergy, Rdiv. ring.
    + unfold embed_energy. apply rsumf_ext. intros a _. apply rsumf_ext. intros b _. rewrite E_cut by auto. auto.
  - intros U1 U2 ST k K. rewrite (A4 ST k K), (B4 ST k K), (D4 ST k K), Z2, U1, U2. cbn [andb]. change (nbands (eb bld NOPUNISH)) with 1%nat.
    replace (embed_virial c pos (bx ci) 1 dens ddens reach (dEu (eb bld NOPUNISH) F dF F dF fbegin fend fbegin) (L ci) k) with (embed_virial c pos (bx ci) 1 dens ddens reach (cutdF dF fbegin fend) (L ci) k).
    + unfold evirial, Rdiv. ring.
    + unfold embed_virial. f_equal. f_equal. apply rsumf_ext. intros a _. apply rsumf_ext. intros w _. rewrite EB. auto.
  - intros U FW a Ha. rewrite (A1 U a Ha), (B1 U a Ha), (D1 U a Ha). unfold eam_force, fscale, fscale_e. change (base (eb bld NOPUNISH)) with bld. rewrite FW, Z3. change (nbands (eb bld NOPUNISH)) with 1%nat.
    replace (embed_force c pos (bx ci) 1 dens ddens reach (dEu (eb bld NOPUNISH) F dF F dF fbegin fend fbegin) (L ci) a) with (embed_force c pos (bx ci) 1 dens ddens reach (cutdF dF fbegin fend) (L ci) a).
    + set (x1 := eforce _ _ _ _ _ _ _ _ _ _ _ _ _ _ _ _). set (x2 := embed_force _ _ _ _ _ _ _ _ _ _). clearbody x1 x2. vring.
    + unfold embed_force. apply vsum_ext. intros w _. rewrite EB. auto.
Qed.
End Sum.

Theorem ee_cell_independent : forall bld NOPUNISH DIPOLE phi dphi in_range dens ddens reach F dF fbegin fend charge alpha dpb dpc fel gel ggel rc tol mix self_coef ew1 sw1 ew2 sw2 l1 l2 d1 d2 pu1 pu2 nt na1 na2 cs1 cs2 n1 n2,
  STRESS bld = true -> (0 < nt)%nat ->
  (forall ci, cnfstart (cs1 (S ci)) = (cnfstart (cs1 ci) + inconf (cs1 ci))%nat) ->
  (forall ci, cnfstart (cs2 (S ci)) = (cnfstart (cs2 ci) + inconf (cs2 ci))%nat) ->
  (forall s t r, phi s t r = phi t s r) -> (forall s t r, dphi s t r = dphi t s r) ->
  (forall s t r, in_range s t r = in_range t s r) -> (forall s t, dpb s t = dpb t s) -> (forall s t, dpc s t = dpc t s) ->
  (forall b t, fbegin b t <= fend b t) ->
  forall pos1 pos2 bx1 bx2 rcut,
  (forall ci, (ci < n1)%nat -> geometry (cs1 ci) pos1 (bx1 ci) rcut) ->
  (forall ci, (ci < n2)%nat -> geometry (cs2 ci) pos2 (bx2 ci) rcut) ->
  (forall ci, (ci < n1)%nat -> DIPOLE = true -> alike charge alpha (cs1 ci) /\ all_charged charge alpha (cs1 ci)) ->
  (forall ci, (ci < n2)%nat -> DIPOLE = true -> alike charge alpha (cs2 ci) /\ all_charged charge alpha (cs2 ci)) ->
  forall x y m tau e1 e2 p1 p2, (x < n1)%nat -> (y < n2)%nat -> (0 < inconf (cs1 x))%nat -> conf_vol (cs1 x) <> 0 ->
  same_crystal (cs1 x) (cs2 y) pos1 pos2 (bx1 x) (bx2 y) m tau ->
  (forall A N, fst (tau (A, N)) = fst (tau (A, (0, 0, 0)%Z))) ->
  (forall A, (cnfstart (cs2 y) <= A < cnfstart (cs2 y) + inconf (cs2 y))%nat -> E_ind p2 A = E_ind p1 (fst (tau (A, (0, 0, 0)%Z)))) ->
  uf (cs1 x) = true -> us (cs1 x) = true -> uf (cs2 y) = true -> us (cs2 y) = true ->
  let r1 := dv (ees (EeModel.calc_forces bld NOPUNISH DIPOLE phi dphi in_range dens ddens reach F dF fbegin fend charge alpha dpb dpc fel gel ggel rc tol mix self_coef ew1 sw1 l1 d1 pu1 nt na1 cs1 n1 (mk_eest e1 p1))) in
  let r2 := dv (ees (EeModel.calc_forces bld NOPUNISH DIPOLE phi dphi in_range dens ddens reach F dF fbegin fend charge alpha dpb dpc fel gel ggel rc tol mix self_coef ew2 sw2 l2 d2 pu2 nt na2 cs2 n2 (mk_eest e2 p2))) in
  en r1 x + energy_0 (cs1 x) = en r2 y + energy_0 (cs2 y) /\
  forall k, (k < 6)%nat -> str r1 x k + stress_0 (cs1 x) k = str r2 y k + stress_0 (cs2 y) k.
Proof.
  intros bld NP DIPOLE phi dphi in_range dens ddens reach F dF fbegin fend charge alpha dpb dpc fel gel ggel rc tol mix self_coef ew1 sw1 ew2 sw2 l1 l2 d1 d2 pu1 pu2 nt na1 na2 cs1 cs2 n1 n2
    ST NT C1 C2 PS DS IS BS CS BE pos1 pos2 bx1 bx2 rcut G1 G2 O1 O2 x y m tau e1 e2 p1 p2 Hx Hy NE VO SC LAT EC U1 S1 U2 S2 r1 r2.
  set (w := zdev).
  destruct (ee_is_sum bld NP DIPOLE phi dphi in_range dens ddens reach F dF fbegin fend charge alpha dpb dpc fel gel ggel rc tol mix self_coef ew1 sw1 l1 d1 pu1 nt na1 cs1 n1 C1 NT PS DS IS BS CS BE pos1 bx1 rcut G1 O1 e1 p1 w e1 x Hx) as (A1 & A2 & _).
  destruct (ee_is_sum bld NP DIPOLE phi dphi in_range dens ddens reach F dF fbegin fend charge alpha dpb dpc fel gel ggel rc tol mix self_coef ew2 sw2 l2 d2 pu2 nt na2 cs2 n2 C2 NT PS DS IS BS CS BE pos2 bx2 rcut G2 O2 e2 p2 w e2 y Hy) as (B1 & B2 & _).
  destruct (el_cell_independent bld DIPOLE phi dphi in_range charge alpha dpb dpc fel gel ggel rc tol mix self_coef ew1 sw1 ew2 sw2 pu1 pu2 cs1 cs2 n1 n2 ST C1 C2 PS DS IS BS CS pos1 pos2 bx1 bx2 rcut G1 G2
    (fun ci H DD => proj2 (O1 ci H DD)) (fun ci H DD => proj2 (O2 ci H DD)) x y m tau (mk_elst w p1) (mk_elst w p2) Hx Hy NE VO SC LAT EC U1 S1 U2 S2) as (D1 & D2 & _).
  destruct (eam_cell_independent (eb bld NP) phi dphi none dens ddens reach F dF F dF fbegin fend fbegin ew1 sw1 ew2 sw2 l1 l2 d1 d2 pu1 pu2 nt na1 na2 cs1 cs2 n1 n2 ST NT ltac:(intros X; discriminate) C1 C2 PS DS (fun _ _ _ => eq_refl)
    pos1 pos2 bx1 bx2 rcut G1 G2 x y m tau e1 e2 Hx Hy NE VO SC (fun A N _ => LAT A N) U1 S1 U2 S2) as (F1 & F2).
  fold r1 in A1, A2. fold r2 in B1, B2. cbv zeta in *. split.
  - rewrite A1, B1, D1, F1. auto.
  - intros k K. rewrite (A2 U1 S1 ST k K), (B2 U2 S2 ST k K), (D2 k K), (F2 k K). auto.
Qed.
