(** MEAM: densities inside the tables, gradient, independence of the cell. *)
From Coq Require Import Reals ZArith List Bool Lia Lra Permutation.
From Verif Require Import Vec NbrModel NbrProof NbrProof2 LoopUtil PairModel PairProof PairSpec PairProof2 PairProof3
  ForceLoop BondProof GradProof CellSpec CellProof CellProof2 ThreeSpec ThreeProof ThreeProof2 ThreeProof3 ThreeProof4 ThreeProof5 AddProof AddProof2 SwModel SwProof AngSpec AngModel AngProof AngProof2
  BoProof BoProof2 EamModel MeamModel MeamSpec MeamProof MeamProof2 MeamProof3.
Import ListNotations.
Local Open Scope R_scope.

(** ** The embedding function inside its table *)
Definition in_table (bld : ebuild) (fbegin fend x : R) : Prop := fbegin <= x <= fend /\ (APOT bld = true -> RESCALE bld = false -> 1/10 <= x).
Lemma continued_in : forall bld F dF FA dFA fb fe fs x, in_table bld fb fe x -> continued (RESCALE bld) (APOT bld) F dF FA dFA fb fe fs x = (F x, dF x).
Proof.
  intros bld F dF FA dFA fb fe fs x [[H1 H2] H3]. unfold continued. destruct (RESCALE bld).
  - destruct (Rlt_dec x fb), (Rlt_dec fe x); try lra. auto.
  - destruct (APOT bld).
    + specialize (H3 eq_refl eq_refl). destruct (Rle_dec fb x), (Rle_dec x fe), (Rle_dec (1/10) x); try lra. auto.
    + destruct (Rlt_dec x fb), (Rlt_dec fe x); try lra. auto.
Qed.
Section Same.
Variables (c : conf) (pos : nat -> vec) (b : box).
Variables dens ddens : nat -> R -> R.
Variable reach : nat -> R -> bool.
Variables f df : nat -> nat -> R -> R.
Variable in2 : nat -> nat -> R -> bool.
Variables g dg E dE E' dE' : nat -> R -> R.
Variable L : nat -> list (nat * image).
Notation rho := (meam_density c pos b dens reach f in2 g L).
Hypothesis EQ : forall i, (cnfstart c <= i < cnfstart c + inconf c)%nat -> E (typ c i) (rho i) = E' (typ c i) (rho i) /\ dE (typ c i) (rho i) = dE' (typ c i) (rho i).
Lemma energy_same : meam_energy c pos b dens reach f in2 g E L = meam_energy c pos b dens reach f in2 g E' L.
Proof. apply rsumf_ext. intros i Hi. apply in_seq in Hi. apply EQ. lia. Qed.
Lemma grad_same : forall i v, (cnfstart c <= i < cnfstart c + inconf c)%nat ->
  meam_grad c pos b dens ddens reach f df in2 g dg dE L i v = meam_grad c pos b dens ddens reach f df in2 g dg dE' L i v.
Proof. intros i v Hi. unfold meam_grad. rewrite (proj2 (EQ i Hi)). auto. Qed.
Lemma force_same : forall a, (cnfstart c <= a < cnfstart c + inconf c)%nat ->
  meam_force c pos b dens ddens reach f df in2 g dg dE L a = meam_force c pos b dens ddens reach f df in2 g dg dE' L a.
Proof.
  intros a Ha. apply by_sprod. intros u. unfold meam_force. rewrite !sprod_sub, !sprod_sum. f_equal.
  - apply rsumf_ext. intros v _. rewrite grad_same by auto. auto.
  - apply rsumf_ext. intros i Hi. apply in_seq in Hi. rewrite !sprod_sum. apply rsumf_ext. intros v _. rewrite grad_same by lia. auto.
Qed.
Lemma virial_same : forall k, meam_virial c pos b dens ddens reach f df in2 g dg dE L k = meam_virial c pos b dens ddens reach f df in2 g dg dE' L k.
Proof.
  intros k. unfold meam_virial. f_equal. apply rsumf_ext. intros i Hi. apply in_seq in Hi. apply rsumf_ext. intros v _. rewrite grad_same by lia. auto.
Qed.
End Same.

Theorem meam_values_in : forall bld phi dphi in0 dens ddens reach f df in2 g dg F dF FA dFA fbegin fend fstep eweight sweight limit_0 punish natoms cs nconf,
  (forall ci, cnfstart (cs (S ci)) = (cnfstart (cs ci) + inconf (cs ci))%nat) ->
  (forall s t r, dphi s t r = dphi t s r) -> (forall s t r, in0 s t r = in0 t s r) ->
  forall pos bx rcut, (forall ci, (ci < nconf)%nat -> full_geometry (cs ci) pos (bx ci) rcut) ->
  forall L, (forall ci a, (ci < nconf)%nat -> (cnfstart (cs ci) <= a < cnfstart (cs ci) + inconf (cs ci))%nat ->
    all_neighbors (cs ci) pos (bx ci) rcut a (L ci a)) ->
  (forall ci a, (ci < nconf)%nat -> (cnfstart (cs ci) <= a < cnfstart (cs ci) + inconf (cs ci))%nat ->
     let x := meam_density (cs ci) pos (bx ci) dens reach f in2 g (L ci) a in
     fbegin (typ (cs ci) a) <= x <= fend (typ (cs ci) a) /\ (APOT bld = true -> RESCALE bld = false -> 1/10 <= x)) ->
  forall s, let s' := mdv (MeamModel.calc_forces bld phi dphi in0 dens ddens reach f df in2 g dg F dF FA dFA fbegin fend fstep eweight sweight limit_0 punish natoms cs nconf s) in
  forall ci, (ci < nconf)%nat ->
  (uf (cs ci) = true -> forall a, (cnfstart (cs ci) <= a < cnfstart (cs ci) + inconf (cs ci))%nat ->
     frc s' a = vscale (fscale (base bld) cs ci a) (vsub (vadd (pair_force (cs ci) pos (bx ci) dphi in0 (L ci) a)
        (meam_force (cs ci) pos (bx ci) dens ddens reach f df in2 g dg dF (L ci) a)) (force_0 (cs ci) a))) /\
  (uf (cs ci) = false -> forall a, (cnfstart (cs ci) <= a < cnfstart (cs ci) + inconf (cs ci))%nat -> frc s' a = v0) /\
  en s' ci = (pair_energy (cs ci) pos (bx ci) phi in0 (L ci) + meam_energy (cs ci) pos (bx ci) dens reach f in2 g F (L ci)) / INR (inconf (cs ci)) - energy_0 (cs ci) /\
  (STRESS (base bld) = true -> forall k, (k < 6)%nat -> str s' ci k =
     (if (uf (cs ci) && us (cs ci))%bool then (pair_virial (cs ci) pos (bx ci) dphi in0 (L ci) k +
        meam_virial (cs ci) pos (bx ci) dens ddens reach f df in2 g dg dF (L ci) k) / conf_vol (cs ci) else 0) - stress_0 (cs ci) k).
Proof.
  intros bld phi dphi in0 dens ddens reach f df in2 g dg F dF FA dFA fbegin fend fstep eweight sweight limit_0 punish natoms cs nconf CONT DS IS pos bx rcut FG L HL IN s s' ci H.
  destruct (meam_values bld phi dphi in0 dens ddens reach f df in2 g dg F dF FA dFA fbegin fend fstep eweight sweight limit_0 punish natoms cs nconf CONT DS IS pos bx rcut FG L HL s ci H) as (A & B & C & D).
  fold s' in A, B, C, D. clearbody s'.
  assert (EQ : forall i, (cnfstart (cs ci) <= i < cnfstart (cs ci) + inconf (cs ci))%nat ->
    let x := meam_density (cs ci) pos (bx ci) dens reach f in2 g (L ci) i in
    MeamProof.Ec bld F dF FA dFA fbegin fend fstep (typ (cs ci) i) x = F (typ (cs ci) i) x /\ MeamProof.dEc bld F dF FA dFA fbegin fend fstep (typ (cs ci) i) x = dF (typ (cs ci) i) x).
  { intros i Hi x. specialize (IN ci i H Hi). cbv zeta in IN. fold x in IN. unfold MeamProof.Ec, MeamProof.dEc. rewrite !continued_in by exact IN. auto. }
  split; [|split; [auto|split]].
  - intros U a Ha. rewrite (A U a Ha). rewrite (force_same (cs ci) pos (bx ci) dens ddens reach f df in2 g dg _ _ F dF (L ci) EQ a Ha). auto.
  - rewrite C. rewrite (energy_same (cs ci) pos (bx ci) dens reach f in2 g _ _ F dF (L ci) EQ). auto.
  - intros ON k K. rewrite (D ON k K). rewrite (virial_same (cs ci) pos (bx ci) dens ddens reach f df in2 g dg _ _ F dF (L ci) EQ k). auto.
Qed.

(** ** Gradient *)
Section Grad.
Variables (c : conf) (pos : nat -> vec) (bx : box) (rcut : nat -> nat -> R).
Hypothesis FG : full_geometry c pos bx rcut.
Notation lo := (cnfstart c).
Notation hi := (cnfstart c + inconf c)%nat.
Notation sq' := (seq (cnfstart c) (inconf c)).
Variable L : nat -> list (nat * image).
Hypothesis HL : forall a, (lo <= a < hi)%nat -> all_neighbors c pos bx rcut a (L a).
Variables (a : nat) (u : vec).
Hypothesis Ha : (lo <= a < hi)%nat.
Variables dens ddens : nat -> R -> R.
Variable reach : nat -> R -> bool.
Variables f df : nat -> nat -> R -> R.
Variable in2 : nat -> nat -> R -> bool.
Variables g dg E dE : nat -> R -> R.
Notation ds := (dist pos bx).
Notation k := (kap a).
Notation pt t := (moved pos a u t).
Definition cutd (h : nat -> R -> R) (t : nat) (r : R) : R := if reach t r then h t r else 0.
Notation rho := (meam_density c pos bx dens reach f in2 g L).
Hypothesis HD : forall i v, (lo <= i < hi)%nat -> In v (L i) -> derivable_pt_lim (cutd dens (typ c (fst v))) (ds i v) (cutd ddens (typ c (fst v)) (ds i v)).
Hypothesis HF : forall i v, (lo <= i < hi)%nat -> In v (L i) ->
  derivable_pt_lim (off in2 f (typ c i) (typ c (fst v))) (ds i v) (off in2 df (typ c i) (typ c (fst v)) (ds i v)).
Hypothesis HG : forall i x, derivable_pt_lim (g i) x (dg i x).
Hypothesis HE : forall i, (lo <= i < hi)%nat -> derivable_pt_lim (E (typ c i)) (rho i) (dE (typ c i) (rho i)).
Notation T := (tri_grad c pos bx (ang1 f df in2 g) (angc f in2 dg)).
Notation DG := (density_grad c pos bx ddens reach f df in2 g dg L).
Notation MG := (meam_grad c pos bx dens ddens reach f df in2 g dg dE L).
Lemma density_0 : forall i, meam_density c (pt 0) bx dens reach f in2 g L i = rho i.
Proof.
  intros i. unfold meam_density. f_equal; [|f_equal]; apply rsumf_ext; intros v _; [rewrite moved_d0; auto|]. apply rsumf_ext. intros w _. unfold at_. rewrite !moved_d0, moved_c0. auto.
Qed.
Lemma density_deriv : forall i, (lo <= i < hi)%nat ->
  derivable_pt_lim (fun t => meam_density c (pt t) bx dens reach f in2 g L i) 0 (rsumf (fun v => k i v * sprod u (DG i v)) (L i)).
Proof.
  intros i Hi.
  assert (D1 : derivable_pt_lim (fun t => rsumf (fun v => cutd dens (typ c (fst v)) (dist (pt t) bx i v)) (L i)) 0
    (rsumf (fun v => cutd ddens (typ c (fst v)) (ds i v) * (k i v * (sprod u (dvec pos bx i v) / ds i v))) (L i))).
  { apply (deriv_sum _ (fun v t => cutd dens (typ c (fst v)) (dist (pt t) bx i v))). intros v Hv.
    apply (derivable_pt_lim_comp (fun t => dist (pt t) bx i v) (cutd dens (typ c (fst v)))); [apply (dist_deriv' c pos bx rcut FG L HL a u i v Hi Hv)|]. rewrite moved_d0. auto. }
  assert (D2 : derivable_pt_lim (fun t => rsumf (fun v => rsumf (at_ c (pt t) bx (ang f in2 g) i v) (others L i v)) (L i)) 0
    (rsumf (fun v => rsumf (fun w => k i v * sprod u (T i v w) + k i w * sprod u (T i w v)) (others L i v)) (L i))).
  { apply (deriv_sum _ (fun v t => rsumf (at_ c (pt t) bx (ang f in2 g) i v) (others L i v))). intros v Hv.
    apply (deriv_sum _ (fun w t => at_ c (pt t) bx (ang f in2 g) i v w)). intros w Hw. apply filter_In in Hw. destruct Hw as [Hw NW].
    apply (term_deriv c pos bx rcut FG L HL a u (off in2 f) (off in2 df) (fun i _ _ => g i) (fun i _ _ => dg i)); auto.
    intros ->. rewrite same_refl in NW. discriminate. }
  eapply deriv_eq.
  - unfold meam_density. apply (derivable_pt_lim_plus (fun t => rsumf (fun v => cutd dens (typ c (fst v)) (dist (pt t) bx i v)) (L i))); [exact D1|].
    apply (derivable_pt_lim_scal (fun t => rsumf (fun v => rsumf (at_ c (pt t) bx (ang f in2 g) i v) (others L i v)) (L i))). exact D2.
  - rewrite (rsumf_ext (fun v => rsumf (fun w => k i v * sprod u (T i v w) + k i w * sprod u (T i w v)) (others L i v))
      (fun v => rsumf (fun w => k i v * sprod u (T i v w)) (others L i v) + rsumf (fun w => k i w * sprod u (T i w v)) (others L i v)))
      by (intros; apply rsumf_plus).
    rewrite rsumf_plus, (others_swap L (fun v w => k i v * sprod u (T i v w)) i).
    transitivity (rsumf (fun v => cutd ddens (typ c (fst v)) (ds i v) * (k i v * (sprod u (dvec pos bx i v) / ds i v))) (L i) + rsumf (fun v => rsumf (fun w => k i v * sprod u (T i v w)) (others L i v)) (L i)); [field|].
    rewrite <- rsumf_plus. apply rsumf_ext. intros v _. unfold density_grad. rewrite sprod_add, sprod_scale, sprod_sum, rsumf_scale. unfold cutd, Rdiv. ring.
Qed.
Theorem meam_gradient : derivable_pt_lim (fun t => meam_energy c (pt t) bx dens reach f in2 g E L) 0
  (- sprod u (meam_force c pos bx dens ddens reach f df in2 g dg dE L a)).
Proof.
  apply (deriv_eq _ _ (rsumf (fun i => dE (typ c i) (rho i) * rsumf (fun v => k i v * sprod u (DG i v)) (L i)) sq')).
  - unfold meam_energy. apply (deriv_sum _ (fun i t => E (typ c i) (meam_density c (pt t) bx dens reach f in2 g L i))). intros i Hi. apply in_seq in Hi.
    apply (derivable_pt_lim_comp (fun t => meam_density c (pt t) bx dens reach f in2 g L i) (E (typ c i))); [apply density_deriv; auto|]. rewrite density_0. auto.
  - transitivity (rsumf (fun i => rsumf (fun v => k i v * sprod u (MG i v)) (L i)) sq').
    + apply rsumf_ext. intros i _. rewrite <- rsumf_scale. apply rsumf_ext. intros v _. unfold meam_grad. rewrite sprod_scale. ring.
    + transitivity (rsumf (fun i => rsumf (fun v => if Nat.eqb (fst v) a then sprod u (MG i v) else 0) (L i) - (if Nat.eqb i a then rsumf (fun v => sprod u (MG i v)) (L i) else 0)) sq').
      * apply rsumf_ext. intros i _. rewrite <- rsumf_if, <- rsumf_minus. apply rsumf_ext. intros v _. unfold kap. destruct (Nat.eqb (fst v) a), (Nat.eqb i a); ring.
      * rewrite rsumf_minus, (pick (fun i => rsumf (fun v => sprod u (MG i v)) (L i))); [|apply seq_NoDup|apply in_seq; lia].
        unfold meam_force. rewrite sprod_sub, !sprod_sum.
        rewrite (rsumf_ext (fun i => sprod u (vsum _ (L i))) (fun i => rsumf (fun v => if Nat.eqb (fst v) a then sprod u (MG i v) else 0) (L i))); [ring|].
        intros i _. rewrite sprod_sum. apply rsumf_ext. intros v _. apply sprod_if.
Qed.
End Grad.
Theorem meam_full_gradient : forall phi dphi in0 dens ddens reach f df in2 g dg E dE c pos bx rcut, full_geometry c pos bx rcut ->
  forall L, (forall a, (cnfstart c <= a < cnfstart c + inconf c)%nat -> all_neighbors c pos bx rcut a (L a)) ->
  (forall s t r, dphi s t r = dphi t s r) -> (forall s t r, in0 s t r = in0 t s r) ->
  (forall i v, (cnfstart c <= i < cnfstart c + inconf c)%nat -> In v (L i) ->
     let r := dist pos bx i v in let s := typ c i in let t := typ c (fst v) in
     derivable_pt_lim (off in0 phi s t) r (off in0 dphi s t r) /\
     derivable_pt_lim (cutd reach dens t) r (cutd reach ddens t r) /\
     derivable_pt_lim (off in2 f s t) r (off in2 df s t r)) ->
  (forall i x, derivable_pt_lim (g i) x (dg i x)) ->
  (forall i, (cnfstart c <= i < cnfstart c + inconf c)%nat -> let x := meam_density c pos bx dens reach f in2 g L i in derivable_pt_lim (E (typ c i)) x (dE (typ c i) x)) ->
  forall a u, (cnfstart c <= a < cnfstart c + inconf c)%nat ->
  derivable_pt_lim (fun t => pair_energy c (moved pos a u t) bx phi in0 L + meam_energy c (moved pos a u t) bx dens reach f in2 g E L) 0
    (- sprod u (vadd (pair_force c pos bx dphi in0 L a) (meam_force c pos bx dens ddens reach f df in2 g dg dE L a))).
Proof.
  intros phi dphi in0 dens ddens reach f df in2 g dg E dE c pos bx rcut FG L HL DS IS DD DG DE a u Ha. destruct (half_exists c pos bx rcut FG) as (q & GEO).
  eapply deriv_eq.
  - apply (derivable_pt_lim_plus (fun t => pair_energy c (moved pos a u t) bx phi in0 L) (fun t => meam_energy c (moved pos a u t) bx dens reach f in2 g E L)).
    + apply (pair_gradient (with_nb c q) pos bx rcut GEO L HL a u Ha phi dphi in0 DS IS).
      intros i v Hi Hv. apply (DD i v Hi Hv).
    + apply (meam_gradient c pos bx rcut FG L HL a u Ha dens ddens reach f df in2 g dg E dE); auto; intros i v Hi Hv; apply (DD i v Hi Hv).
  - rewrite sprod_add. change (pair_force (with_nb c q) pos bx dphi in0 L a) with (pair_force c pos bx dphi in0 L a). ring.
Qed.

(** ** Two descriptions of one crystal *)
Section Cell.
Variables (c1 c2 : conf) (pos1 pos2 : nat -> vec) (b1 b2 : box) (m : nat) (tau : nat * image -> nat * image).
Hypothesis SC : same_crystal c1 c2 pos1 pos2 b1 b2 m tau.
Variable rcut : nat -> nat -> R.
Notation in1' i := (cnfstart c1 <= i < cnfstart c1 + inconf c1)%nat.
Notation in2' i := (cnfstart c2 <= i < cnfstart c2 + inconf c2)%nat.
Variables L1 L2 : nat -> list (nat * image).
Hypothesis HL1 : forall a, in1' a -> all_neighbors c1 pos1 b1 rcut a (L1 a).
Hypothesis HL2 : forall a, in2' a -> all_neighbors c2 pos2 b2 rcut a (L2 a).
Notation rp := (rep tau).
Notation ev := (env tau).
Variables dens ddens : nat -> R -> R.
Variable reach : nat -> R -> bool.
Variables f df : nat -> nat -> R -> R.
Variable in2 : nat -> nat -> R -> bool.
Variables g dg E dE : nat -> R -> R.
Lemma env_mdensity : forall A, in2' A -> meam_density c2 pos2 b2 dens reach f in2 g L2 A = meam_density c1 pos1 b1 dens reach f in2 g L1 (rp A).
Proof.
  intros A HA. unfold meam_density. f_equal; [|f_equal].
  - apply (env_sum _ _ _ _ _ _ _ _ SC rcut L1 L2 HL1 HL2); auto. intros B N HB. rewrite !(env_dist _ _ _ _ _ _ _ _ SC), !(env_type _ _ _ _ _ _ _ _ SC) by auto. auto.
  - apply (env_sum _ _ _ _ _ _ _ _ SC rcut L1 L2 HL1 HL2); auto. intros B N HB.
    apply (env_others _ _ _ _ _ _ _ _ SC rcut L1 L2 HL1 HL2); auto. intros C M HC. apply (env_at _ _ _ _ _ _ _ _ SC); auto.
Qed.
Theorem same_meam_energy : meam_energy c2 pos2 b2 dens reach f in2 g E L2 = INR m * meam_energy c1 pos1 b1 dens reach f in2 g E L1.
Proof.
  unfold meam_energy. pose (h := fun a => E (typ c1 a) (meam_density c1 pos1 b1 dens reach f in2 g L1 a)).
  rewrite (rsumf_ext _ (fun A => h (rp A))).
  - apply (rep_sum _ _ _ _ _ _ _ _ SC h).
  - intros A HA. apply in_seq in HA. unfold h. rewrite env_mdensity, (rep_type _ _ _ _ _ _ _ _ SC) by lia. auto.
Qed.
Theorem same_meam_virial : forall k, meam_virial c2 pos2 b2 dens ddens reach f df in2 g dg dE L2 k = INR m * meam_virial c1 pos1 b1 dens ddens reach f df in2 g dg dE L1 k.
Proof.
  intros k. unfold meam_virial. pose (h := fun a => rsumf (fun v => stress_of (dvec pos1 b1 a v) (meam_grad c1 pos1 b1 dens ddens reach f df in2 g dg dE L1 a v) k) (L1 a)).
  rewrite (rsumf_ext _ (fun A => h (rp A))).
  - rewrite (rep_sum _ _ _ _ _ _ _ _ SC h). unfold h. ring.
  - intros A HA. apply in_seq in HA. unfold h. apply (env_sum _ _ _ _ _ _ _ _ SC rcut L1 L2 HL1 HL2); [lia|]. intros B N HB.
    rewrite (env_dvec _ _ _ _ _ _ _ _ SC) by (auto; lia). f_equal. unfold meam_grad. rewrite env_mdensity, (rep_type _ _ _ _ _ _ _ _ SC) by lia. f_equal.
    unfold density_grad. rewrite !(env_dist _ _ _ _ _ _ _ _ SC), !(env_dvec _ _ _ _ _ _ _ _ SC), !(env_type _ _ _ _ _ _ _ _ SC) by (auto; lia). f_equal.
    apply (env_vothers _ _ _ _ _ _ _ _ SC rcut L1 L2 HL1 HL2 A B N); try lia; auto. intros C M HC. apply (env_grad _ _ _ _ _ _ _ _ SC); auto; lia.
Qed.
End Cell.
Theorem meam_cell_independent : forall bld phi dphi in0 dens ddens reach f df in2 g dg F dF FA dFA fbegin fend fstep
  ew1 sw1 ew2 sw2 l1 l2 pu1 pu2 na1 na2 cs1 cs2 n1 n2,
  STRESS (base bld) = true ->
  (forall s t r, dphi s t r = dphi t s r) -> (forall s t r, in0 s t r = in0 t s r) ->
  (forall ci, cnfstart (cs1 (S ci)) = (cnfstart (cs1 ci) + inconf (cs1 ci))%nat) ->
  (forall ci, cnfstart (cs2 (S ci)) = (cnfstart (cs2 ci) + inconf (cs2 ci))%nat) ->
  forall pos1 pos2 bx1 bx2 rcut,
  (forall ci, (ci < n1)%nat -> full_geometry (cs1 ci) pos1 (bx1 ci) rcut) ->
  (forall ci, (ci < n2)%nat -> full_geometry (cs2 ci) pos2 (bx2 ci) rcut) ->
  forall x y m tau s1 s2, (x < n1)%nat -> (y < n2)%nat -> (0 < inconf (cs1 x))%nat -> conf_vol (cs1 x) <> 0 ->
  same_crystal (cs1 x) (cs2 y) pos1 pos2 (bx1 x) (bx2 y) m tau ->
  uf (cs1 x) = true -> us (cs1 x) = true -> uf (cs2 y) = true -> us (cs2 y) = true ->
  let r1 := mdv (MeamModel.calc_forces bld phi dphi in0 dens ddens reach f df in2 g dg F dF FA dFA fbegin fend fstep ew1 sw1 l1 pu1 na1 cs1 n1 s1) in
  let r2 := mdv (MeamModel.calc_forces bld phi dphi in0 dens ddens reach f df in2 g dg F dF FA dFA fbegin fend fstep ew2 sw2 l2 pu2 na2 cs2 n2 s2) in
  en r1 x + energy_0 (cs1 x) = en r2 y + energy_0 (cs2 y) /\
  forall k, (k < 6)%nat -> str r1 x k + stress_0 (cs1 x) k = str r2 y k + stress_0 (cs2 y) k.
Proof.
  intros bld phi dphi in0 dens ddens reach f df in2 g dg F dF FA dFA fbegin fend fstep ew1 sw1 ew2 sw2 l1 l2 pu1 pu2 na1 na2 cs1 cs2 n1 n2 ST DS IS C1 C2 pos1 pos2 bx1 bx2 rcut G1 G2
    x y m tau s1 s2 Hx Hy NE VO SC U1 S1 U2 S2 r1 r2.
  destruct (full_neighbors_all rcut n1 cs1 pos1 bx1 G1) as (L1 & HL1). destruct (full_neighbors_all rcut n2 cs2 pos2 bx2 G2) as (L2 & HL2).
  destruct (meam_values bld phi dphi in0 dens ddens reach f df in2 g dg F dF FA dFA fbegin fend fstep ew1 sw1 l1 pu1 na1 cs1 n1 C1 DS IS pos1 bx1 rcut G1 L1 HL1 s1 x Hx) as (_ & _ & E1 & T1).
  destruct (meam_values bld phi dphi in0 dens ddens reach f df in2 g dg F dF FA dFA fbegin fend fstep ew2 sw2 l2 pu2 na2 cs2 n2 C2 DS IS pos2 bx2 rcut G2 L2 HL2 s2 y Hy) as (_ & _ & E2 & T2).
  fold r1 in E1, T1. fold r2 in E2, T2. clearbody r1 r2.
  pose proof (sc_m _ _ _ _ _ _ _ _ SC) as MP. assert (MR : INR m <> 0) by (apply not_0_INR; lia).
  assert (NR : INR (inconf (cs1 x)) <> 0) by (apply not_0_INR; lia).
  assert (H1 : forall a, (cnfstart (cs1 x) <= a < cnfstart (cs1 x) + inconf (cs1 x))%nat -> all_neighbors (cs1 x) pos1 (bx1 x) rcut a (L1 x a)) by (intros; apply HL1; auto).
  assert (H2 : forall a, (cnfstart (cs2 y) <= a < cnfstart (cs2 y) + inconf (cs2 y))%nat -> all_neighbors (cs2 y) pos2 (bx2 y) rcut a (L2 y a)) by (intros; apply HL2; auto).
  split.
  - rewrite E1, E2, (sc_number _ _ _ _ _ _ _ _ SC), mult_INR.
    rewrite (same_energy _ _ _ _ _ _ _ _ SC rcut _ _ (L1 x) (L2 y) H1 H2), (same_meam_energy _ _ _ _ _ _ _ _ SC rcut (L1 x) (L2 y) H1 H2). field. auto.
  - intros k K. rewrite (T1 ST k K), (T2 ST k K), U1, S1, U2, S2, (sc_volume _ _ _ _ _ _ _ _ SC). cbn [andb].
    rewrite (same_virial _ _ _ _ _ _ _ _ SC rcut _ _ (L1 x) (L2 y) H1 H2), (same_meam_virial _ _ _ _ _ _ _ _ SC rcut (L1 x) (L2 y) H1 H2). field. auto.
Qed.
