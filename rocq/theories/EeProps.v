(** Force routine for EAM with electrostatics: C105, C106, C32. *)
From Coq Require Import Reals ZArith List Bool Lia Lra.
From Verif Require Import Vec NbrModel NbrProof NbrProof3 PairModel PairProof PairSpec PairProof2 PairProof3 CellSpec SwProof3 SwProof4 FuncModel
  EamModel EamSpec EamProof2 EamProof7 ElSpec ElModel ElProof2 ElProof9 ElProof10 ElProof11 EeModel EeProof EeProof2 EeProof3 EeProof4 EeProof5.
Import ListNotations.
Local Open Scope R_scope.

(** C105: the values are those of the pair, Coulomb, dipole and embedding terms.  [p] are the
    dipoles left by the routine; the embedding functions are used at densities cut to the
    range of their tables.  With dipoles, the charged atoms of a configuration have to be all
    polarisable or all not polarisable, see C106. *)
Theorem C105_textbook : forall bld NOPUNISH DIPOLE phi dphi in_range dens ddens reach F dF fbegin fend charge alpha dpb dpc fel gel ggel dp_cut dp_tol dp_mix self_coef eweight sweight limit_0 dummy_0 punish ntypes natoms cs nconf,
  (forall ci, cnfstart (cs (S ci)) = (cnfstart (cs ci) + inconf (cs ci))%nat) -> (0 < ntypes)%nat ->
  (forall s t r, phi s t r = phi t s r) -> (forall s t r, dphi s t r = dphi t s r) -> (forall s t r, in_range s t r = in_range t s r) ->
  (forall s t, dpb s t = dpb t s) -> (forall s t, dpc s t = dpc t s) -> (forall b t, fbegin b t <= fend b t) ->
  forall pos bx rcut, (forall ci, (ci < nconf)%nat -> geometry (cs ci) pos (bx ci) rcut) ->
  forall L, (forall ci a, (ci < nconf)%nat -> (cnfstart (cs ci) <= a < cnfstart (cs ci) + inconf (cs ci))%nat ->
    all_neighbors (cs ci) pos (bx ci) rcut a (L ci a)) ->
  (forall ci, (ci < nconf)%nat -> DIPOLE = true ->
     (forall a b, (cnfstart (cs ci) <= a < cnfstart (cs ci) + inconf (cs ci))%nat -> (cnfstart (cs ci) <= b < cnfstart (cs ci) + inconf (cs ci))%nat ->
        charge (typ (cs ci) b) <> 0 -> (alpha (typ (cs ci) a) <> 0 <-> alpha (typ (cs ci) b) <> 0)) /\
     (forall a, (cnfstart (cs ci) <= a < cnfstart (cs ci) + inconf (cs ci))%nat -> alpha (typ (cs ci) a) <> 0 -> charge (typ (cs ci) a) <> 0)) ->
  forall e d, let s' := EeModel.calc_forces bld NOPUNISH DIPOLE phi dphi in_range dens ddens reach F dF fbegin fend charge alpha dpb dpc fel gel ggel dp_cut dp_tol dp_mix self_coef eweight sweight limit_0 dummy_0 punish ntypes natoms cs nconf (mk_eest e d) in
  let v := dv (ees s') in let p := p_ind (eed s') in forall ci, (ci < nconf)%nat ->
  (uf (cs ci) = true -> forall a, (cnfstart (cs ci) <= a < cnfstart (cs ci) + inconf (cs ci))%nat ->
     frc v a = vscale (fscale bld cs ci a) (vsub (vadd
        (vadd (vadd (pair_force (cs ci) pos (bx ci) dphi in_range (L ci) a) (coulomb_force (cs ci) pos (bx ci) charge gel dp_cut (L ci) a))
          (if DIPOLE then dip_force (cs ci) pos (bx ci) charge gel ggel dp_cut (L ci) alpha dpb dpc p a else v0))
        (embed_force (cs ci) pos (bx ci) 1 dens ddens reach (fun b t x => dF b t (cut (fbegin b t) (fend b t) x)) (L ci) a)) (force_0 (cs ci) a))) /\
  (uf (cs ci) = false -> forall a, (cnfstart (cs ci) <= a < cnfstart (cs ci) + inconf (cs ci))%nat -> frc v a = v0) /\
  en v ci = ((pair_energy (cs ci) pos (bx ci) phi in_range (L ci) + coulomb_energy (cs ci) pos (bx ci) charge fel dp_cut (L ci) - charge_self (cs ci) charge self_coef +
     (if DIPOLE then dip_energy (cs ci) pos (bx ci) charge gel dp_cut (L ci) alpha dpb dpc p + dip_self (cs ci) alpha p else 0)) +
     embed_energy (cs ci) pos (bx ci) 1 dens reach (fun b t x => F b t (cut (fbegin b t) (fend b t) x)) (L ci)) / INR (inconf (cs ci)) - energy_0 (cs ci) /\
  (STRESS bld = true -> forall k, (k < 6)%nat -> str v ci k =
     if (uf (cs ci) && us (cs ci))%bool
     then ((pair_virial (cs ci) pos (bx ci) dphi in_range (L ci) k + coulomb_virial (cs ci) pos (bx ci) charge gel dp_cut (L ci) k +
        (if DIPOLE then dip_virial (cs ci) pos (bx ci) charge gel ggel dp_cut (L ci) alpha dpb dpc p k else 0)) +
        embed_virial (cs ci) pos (bx ci) 1 dens ddens reach (fun b t x => dF b t (cut (fbegin b t) (fend b t) x)) (L ci) k) / conf_vol (cs ci) - stress_0 (cs ci) k
     else 0).
Proof. exact ee_values. Qed.
Print Assumptions C105_textbook.
(** the dipoles are those of the electrostatic routine, see C101 - C103 *)
Theorem C105_dipoles : forall bld NOPUNISH DIPOLE phi dphi in_range dens ddens reach F dF fbegin fend charge alpha dpb dpc fel gel ggel dp_cut dp_tol dp_mix self_coef eweight sweight limit_0 dummy_0 punish ntypes natoms cs nconf,
  (0 < ntypes)%nat ->
  (forall s t r, phi s t r = phi t s r) -> (forall s t r, dphi s t r = dphi t s r) -> (forall s t r, in_range s t r = in_range t s r) ->
  (forall s t, dpb s t = dpb t s) -> (forall s t, dpc s t = dpc t s) ->
  forall pos bx rcut, (forall ci, (ci < nconf)%nat -> geometry (cs ci) pos (bx ci) rcut) ->
  forall L, (forall ci a, (ci < nconf)%nat -> (cnfstart (cs ci) <= a < cnfstart (cs ci) + inconf (cs ci))%nat ->
    all_neighbors (cs ci) pos (bx ci) rcut a (L ci a)) ->
  (forall ci, (ci < nconf)%nat -> DIPOLE = true ->
     (forall a b, (cnfstart (cs ci) <= a < cnfstart (cs ci) + inconf (cs ci))%nat -> (cnfstart (cs ci) <= b < cnfstart (cs ci) + inconf (cs ci))%nat ->
        charge (typ (cs ci) b) <> 0 -> (alpha (typ (cs ci) a) <> 0 <-> alpha (typ (cs ci) b) <> 0)) /\
     (forall a, (cnfstart (cs ci) <= a < cnfstart (cs ci) + inconf (cs ci))%nat -> alpha (typ (cs ci) a) <> 0 -> charge (typ (cs ci) a) <> 0)) ->
  forall e d b v, eed (EeModel.calc_forces bld NOPUNISH DIPOLE phi dphi in_range dens ddens reach F dF fbegin fend charge alpha dpb dpc fel gel ggel dp_cut dp_tol dp_mix self_coef eweight sweight limit_0 dummy_0 punish ntypes natoms cs nconf (mk_eest e d)) =
    edp (ElModel.calc_forces b DIPOLE phi dphi in_range charge alpha dpb dpc fel gel ggel dp_cut dp_tol dp_mix self_coef eweight sweight punish cs nconf (mk_elst v d)).
Proof. exact ee_dipoles. Qed.
Print Assumptions C105_dipoles.
Theorem C105_constraints : forall bld NOPUNISH DIPOLE phi dphi in_range dens ddens reach F dF fbegin fend charge alpha dpb dpc fel gel ggel dp_cut dp_tol dp_mix self_coef eweight sweight limit_0 dummy_0 punish ntypes natoms cs nconf,
  (forall ci, cnfstart (cs (S ci)) = (cnfstart (cs ci) + inconf (cs ci))%nat) -> (0 < ntypes)%nat ->
  (forall s t r, phi s t r = phi t s r) -> (forall s t r, dphi s t r = dphi t s r) -> (forall s t r, in_range s t r = in_range t s r) ->
  (forall s t, dpb s t = dpb t s) -> (forall s t, dpc s t = dpc t s) -> (forall b t, fbegin b t <= fend b t) ->
  forall pos bx rcut, (forall ci, (ci < nconf)%nat -> geometry (cs ci) pos (bx ci) rcut) ->
  forall L, (forall ci a, (ci < nconf)%nat -> (cnfstart (cs ci) <= a < cnfstart (cs ci) + inconf (cs ci))%nat ->
    all_neighbors (cs ci) pos (bx ci) rcut a (L ci a)) ->
  (forall ci, (ci < nconf)%nat -> DIPOLE = true ->
     (forall a b, (cnfstart (cs ci) <= a < cnfstart (cs ci) + inconf (cs ci))%nat -> (cnfstart (cs ci) <= b < cnfstart (cs ci) + inconf (cs ci))%nat ->
        charge (typ (cs ci) b) <> 0 -> (alpha (typ (cs ci) a) <> 0 <-> alpha (typ (cs ci) b) <> 0)) /\
     (forall a, (cnfstart (cs ci) <= a < cnfstart (cs ci) + inconf (cs ci))%nat -> alpha (typ (cs ci) a) <> 0 -> charge (typ (cs ci) a) <> 0)) ->
  forall e d, let s' := EeModel.calc_forces bld NOPUNISH DIPOLE phi dphi in_range dens ddens reach F dF fbegin fend charge alpha dpb dpc fel gel ggel dp_cut dp_tol dp_mix self_coef eweight sweight limit_0 dummy_0 punish ntypes natoms cs nconf (mk_eest e d) in
  (forall ci, (ci < nconf)%nat ->
     lim (ees s') ci = rsumf (fun a => outside (fbegin 0%nat (typ (cs ci) a)) (fend 0%nat (typ (cs ci) a)) (density (cs ci) pos (bx ci) dens reach (L ci) 0%nat a)) (seq (cnfstart (cs ci)) (inconf (cs ci))) - limit_0 ci) /\
  (NOPUNISH = false -> forall g, (g < ntypes)%nat ->
     dum (ees s') g = 100 * dF 0%nat g ((fbegin 0%nat g + fend 0%nat g) / 2) - dummy_0 g /\ dum (ees s') (ntypes + g)%nat = 0).
Proof. exact ee_constraints. Qed.
Print Assumptions C105_constraints.
Theorem C105_error : forall bld NOPUNISH DIPOLE phi dphi in_range dens ddens reach F dF fbegin fend charge alpha dpb dpc fel gel ggel dp_cut dp_tol dp_mix self_coef eweight sweight limit_0 dummy_0 punish ntypes natoms cs nconf,
  (forall ci, cnfstart (cs (S ci)) = (cnfstart (cs ci) + inconf (cs ci))%nat) -> (0 < ntypes)%nat ->
  (forall s t r, phi s t r = phi t s r) -> (forall s t r, dphi s t r = dphi t s r) -> (forall s t r, in_range s t r = in_range t s r) ->
  (forall s t, dpb s t = dpb t s) -> (forall s t, dpc s t = dpc t s) ->
  forall pos bx rcut, (forall ci, (ci < nconf)%nat -> geometry (cs ci) pos (bx ci) rcut) ->
  forall L, (forall ci a, (ci < nconf)%nat -> (cnfstart (cs ci) <= a < cnfstart (cs ci) + inconf (cs ci))%nat ->
    all_neighbors (cs ci) pos (bx ci) rcut a (L ci a)) ->
  (forall ci, (ci < nconf)%nat -> DIPOLE = true ->
     (forall a b, (cnfstart (cs ci) <= a < cnfstart (cs ci) + inconf (cs ci))%nat -> (cnfstart (cs ci) <= b < cnfstart (cs ci) + inconf (cs ci))%nat ->
        charge (typ (cs ci) b) <> 0 -> (alpha (typ (cs ci) a) <> 0 <-> alpha (typ (cs ci) b) <> 0)) /\
     (forall a, (cnfstart (cs ci) <= a < cnfstart (cs ci) + inconf (cs ci))%nat -> alpha (typ (cs ci) a) <> 0 -> charge (typ (cs ci) a) <> 0)) ->
  forall e d, let s' := ees (EeModel.calc_forces bld NOPUNISH DIPOLE phi dphi in_range dens ddens reach F dF fbegin fend charge alpha dpb dpc fel gel ggel dp_cut dp_tol dp_mix self_coef eweight sweight limit_0 dummy_0 punish ntypes natoms cs nconf (mk_eest e d)) in let v := dv s' in
  err v = rsumf (fun ci =>
     rsumf (fun a => if (uf (cs ci) && (negb (CONTRIB bld) || contrib (cs ci) a))%bool
                     then conf_weight (cs ci) * sqv (frc v a) else 0) (seq (cnfstart (cs ci)) (inconf (cs ci))) +
     conf_weight (cs ci) * eweight * sq (en v ci) +
     (if (STRESS bld && uf (cs ci) && us (cs ci))%bool
      then rsumf (fun k => conf_weight (cs ci) * sweight * sq (str v ci k)) (seq 0 6) else 0) +
     conf_weight (cs ci) * sq (lim s' ci)) (seq 0 nconf) + punish +
  (if NOPUNISH then 0 else rsumf (fun k => sq (dum s' k)) (seq 0 (2 * ntypes))).
Proof. exact ee_error. Qed.
Print Assumptions C105_error.
Theorem C105_forces_sum_to_zero : forall bld NOPUNISH DIPOLE phi dphi in_range dens ddens reach F dF fbegin fend charge alpha dpb dpc fel gel ggel dp_cut dp_tol dp_mix self_coef eweight sweight limit_0 dummy_0 punish ntypes natoms cs nconf,
  (forall ci, cnfstart (cs (S ci)) = (cnfstart (cs ci) + inconf (cs ci))%nat) -> (0 < ntypes)%nat ->
  (forall s t r, phi s t r = phi t s r) -> (forall s t r, dphi s t r = dphi t s r) -> (forall s t r, in_range s t r = in_range t s r) ->
  (forall s t, dpb s t = dpb t s) -> (forall s t, dpc s t = dpc t s) -> (forall b t, fbegin b t <= fend b t) ->
  forall pos bx rcut, (forall ci, (ci < nconf)%nat -> geometry (cs ci) pos (bx ci) rcut) ->
  forall L, (forall ci a, (ci < nconf)%nat -> (cnfstart (cs ci) <= a < cnfstart (cs ci) + inconf (cs ci))%nat ->
    all_neighbors (cs ci) pos (bx ci) rcut a (L ci a)) ->
  (forall ci, (ci < nconf)%nat -> DIPOLE = true ->
     (forall a b, (cnfstart (cs ci) <= a < cnfstart (cs ci) + inconf (cs ci))%nat -> (cnfstart (cs ci) <= b < cnfstart (cs ci) + inconf (cs ci))%nat ->
        charge (typ (cs ci) b) <> 0 -> (alpha (typ (cs ci) a) <> 0 <-> alpha (typ (cs ci) b) <> 0)) /\
     (forall a, (cnfstart (cs ci) <= a < cnfstart (cs ci) + inconf (cs ci))%nat -> alpha (typ (cs ci) a) <> 0 -> charge (typ (cs ci) a) <> 0)) ->
  forall e d, let v := dv (ees (EeModel.calc_forces bld NOPUNISH DIPOLE phi dphi in_range dens ddens reach F dF fbegin fend charge alpha dpb dpc fel gel ggel dp_cut dp_tol dp_mix self_coef eweight sweight limit_0 dummy_0 punish ntypes natoms cs nconf (mk_eest e d))) in
  forall ci, (ci < nconf)%nat -> uf (cs ci) = true -> FWEIGHT bld = false ->
  vsum (fun a => vadd (frc v a) (force_0 (cs ci) a)) (seq (cnfstart (cs ci)) (inconf (cs ci))) = v0.
Proof. exact ee_sum_zero. Qed.
Print Assumptions C105_forces_sum_to_zero.
(** two atoms with charges 1 and -1, both polarisable *)
Example C105_ex : (forall f, geometry (duo kinds f 0) elbow cube (fun _ _ => 12/100)) /\
  (forall f a, (a < 2)%nat -> all_neighbors (duo kinds f 0) elbow cube (fun _ _ => 12/100) a (duo_list a)) /\
  (forall t, pm1 t <> 0 /\ all_one t <> 0).
Proof.
  split; [exact (duo_geo kinds)|]. split; [exact (duo_neighbors kinds)|]. intros t. unfold pm1, all_one. split; [destruct (Nat.eqb t 0)|]; lra.
Qed.

(** C106: the energy of two atoms, of types 0 and 1, is another one when they are numbered the
    other way round ([kinds], [swap]: the types of atoms 0 and 1).  Both atoms are charged,
    only type 0 is polarisable; there are no other interactions. *)
Theorem C106_numbering_refuted : forall bld NOPUNISH tol mix eweight sweight ntypes natoms ggel, 0 < tol ->
  let calc ty := EeModel.calc_forces bld NOPUNISH true (fun _ _ _ => 0) (fun _ _ _ => 0) none (fun _ _ _ => 0) (fun _ _ _ => 0) none (fun _ _ _ => 0) (fun _ _ _ => 0)
    (fun _ _ => 0) (fun _ _ => 0) pm1 one0 (fun _ _ => 0) (fun _ _ => 0) (fun _ => 0) eighth ggel 1 tol mix 0 eweight sweight (fun _ => 0) (fun _ => 0) 0 ntypes natoms
    (duo ty false) 1 (mk_eest estart nodip) in
  en (dv (ees (calc kinds))) 0%nat <> en (dv (ees (calc swap))) 0%nat.
Proof. exact numbering. Qed.
Print Assumptions C106_numbering_refuted.
Example C106_ex : kinds 0 = 0%nat /\ kinds 1 = 1%nat /\ swap 0 = 1%nat /\ swap 1 = 0%nat /\ pm1 0 = 1 /\ pm1 1 = -1 /\ one0 0 = 1 /\ one0 1 = 0 /\
  vsub (elbow 1) (elbow 0) = V3 (1/10) 0 0.
Proof. repeat split; try reflexivity. apply vec_eq; simpl; lra. Qed.

(** The routine adds the results of the electrostatic and the EAM routine (without pair part
    in one of them), so whatever holds for both, as C32 and C72, holds here. *)
Theorem C105_is_sum : forall bld NOPUNISH DIPOLE phi dphi in_range dens ddens reach F dF fbegin fend charge alpha dpb dpc fel gel ggel dp_cut dp_tol dp_mix self_coef eweight sweight limit_0 dummy_0 punish ntypes natoms cs nconf,
  (forall ci, cnfstart (cs (S ci)) = (cnfstart (cs ci) + inconf (cs ci))%nat) -> (0 < ntypes)%nat ->
  (forall s t r, phi s t r = phi t s r) -> (forall s t r, dphi s t r = dphi t s r) -> (forall s t r, in_range s t r = in_range t s r) ->
  (forall s t, dpb s t = dpb t s) -> (forall s t, dpc s t = dpc t s) -> (forall b t, fbegin b t <= fend b t) ->
  forall pos bx rcut, (forall ci, (ci < nconf)%nat -> geometry (cs ci) pos (bx ci) rcut) ->
  (forall ci, (ci < nconf)%nat -> DIPOLE = true ->
     (forall a b, (cnfstart (cs ci) <= a < cnfstart (cs ci) + inconf (cs ci))%nat -> (cnfstart (cs ci) <= b < cnfstart (cs ci) + inconf (cs ci))%nat ->
        charge (typ (cs ci) b) <> 0 -> (alpha (typ (cs ci) a) <> 0 <-> alpha (typ (cs ci) b) <> 0)) /\
     (forall a, (cnfstart (cs ci) <= a < cnfstart (cs ci) + inconf (cs ci))%nat -> alpha (typ (cs ci) a) <> 0 -> charge (typ (cs ci) a) <> 0)) ->
  forall e d v e2, let r := EeModel.calc_forces bld NOPUNISH DIPOLE phi dphi in_range dens ddens reach F dF fbegin fend charge alpha dpb dpc fel gel ggel dp_cut dp_tol dp_mix self_coef eweight sweight limit_0 dummy_0 punish ntypes natoms cs nconf (mk_eest e d) in
  let r1 := edv (ElModel.calc_forces bld DIPOLE phi dphi in_range charge alpha dpb dpc fel gel ggel dp_cut dp_tol dp_mix self_coef eweight sweight punish cs nconf (mk_elst v d)) in
  let r2 := dv (EamModel.calc_forces (mk_ebuild bld true true NOPUNISH false) phi dphi none dens ddens reach F dF F dF fbegin fend fbegin eweight sweight limit_0 dummy_0 punish ntypes natoms cs nconf e2) in
  forall ci, (ci < nconf)%nat -> let c := cs ci in
  en (dv (ees r)) ci + energy_0 c = (en r1 ci + energy_0 c) + (en r2 ci + energy_0 c) /\
  (uf c = true -> us c = true -> STRESS bld = true -> forall k, (k < 6)%nat ->
     str (dv (ees r)) ci k + stress_0 c k = (str r1 ci k + stress_0 c k) + (str r2 ci k + stress_0 c k)) /\
  (uf c = true -> FWEIGHT bld = false -> forall a, (cnfstart c <= a < cnfstart c + inconf c)%nat ->
     vadd (frc (dv (ees r)) a) (force_0 c a) = vadd (vadd (frc r1 a) (force_0 c a)) (vadd (frc r2 a) (force_0 c a))).
Proof. exact ee_is_sum. Qed.
Print Assumptions C105_is_sum.
(** C32 for this routine. *)
Theorem C32_eam_elstat_cell_independent : forall bld NOPUNISH DIPOLE phi dphi in_range dens ddens reach F dF fbegin fend charge alpha dpb dpc fel gel ggel rc tol mix self_coef ew1 sw1 ew2 sw2 l1 l2 d1 d2 pu1 pu2 nt na1 na2 cs1 cs2 n1 n2,
  STRESS bld = true -> (0 < nt)%nat ->
  (forall ci, cnfstart (cs1 (S ci)) = (cnfstart (cs1 ci) + inconf (cs1 ci))%nat) ->
  (forall ci, cnfstart (cs2 (S ci)) = (cnfstart (cs2 ci) + inconf (cs2 ci))%nat) ->
  (forall s t r, phi s t r = phi t s r) -> (forall s t r, dphi s t r = dphi t s r) ->
  (forall s t r, in_range s t r = in_range t s r) -> (forall s t, dpb s t = dpb t s) -> (forall s t, dpc s t = dpc t s) ->
  (forall b t, fbegin b t <= fend b t) ->
  forall pos1 pos2 bx1 bx2 rcut,
  (forall ci, (ci < n1)%nat -> geometry (cs1 ci) pos1 (bx1 ci) rcut) ->
  (forall ci, (ci < n2)%nat -> geometry (cs2 ci) pos2 (bx2 ci) rcut) ->
  (forall ci, (ci < n1)%nat -> DIPOLE = true -> alike charge alpha (cs1 ci) /\ all_charged charge alpha (cs1 ci)) ->
  (forall ci, (ci < n2)%nat -> DIPOLE = true -> alike charge alpha (cs2 ci) /\ all_charged charge alpha (cs2 ci)) ->
  forall x y m tau e1 e2 p1 p2, (x < n1)%nat -> (y < n2)%nat -> (0 < inconf (cs1 x))%nat -> conf_vol (cs1 x) <> 0 ->
  same_crystal (cs1 x) (cs2 y) pos1 pos2 (bx1 x) (bx2 y) m tau ->
  (forall A N, fst (tau (A, N)) = fst (tau (A, (0, 0, 0)%Z))) ->
  (forall A, (cnfstart (cs2 y) <= A < cnfstart (cs2 y) + inconf (cs2 y))%nat -> E_ind p2 A = E_ind p1 (fst (tau (A, (0, 0, 0)%Z)))) ->
  uf (cs1 x) = true -> us (cs1 x) = true -> uf (cs2 y) = true -> us (cs2 y) = true ->
  let r1 := dv (ees (EeModel.calc_forces bld NOPUNISH DIPOLE phi dphi in_range dens ddens reach F dF fbegin fend charge alpha dpb dpc fel gel ggel rc tol mix self_coef ew1 sw1 l1 d1 pu1 nt na1 cs1 n1 (mk_eest e1 p1))) in
  let r2 := dv (ees (EeModel.calc_forces bld NOPUNISH DIPOLE phi dphi in_range dens ddens reach F dF fbegin fend charge alpha dpb dpc fel gel ggel rc tol mix self_coef ew2 sw2 l2 d2 pu2 nt na2 cs2 n2 (mk_eest e2 p2))) in
  en r1 x + energy_0 (cs1 x) = en r2 y + energy_0 (cs2 y) /\
  forall k, (k < 6)%nat -> str r1 x k + stress_0 (cs1 x) k = str r2 y k + stress_0 (cs2 y) k.
Proof. exact ee_cell_independent. Qed.
Print Assumptions C32_eam_elstat_cell_independent.
