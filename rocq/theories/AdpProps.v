(** Force routine of the angular dependent potential: C95, C96 (with the EAM routine), C72, C32. *)
From Coq Require Import Reals ZArith List Bool.
From Verif Require Import Vec NbrModel NbrProof NbrProof3 PairModel PairProof PairSpec PairProof2 PairProof3
  EamModel EamProof EamSpec EamProof3 EamProof5 GradProof CellSpec AdpModel AdpSpec AdpProof3 AdpProof5 AdpProof6 SwProof3.
Import ListNotations.
Local Open Scope R_scope.

(** C95.  [geometry]: lists of init_neighbors; the sums on the right run over the lists L of
    all neighbours.  All densities inside the tables; for the stress no atom interacts with an
    image of itself by the function w. *)
Theorem C95_textbook_adp_partial : forall bld phi dphi in_range dens ddens reach F dF FA dFA fbegin fend fstep u du u_range w dw w_range
  eweight sweight limit_0 dummy_0 punish ntypes natoms cs nconf,
  (forall ci, cnfstart (cs (S ci)) = (cnfstart (cs ci) + inconf (cs ci))%nat) -> (0 < ntypes)%nat ->
  forall pos bx rcut, (forall ci, (ci < nconf)%nat -> geometry (cs ci) pos (bx ci) rcut) ->
  forall L, (forall ci a, (ci < nconf)%nat -> (cnfstart (cs ci) <= a < cnfstart (cs ci) + inconf (cs ci))%nat ->
    all_neighbors (cs ci) pos (bx ci) rcut a (L ci a)) ->
  (forall s t r, phi s t r = phi t s r) -> (forall s t r, dphi s t r = dphi t s r) ->
  (forall s t r, in_range s t r = in_range t s r) ->
  (forall s t r, u s t r = u t s r) -> (forall s t r, du s t r = du t s r) -> (forall s t r, u_range s t r = u_range t s r) ->
  (forall s t r, w s t r = w t s r) -> (forall s t r, dw s t r = dw t s r) -> (forall s t r, w_range s t r = w_range t s r) ->
  (forall ci a, (ci < nconf)%nat -> (cnfstart (cs ci) <= a < cnfstart (cs ci) + inconf (cs ci))%nat ->
     let x := density (cs ci) pos (bx ci) dens reach (L ci) 0 a in
     fbegin 0%nat (typ (cs ci) a) <= x <= fend 0%nat (typ (cs ci) a) /\ (APOT bld = true -> RESCALE bld = false -> 1/10 <= x)) ->
  forall s, let s' := es (AdpModel.calc_forces bld phi dphi in_range dens ddens reach F dF FA dFA fbegin fend fstep
                        u du u_range w dw w_range eweight sweight limit_0 dummy_0 punish ntypes natoms cs nconf s) in
  forall ci, (ci < nconf)%nat ->
  (uf (cs ci) = true -> forall a, (cnfstart (cs ci) <= a < cnfstart (cs ci) + inconf (cs ci))%nat ->
     frc (dv s') a = vscale (fscale_a bld cs ci a) (vsub (vadd (vadd (pair_force (cs ci) pos (bx ci) dphi in_range (L ci) a)
        (embed_force (cs ci) pos (bx ci) 1 dens ddens reach dF (L ci) a))
        (adp_force (cs ci) pos (bx ci) u du u_range w dw w_range (L ci) a)) (force_0 (cs ci) a))) /\
  (uf (cs ci) = false -> forall a, (cnfstart (cs ci) <= a < cnfstart (cs ci) + inconf (cs ci))%nat -> frc (dv s') a = v0) /\
  en (dv s') ci = (pair_energy (cs ci) pos (bx ci) phi in_range (L ci) + embed_energy (cs ci) pos (bx ci) 1 dens reach F (L ci) +
     adp_energy (cs ci) pos (bx ci) u u_range w w_range (L ci)) / INR (inconf (cs ci)) - energy_0 (cs ci) /\
  (STRESS (base bld) = true ->
   (forall a v, (cnfstart (cs ci) <= a < cnfstart (cs ci) + inconf (cs ci))%nat -> In v (L ci a) -> fst v = a ->
      w_range (typ (cs ci) a) (typ (cs ci) a) (dist pos (bx ci) a v) = false) ->
   forall k, (k < 6)%nat -> str (dv s') ci k =
     if (uf (cs ci) && us (cs ci))%bool
     then (pair_virial (cs ci) pos (bx ci) dphi in_range (L ci) k + embed_virial (cs ci) pos (bx ci) 1 dens ddens reach dF (L ci) k +
           adp_virial (cs ci) pos (bx ci) u du u_range w dw w_range (L ci) k) / conf_vol (cs ci) - stress_0 (cs ci) k else 0).
Proof. exact adp_textbook_in. Qed.
Print Assumptions C95_textbook_adp_partial.
(** Without these conditions: [Eu] and [dEu] are the embedding function as continued beyond its
    table, and the stress has the terms [own_virial] of the bonds to own images too much. *)
Theorem C95_any_density : forall bld phi dphi in_range dens ddens reach F dF FA dFA fbegin fend fstep u du u_range w dw w_range
  eweight sweight limit_0 dummy_0 punish ntypes natoms cs nconf,
  (forall ci, cnfstart (cs (S ci)) = (cnfstart (cs ci) + inconf (cs ci))%nat) -> (0 < ntypes)%nat ->
  forall pos bx rcut, (forall ci, (ci < nconf)%nat -> geometry (cs ci) pos (bx ci) rcut) ->
  forall L, (forall ci a, (ci < nconf)%nat -> (cnfstart (cs ci) <= a < cnfstart (cs ci) + inconf (cs ci))%nat ->
    all_neighbors (cs ci) pos (bx ci) rcut a (L ci a)) ->
  (forall s t r, phi s t r = phi t s r) -> (forall s t r, dphi s t r = dphi t s r) ->
  (forall s t r, in_range s t r = in_range t s r) ->
  (forall s t r, u s t r = u t s r) -> (forall s t r, du s t r = du t s r) -> (forall s t r, u_range s t r = u_range t s r) ->
  (forall s t r, w s t r = w t s r) -> (forall s t r, dw s t r = dw t s r) -> (forall s t r, w_range s t r = w_range t s r) ->
  forall s, let s' := es (AdpModel.calc_forces bld phi dphi in_range dens ddens reach F dF FA dFA fbegin fend fstep
                        u du u_range w dw w_range eweight sweight limit_0 dummy_0 punish ntypes natoms cs nconf s) in
  let E := Eu (one_band bld) F dF FA dFA fbegin fend fstep in
  let dE := dEu (one_band bld) F dF FA dFA fbegin fend fstep in
  forall ci, (ci < nconf)%nat ->
  (uf (cs ci) = true -> forall a, (cnfstart (cs ci) <= a < cnfstart (cs ci) + inconf (cs ci))%nat ->
     frc (dv s') a = vscale (fscale_a bld cs ci a) (vsub (vadd (vadd (pair_force (cs ci) pos (bx ci) dphi in_range (L ci) a)
        (embed_force (cs ci) pos (bx ci) 1 dens ddens reach dE (L ci) a))
        (adp_force (cs ci) pos (bx ci) u du u_range w dw w_range (L ci) a)) (force_0 (cs ci) a))) /\
  (uf (cs ci) = false -> forall a, (cnfstart (cs ci) <= a < cnfstart (cs ci) + inconf (cs ci))%nat -> frc (dv s') a = v0) /\
  en (dv s') ci = (pair_energy (cs ci) pos (bx ci) phi in_range (L ci) + embed_energy (cs ci) pos (bx ci) 1 dens reach E (L ci) +
     adp_energy (cs ci) pos (bx ci) u u_range w w_range (L ci)) / INR (inconf (cs ci)) - energy_0 (cs ci) /\
  (STRESS (base bld) = true ->
   forall k, (k < 6)%nat -> str (dv s') ci k =
     if (uf (cs ci) && us (cs ci))%bool
     then (pair_virial (cs ci) pos (bx ci) dphi in_range (L ci) k + embed_virial (cs ci) pos (bx ci) 1 dens ddens reach dE (L ci) k +
           adp_virial (cs ci) pos (bx ci) u du u_range w dw w_range (L ci) k +
           own_virial (cs ci) pos (bx ci) w dw w_range (L ci) k) / conf_vol (cs ci) - stress_0 (cs ci) k else 0).
Proof. exact adp_textbook. Qed.
Print Assumptions C95_any_density.
Theorem C95_forces_sum_to_zero : forall bld phi dphi in_range dens ddens reach F dF FA dFA fbegin fend fstep u du u_range w dw w_range
  eweight sweight limit_0 dummy_0 punish ntypes natoms cs nconf,
  (forall ci, cnfstart (cs (S ci)) = (cnfstart (cs ci) + inconf (cs ci))%nat) -> (0 < ntypes)%nat ->
  forall pos bx rcut, (forall ci, (ci < nconf)%nat -> geometry (cs ci) pos (bx ci) rcut) ->
  forall L, (forall ci a, (ci < nconf)%nat -> (cnfstart (cs ci) <= a < cnfstart (cs ci) + inconf (cs ci))%nat ->
    all_neighbors (cs ci) pos (bx ci) rcut a (L ci a)) ->
  (forall s t r, phi s t r = phi t s r) -> (forall s t r, dphi s t r = dphi t s r) ->
  (forall s t r, in_range s t r = in_range t s r) ->
  (forall s t r, u s t r = u t s r) -> (forall s t r, du s t r = du t s r) -> (forall s t r, u_range s t r = u_range t s r) ->
  (forall s t r, w s t r = w t s r) -> (forall s t r, dw s t r = dw t s r) -> (forall s t r, w_range s t r = w_range t s r) ->
  forall s, let s' := es (AdpModel.calc_forces bld phi dphi in_range dens ddens reach F dF FA dFA fbegin fend fstep
                        u du u_range w dw w_range eweight sweight limit_0 dummy_0 punish ntypes natoms cs nconf s) in
  forall ci, (ci < nconf)%nat -> uf (cs ci) = true -> FWEIGHT (base bld) = false ->
  vsum (fun a => vadd (frc (dv s') a) (force_0 (cs ci) a)) (seq (cnfstart (cs ci)) (inconf (cs ci))) = v0.
Proof. exact adp_sum_zero. Qed.
Print Assumptions C95_forces_sum_to_zero.
Theorem C95_stress_refuted : exists (cs : nat -> conf) pos bx rcut u du u_range w dw w_range L,
  (forall ci, cnfstart (cs (S ci)) = (cnfstart (cs ci) + inconf (cs ci))%nat) /\
  geometry (cs 0%nat) pos bx rcut /\ (forall a, (cnfstart (cs 0%nat) <= a < cnfstart (cs 0%nat) + inconf (cs 0%nat))%nat -> all_neighbors (cs 0%nat) pos bx rcut a (L a)) /\
  (forall s t r, u s t r = u t s r) /\ (forall s t r, du s t r = du t s r) /\ (forall s t r, u_range s t r = u_range t s r) /\
  (forall s t r, w s t r = w t s r) /\ (forall s t r, dw s t r = dw t s r) /\ (forall s t r, w_range s t r = w_range t s r) /\
  (forall s t x, derivable_pt_lim (u s t) x (du s t x)) /\ (forall s t x, derivable_pt_lim (w s t) x (dw s t x)) /\
  uf (cs 0%nat) = true /\ us (cs 0%nat) = true /\
  forall bld ew sw l0 d0 natoms s, STRESS (base bld) = true ->
  str (dv (es (AdpModel.calc_forces bld zf zf all_range zf zf all_range zf zf zf zf (fun _ _ => 0) (fun _ _ => 1) (fun _ _ => 1)
     u du u_range w dw w_range ew sw l0 d0 0 1 natoms cs 1 s))) 0%nat 2%nat <>
  adp_virial (cs 0%nat) pos bx u du u_range w dw w_range L 2 / conf_vol (cs 0%nat) - stress_0 (cs 0%nat) 2%nat.
Proof. exact adp_stress_refuted. Qed.
Print Assumptions C95_stress_refuted.
Example C95_ex : exists f, (forall ci, cnfstart (only 2 2 true true f (S ci)) = (cnfstart (only 2 2 true true f ci) + inconf (only 2 2 true true f ci))%nat) /\
  geometry (only 2 2 true true f 0) CellProof2.pair_pos CellProof2.two_box (fun _ _ => 1) /\
  exists L, forall a, (cnfstart (only 2 2 true true f 0) <= a < cnfstart (only 2 2 true true f 0) + inconf (only 2 2 true true f 0))%nat ->
    all_neighbors (only 2 2 true true f 0) CellProof2.pair_pos CellProof2.two_box (fun _ _ => 1) a (L a).
Proof. destruct (proj2 halves) as (f & G). exists f. split; [apply single_cont|]. split; [exact G|]. exact (all_neighbors_exist _ _ _ _ G). Qed.

(** C96: the number returned is the weighted sum of the squares of all deviations. *)
Theorem C96_adp_error : forall bld phi dphi in_range dens ddens reach F dF FA dFA fbegin fend fstep u du u_range w dw w_range
  eweight sweight limit_0 dummy_0 punish ntypes natoms cs nconf,
  (forall ci, cnfstart (cs (S ci)) = (cnfstart (cs ci) + inconf (cs ci))%nat) -> (0 < ntypes)%nat ->
  (forall ci i e, (ci < nconf)%nat -> (cnfstart (cs ci) <= i < cnfstart (cs ci) + inconf (cs ci))%nat ->
     In e (nb (cs ci) i) -> (i <= n_nr e < cnfstart (cs ci) + inconf (cs ci))%nat) ->
  (forall ci i e, (ci < nconf)%nat -> (cnfstart (cs ci) <= i < cnfstart (cs ci) + inconf (cs ci))%nat ->
     In e (nb (cs ci) i) -> n_type e = typ (cs ci) (n_nr e)) ->
  forall s, let s' := es (AdpModel.calc_forces bld phi dphi in_range dens ddens reach F dF FA dFA fbegin fend fstep
                        u du u_range w dw w_range eweight sweight limit_0 dummy_0 punish ntypes natoms cs nconf s) in
  err (dv s') = rsumf (fun ci =>
     rsumf (fun a => if (uf (cs ci) && (negb (CONTRIB (base bld)) || contrib (cs ci) a))%bool
                     then conf_weight (cs ci) * sqv (frc (dv s') a) else 0) (seq (cnfstart (cs ci)) (inconf (cs ci))) +
     conf_weight (cs ci) * eweight * sq (en (dv s') ci) +
     (if (STRESS (base bld) && uf (cs ci) && us (cs ci))%bool
      then rsumf (fun k => conf_weight (cs ci) * sweight * sq (str (dv s') ci k)) (seq 0 6) else 0) +
     conf_weight (cs ci) * sq (lim s' ci)) (seq 0 nconf) + punish +
  (if NOPUNISH bld then 0 else rsumf (fun k => sq (dum s' k)) (seq 0 (2 * ntypes))).
Proof. exact adp_error. Qed.
Print Assumptions C96_adp_error.
(** limit entries: squared distances of the densities from their intervals; dummy entries: slope
    and mean density *)
Theorem C96_eam_limits : forall bld phi dphi in_range dens ddens reach F dF FA dFA fbegin fend fstep
  eweight sweight limit_0 dummy_0 punish ntypes natoms cs nconf,
  (forall ci, cnfstart (cs (S ci)) = (cnfstart (cs ci) + inconf (cs ci))%nat) -> (0 < ntypes)%nat ->
  forall pos bx rcut, (forall ci, (ci < nconf)%nat -> geometry (cs ci) pos (bx ci) rcut) ->
  forall L, (forall ci a, (ci < nconf)%nat -> (cnfstart (cs ci) <= a < cnfstart (cs ci) + inconf (cs ci))%nat ->
    all_neighbors (cs ci) pos (bx ci) rcut a (L ci a)) ->
  (forall b t, fbegin b t <= fend b t) ->
  forall s, let s' := EamModel.calc_forces bld phi dphi in_range dens ddens reach F dF FA dFA fbegin fend fstep
                        eweight sweight limit_0 dummy_0 punish ntypes natoms cs nconf s in
  let total b := rsumf (fun ci => rsumf (fun a => density (cs ci) pos (bx ci) dens reach (L ci) b a) (seq (cnfstart (cs ci)) (inconf (cs ci)))) (seq 0 nconf) in
  (RESCALE bld = true -> forall ci, (ci < nconf)%nat -> lim s' ci =
   1000 * rsumf (fun a => rsumf (fun b => outside (fbegin b (typ (cs ci) a)) (fend b (typ (cs ci) a))
     (density (cs ci) pos (bx ci) dens reach (L ci) b a)) (seq 0 (nbands bld))) (seq (cnfstart (cs ci)) (inconf (cs ci))) - limit_0 ci) /\
  (NOPUNISH bld = false -> forall b g, (b < nbands bld)%nat -> (g < ntypes)%nat ->
     dum s' (2 * b * ntypes + g)%nat =
       (if RESCALE bld then 100 * dF b g (1/2 * (fbegin b g + fend b g)) - dummy_0 (2 * b * ntypes + g)%nat else 100 * dF b g 1) /\
     dum s' ((2 * b + 1) * ntypes + g)%nat =
       (if (negb (RESCALE bld) && Nat.eqb g 0)%bool then if Rlt_dec 0 (total b) then 100 * (total b / INR natoms - 1) else 0 else 0)).
Proof. exact eam_limit. Qed.
Print Assumptions C96_eam_limits.
Theorem C96_adp_limits : forall bld phi dphi in_range dens ddens reach F dF FA dFA fbegin fend fstep
  eweight sweight limit_0 dummy_0 punish ntypes natoms cs nconf,
  (forall ci, cnfstart (cs (S ci)) = (cnfstart (cs ci) + inconf (cs ci))%nat) -> (0 < ntypes)%nat ->
  forall pos bx rcut, (forall ci, (ci < nconf)%nat -> geometry (cs ci) pos (bx ci) rcut) ->
  forall L, (forall ci a, (ci < nconf)%nat -> (cnfstart (cs ci) <= a < cnfstart (cs ci) + inconf (cs ci))%nat ->
    all_neighbors (cs ci) pos (bx ci) rcut a (L ci a)) ->
  (forall b t, fbegin b t <= fend b t) ->
  forall u du u_range w dw w_range,
  forall s, let s' := es (AdpModel.calc_forces bld phi dphi in_range dens ddens reach F dF FA dFA fbegin fend fstep
                        u du u_range w dw w_range eweight sweight limit_0 dummy_0 punish ntypes natoms cs nconf s) in
  let total b := rsumf (fun ci => rsumf (fun a => density (cs ci) pos (bx ci) dens reach (L ci) b a) (seq (cnfstart (cs ci)) (inconf (cs ci)))) (seq 0 nconf) in
  (forall ci, (ci < nconf)%nat -> lim s' ci = (if RESCALE bld then
   1000 * rsumf (fun a => rsumf (fun b => outside (fbegin b (typ (cs ci) a)) (fend b (typ (cs ci) a))
     (density (cs ci) pos (bx ci) dens reach (L ci) b a)) (seq 0 1)) (seq (cnfstart (cs ci)) (inconf (cs ci))) else 0) - limit_0 ci) /\
  (NOPUNISH bld = false -> forall g, (g < ntypes)%nat ->
     dum s' g = (if RESCALE bld then 100 * dF 0%nat g (1/2 * (fbegin 0%nat g + fend 0%nat g)) - dummy_0 g else 100 * dF 0%nat g 1) /\
     dum s' (ntypes + g)%nat = (if (negb (RESCALE bld) && Nat.eqb g 0)%bool then 100 * (total 0%nat / INR natoms - 1) else 0)).
Proof. exact adp_limit. Qed.
Print Assumptions C96_adp_limits.
Example C96_ex : outside 0 2 5 = 9 /\ outside 1 2 0 = 1 /\ outside 0 2 1 = 0 /\ exists l, l <> [] /\ geometry (cube_conf l) origin cube (fun _ _ => 1).
Proof.
  unfold outside, sq. rewrite !(Rmax_right 0 (5 - 2)), (Rmax_left 0 (0 - 5)), (Rmax_left 0 (0 - 2)), (Rmax_right 0 (1 - 0)), (Rmax_left 0 (1 - 2)), (Rmax_left 0 (0 - 1)) by Lra.lra.
  split; [ring|]. split; [ring|]. split; [ring|]. exact cube_geometry.
Qed.

(** C72 for this potential: the forces of C95 are the negative gradient of its energy. *)
Theorem C72_adp_force_is_gradient : forall c pos bx rcut, geometry c pos bx rcut ->
  forall L, (forall a, (cnfstart c <= a < cnfstart c + inconf c)%nat -> all_neighbors c pos bx rcut a (L a)) ->
  forall a z, (cnfstart c <= a < cnfstart c + inconf c)%nat ->
  forall (phi dphi : nat -> nat -> R -> R) (in_range : nat -> nat -> R -> bool),
  (forall s t r, dphi s t r = dphi t s r) -> (forall s t r, in_range s t r = in_range t s r) ->
  (forall i v, (cnfstart c <= i < cnfstart c + inconf c)%nat -> In v (L i) ->
    derivable_pt_lim (fun r => if in_range (typ c i) (typ c (fst v)) r then phi (typ c i) (typ c (fst v)) r else 0) (dist pos bx i v)
      (if in_range (typ c i) (typ c (fst v)) (dist pos bx i v) then dphi (typ c i) (typ c (fst v)) (dist pos bx i v) else 0)) ->
  forall (dens ddens : nat -> nat -> R -> R) (reach : nat -> nat -> R -> bool) (E dE : nat -> nat -> R -> R),
  (forall k i v, (k < 1)%nat -> (cnfstart c <= i < cnfstart c + inconf c)%nat -> In v (L i) ->
    derivable_pt_lim (fun r => if reach k (typ c (fst v)) r then dens k (typ c (fst v)) r else 0) (dist pos bx i v)
      (dtrans ddens reach k (typ c (fst v)) (dist pos bx i v))) ->
  (forall k i, (k < 1)%nat -> (cnfstart c <= i < cnfstart c + inconf c)%nat ->
    derivable_pt_lim (E k (typ c i)) (density c pos bx dens reach L k i) (slope c pos bx dens reach dE L k i)) ->
  forall (u du w dw : nat -> nat -> R -> R) (u_range w_range : nat -> nat -> R -> bool),
  (forall s t r, u s t r = u t s r) -> (forall s t r, du s t r = du t s r) -> (forall s t r, u_range s t r = u_range t s r) ->
  (forall s t r, w s t r = w t s r) -> (forall s t r, dw s t r = dw t s r) -> (forall s t r, w_range s t r = w_range t s r) ->
  (forall i v, (cnfstart c <= i < cnfstart c + inconf c)%nat -> In v (L i) ->
    derivable_pt_lim (fun r => if u_range (typ c i) (typ c (fst v)) r then u (typ c i) (typ c (fst v)) r else 0) (dist pos bx i v)
      (cut c pos bx du u_range i v)) ->
  (forall i v, (cnfstart c <= i < cnfstart c + inconf c)%nat -> In v (L i) ->
    derivable_pt_lim (fun r => if w_range (typ c i) (typ c (fst v)) r then w (typ c i) (typ c (fst v)) r else 0) (dist pos bx i v)
      (cut c pos bx dw w_range i v)) ->
  derivable_pt_lim (fun t => pair_energy c (moved pos a z t) bx phi in_range L + embed_energy c (moved pos a z t) bx 1 dens reach E L +
      adp_energy c (moved pos a z t) bx u u_range w w_range L) 0
    (- sprod z (vadd (vadd (pair_force c pos bx dphi in_range L a) (embed_force c pos bx 1 dens ddens reach dE L a))
      (adp_force c pos bx u du u_range w dw w_range L a))).
Proof. exact adp_full_gradient. Qed.
Print Assumptions C72_adp_force_is_gradient.

(** C32 for this routine: energies per atom always, stresses up to the terms of bonds to own
    images. *)
Theorem C32_adp_cells_partial : forall bld phi dphi in_range dens ddens reach F dF FA dFA fbegin fend fstep u du u_range w dw w_range
  ew1 sw1 ew2 sw2 l1 l2 d1 d2 pu1 pu2 nt na1 na2 cs1 cs2 n1 n2,
  STRESS (base bld) = true -> (0 < nt)%nat ->
  (forall ci, cnfstart (cs1 (S ci)) = (cnfstart (cs1 ci) + inconf (cs1 ci))%nat) ->
  (forall ci, cnfstart (cs2 (S ci)) = (cnfstart (cs2 ci) + inconf (cs2 ci))%nat) ->
  (forall s t r, phi s t r = phi t s r) -> (forall s t r, dphi s t r = dphi t s r) ->
  (forall s t r, in_range s t r = in_range t s r) ->
  (forall s t r, u s t r = u t s r) -> (forall s t r, du s t r = du t s r) -> (forall s t r, u_range s t r = u_range t s r) ->
  (forall s t r, w s t r = w t s r) -> (forall s t r, dw s t r = dw t s r) -> (forall s t r, w_range s t r = w_range t s r) ->
  forall pos1 pos2 bx1 bx2 rcut,
  (forall ci, (ci < n1)%nat -> geometry (cs1 ci) pos1 (bx1 ci) rcut) ->
  (forall ci, (ci < n2)%nat -> geometry (cs2 ci) pos2 (bx2 ci) rcut) ->
  forall L1 L2,
  (forall ci a, (ci < n1)%nat -> (cnfstart (cs1 ci) <= a < cnfstart (cs1 ci) + inconf (cs1 ci))%nat -> all_neighbors (cs1 ci) pos1 (bx1 ci) rcut a (L1 ci a)) ->
  (forall ci a, (ci < n2)%nat -> (cnfstart (cs2 ci) <= a < cnfstart (cs2 ci) + inconf (cs2 ci))%nat -> all_neighbors (cs2 ci) pos2 (bx2 ci) rcut a (L2 ci a)) ->
  forall x y m tau s1 s2, (x < n1)%nat -> (y < n2)%nat -> (0 < inconf (cs1 x))%nat -> conf_vol (cs1 x) <> 0 ->
  same_crystal (cs1 x) (cs2 y) pos1 pos2 (bx1 x) (bx2 y) m tau ->
  (forall A N, (cnfstart (cs2 y) <= A < cnfstart (cs2 y) + inconf (cs2 y))%nat -> fst (tau (A, N)) = fst (tau (A, (0, 0, 0)%Z))) ->
  uf (cs1 x) = true -> us (cs1 x) = true -> uf (cs2 y) = true -> us (cs2 y) = true ->
  let r1 := dv (es (AdpModel.calc_forces bld phi dphi in_range dens ddens reach F dF FA dFA fbegin fend fstep u du u_range w dw w_range ew1 sw1 l1 d1 pu1 nt na1 cs1 n1 s1)) in
  let r2 := dv (es (AdpModel.calc_forces bld phi dphi in_range dens ddens reach F dF FA dFA fbegin fend fstep u du u_range w dw w_range ew2 sw2 l2 d2 pu2 nt na2 cs2 n2 s2)) in
  en r1 x + energy_0 (cs1 x) = en r2 y + energy_0 (cs2 y) /\
  forall k, (k < 6)%nat ->
    str r1 x k + stress_0 (cs1 x) k - own_virial (cs1 x) pos1 (bx1 x) w dw w_range (L1 x) k / conf_vol (cs1 x) =
    str r2 y k + stress_0 (cs2 y) k - own_virial (cs2 y) pos2 (bx2 y) w dw w_range (L2 y) k / conf_vol (cs2 y).
Proof. exact adp_cells. Qed.
Print Assumptions C32_adp_cells_partial.
Theorem C32_adp_cells_refuted : exists (cs1 cs2 : nat -> conf) pos1 pos2 bx1 bx2 rcut u du u_range w dw w_range m tau,
  (forall ci, cnfstart (cs1 (S ci)) = (cnfstart (cs1 ci) + inconf (cs1 ci))%nat) /\
  (forall ci, cnfstart (cs2 (S ci)) = (cnfstart (cs2 ci) + inconf (cs2 ci))%nat) /\
  geometry (cs1 0%nat) pos1 bx1 rcut /\ geometry (cs2 0%nat) pos2 bx2 rcut /\
  same_crystal (cs1 0%nat) (cs2 0%nat) pos1 pos2 bx1 bx2 m tau /\
  stress_0 (cs1 0%nat) = stress_0 (cs2 0%nat) /\
  forall bld ew sw l0 d0 natoms s, STRESS (base bld) = true ->
  str (dv (es (AdpModel.calc_forces bld zf zf all_range zf zf all_range zf zf zf zf (fun _ _ => 0) (fun _ _ => 1) (fun _ _ => 1)
     u du u_range w dw w_range ew sw l0 d0 0 1 natoms cs2 1 s))) 0%nat 2%nat <
  str (dv (es (AdpModel.calc_forces bld zf zf all_range zf zf all_range zf zf zf zf (fun _ _ => 0) (fun _ _ => 1) (fun _ _ => 1)
     u du u_range w dw w_range ew sw l0 d0 0 1 natoms cs1 1 s))) 0%nat 2%nat.
Proof. exact adp_cells_refuted. Qed.
Print Assumptions C32_adp_cells_refuted.
