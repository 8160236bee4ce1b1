(** Statements about the EAM force routine: C30, C31, C70, C71, C72 (with the pair routine). *)
From Coq Require Import Reals ZArith List Bool.
From Verif Require Import Vec NbrModel NbrProof NbrProof3 PairModel PairProof PairSpec PairProof2 PairProof3
  EamModel EamProof EamSpec EamProof2 EamProof3 EamProof4 EamProof5 EamProof6 EamProof7 GradProof.
Import ListNotations.
Local Open Scope R_scope.

(** C30.  [geometry]: lists of init_neighbors; the sums on the right run over the lists L of
    all neighbours.  All densities inside the tables; [bands_nested] is about TBEAM only. *)
Theorem C30_textbook_eam : forall bld phi dphi in_range dens ddens reach F dF FA dFA fbegin fend fstep
  eweight sweight limit_0 dummy_0 punish ntypes natoms cs nconf,
  (forall ci, cnfstart (cs (S ci)) = (cnfstart (cs ci) + inconf (cs ci))%nat) -> (0 < ntypes)%nat ->
  forall pos bx rcut, (forall ci, (ci < nconf)%nat -> geometry (cs ci) pos (bx ci) rcut) ->
  forall L, (forall ci a, (ci < nconf)%nat -> (cnfstart (cs ci) <= a < cnfstart (cs ci) + inconf (cs ci))%nat ->
    all_neighbors (cs ci) pos (bx ci) rcut a (L ci a)) ->
  (forall s t r, phi s t r = phi t s r) -> (forall s t r, dphi s t r = dphi t s r) ->
  (forall s t r, in_range s t r = in_range t s r) -> bands_nested bld reach ->
  (forall ci a b, (ci < nconf)%nat -> (cnfstart (cs ci) <= a < cnfstart (cs ci) + inconf (cs ci))%nat -> (b < nbands bld)%nat ->
     let x := density (cs ci) pos (bx ci) dens reach (L ci) b a in
     fbegin b (typ (cs ci) a) <= x <= fend b (typ (cs ci) a) /\ (APOT bld = true -> RESCALE bld = false -> 1/10 <= x)) ->
  forall s, let s' := EamModel.calc_forces bld phi dphi in_range dens ddens reach F dF FA dFA fbegin fend fstep
                        eweight sweight limit_0 dummy_0 punish ntypes natoms cs nconf s in
  forall ci, (ci < nconf)%nat ->
  (uf (cs ci) = true -> forall a, (cnfstart (cs ci) <= a < cnfstart (cs ci) + inconf (cs ci))%nat ->
     frc (dv s') a = vscale (fscale_e bld cs ci a) (vsub (vadd (pair_force (cs ci) pos (bx ci) dphi in_range (L ci) a)
        (embed_force (cs ci) pos (bx ci) (nbands bld) dens ddens reach dF (L ci) a)) (force_0 (cs ci) a))) /\
  (uf (cs ci) = false -> forall a, (cnfstart (cs ci) <= a < cnfstart (cs ci) + inconf (cs ci))%nat -> frc (dv s') a = v0) /\
  en (dv s') ci = (pair_energy (cs ci) pos (bx ci) phi in_range (L ci) +
     embed_energy (cs ci) pos (bx ci) (nbands bld) dens reach F (L ci)) / INR (inconf (cs ci)) - energy_0 (cs ci) /\
  (STRESS (base bld) = true -> forall k, (k < 6)%nat -> str (dv s') ci k =
     if (uf (cs ci) && us (cs ci))%bool
     then (pair_virial (cs ci) pos (bx ci) dphi in_range (L ci) k +
           embed_virial (cs ci) pos (bx ci) (nbands bld) dens ddens reach dF (L ci) k) / conf_vol (cs ci) - stress_0 (cs ci) k else 0).
Proof. exact eam_textbook_in. Qed.
Print Assumptions C30_textbook_eam.
(** The same without the condition on the densities: the function [Eu] and its slope [dEu]
    are the embedding function as continued beyond its table. *)
Theorem C30_textbook_any_density : forall bld phi dphi in_range dens ddens reach F dF FA dFA fbegin fend fstep
  eweight sweight limit_0 dummy_0 punish ntypes natoms cs nconf,
  (forall ci, cnfstart (cs (S ci)) = (cnfstart (cs ci) + inconf (cs ci))%nat) -> (0 < ntypes)%nat ->
  forall pos bx rcut, (forall ci, (ci < nconf)%nat -> geometry (cs ci) pos (bx ci) rcut) ->
  forall L, (forall ci a, (ci < nconf)%nat -> (cnfstart (cs ci) <= a < cnfstart (cs ci) + inconf (cs ci))%nat ->
    all_neighbors (cs ci) pos (bx ci) rcut a (L ci a)) ->
  (forall s t r, phi s t r = phi t s r) -> (forall s t r, dphi s t r = dphi t s r) ->
  (forall s t r, in_range s t r = in_range t s r) -> bands_nested bld reach ->
  forall s, let s' := EamModel.calc_forces bld phi dphi in_range dens ddens reach F dF FA dFA fbegin fend fstep
                        eweight sweight limit_0 dummy_0 punish ntypes natoms cs nconf s in
  let E := Eu bld F dF FA dFA fbegin fend fstep in
  let dE := dEu bld F dF FA dFA fbegin fend fstep in
  forall ci, (ci < nconf)%nat ->
  (uf (cs ci) = true -> forall a, (cnfstart (cs ci) <= a < cnfstart (cs ci) + inconf (cs ci))%nat ->
     frc (dv s') a = vscale (fscale_e bld cs ci a) (vsub (vadd (pair_force (cs ci) pos (bx ci) dphi in_range (L ci) a)
        (embed_force (cs ci) pos (bx ci) (nbands bld) dens ddens reach dE (L ci) a)) (force_0 (cs ci) a))) /\
  (uf (cs ci) = false -> forall a, (cnfstart (cs ci) <= a < cnfstart (cs ci) + inconf (cs ci))%nat -> frc (dv s') a = v0) /\
  en (dv s') ci = (pair_energy (cs ci) pos (bx ci) phi in_range (L ci) +
     embed_energy (cs ci) pos (bx ci) (nbands bld) dens reach E (L ci)) / INR (inconf (cs ci)) - energy_0 (cs ci) /\
  (STRESS (base bld) = true -> forall k, (k < 6)%nat -> str (dv s') ci k =
     if (uf (cs ci) && us (cs ci))%bool
     then (pair_virial (cs ci) pos (bx ci) dphi in_range (L ci) k +
           embed_virial (cs ci) pos (bx ci) (nbands bld) dens ddens reach dE (L ci) k) / conf_vol (cs ci) - stress_0 (cs ci) k else 0).
Proof. exact eam_textbook. Qed.
Print Assumptions C30_textbook_any_density.
Theorem C30_forces_sum_to_zero : forall bld phi dphi in_range dens ddens reach F dF FA dFA fbegin fend fstep
  eweight sweight limit_0 dummy_0 punish ntypes natoms cs nconf,
  (forall ci, cnfstart (cs (S ci)) = (cnfstart (cs ci) + inconf (cs ci))%nat) -> (0 < ntypes)%nat ->
  forall pos bx rcut, (forall ci, (ci < nconf)%nat -> geometry (cs ci) pos (bx ci) rcut) ->
  forall L, (forall ci a, (ci < nconf)%nat -> (cnfstart (cs ci) <= a < cnfstart (cs ci) + inconf (cs ci))%nat ->
    all_neighbors (cs ci) pos (bx ci) rcut a (L ci a)) ->
  (forall s t r, phi s t r = phi t s r) -> (forall s t r, dphi s t r = dphi t s r) ->
  (forall s t r, in_range s t r = in_range t s r) -> bands_nested bld reach ->
  forall s, let s' := EamModel.calc_forces bld phi dphi in_range dens ddens reach F dF FA dFA fbegin fend fstep
                        eweight sweight limit_0 dummy_0 punish ntypes natoms cs nconf s in
  forall ci, (ci < nconf)%nat -> uf (cs ci) = true -> FWEIGHT (base bld) = false ->
  vsum (fun a => vadd (frc (dv s') a) (force_0 (cs ci) a)) (seq (cnfstart (cs ci)) (inconf (cs ci))) = v0.
Proof. exact eam_sum_zero. Qed.
Print Assumptions C30_forces_sum_to_zero.
Example C30_ex : (exists l, l <> [] /\ geometry (cube_conf l) origin cube (fun _ _ => 1)) /\
  bands_nested plain_build s_band /\ bands_nested tbeam_build all_range.
Proof. split; [exact cube_geometry|]. split; [intros H; discriminate H|]. intros _ s t r _. reflexivity. Qed.

(** C31.  Eu is the embedding function as used at any density. *)
Theorem C31_left_continuous : forall bld F dF FA dFA fbegin fend fstep b t, fbegin b t < fend b t ->
  RESCALE bld = false /\ APOT bld = false ->
  continuity_pt (F b t) (fbegin b t) -> continuity_pt (Eu bld F dF FA dFA fbegin fend fstep b t) (fbegin b t).
Proof. exact left_cont. Qed.
Print Assumptions C31_left_continuous.
Theorem C31_clamped_continuous : forall bld F dF FA dFA fbegin fend fstep b t, fbegin b t < fend b t -> RESCALE bld = true ->
  (forall x, fbegin b t <= x <= fend b t -> continuity_pt (F b t) x) ->
  forall x, continuity_pt (Eu bld F dF FA dFA fbegin fend fstep b t) x.
Proof. exact clamp_cont. Qed.
Print Assumptions C31_clamped_continuous.
(** At the right end there is a jump unless the function is the same half a step before. *)
Theorem C31_right_continuous_iff : forall bld F dF FA dFA fbegin fend fstep b t, fbegin b t < fend b t ->
  RESCALE bld = false /\ APOT bld = false -> continuity_pt (F b t) (fend b t) ->
  (continuity_pt (Eu bld F dF FA dFA fbegin fend fstep b t) (fend b t) <->
   F b t (fend b t) = F b t (fend b t - 1 / 2 * fstep b t)).
Proof. exact right_cont_iff. Qed.
Print Assumptions C31_right_continuous_iff.
Theorem C31_refuted : exists F dF fbegin fend fstep,
  (forall x, derivable_pt_lim (F 0%nat 0%nat) x (dF 0%nat 0%nat x)) /\ fbegin 0%nat 0%nat < fend 0%nat 0%nat /\
  0 < fstep 0%nat 0%nat /\
  ~ continuity_pt (Eu plain_build F dF F dF fbegin fend fstep 0 0) (fend 0%nat 0%nat).
Proof. exact right_jump. Qed.
Print Assumptions C31_refuted.
Example C31_ex : continuity_pt (Eu plain_build idf onef idf onef (fun _ _ => 0) (fun _ _ => 2) (fun _ _ => 1) 0 0) 0.
Proof.
  apply (left_cont plain_build idf onef idf onef (fun _ _ => 0) (fun _ _ => 2) (fun _ _ => 1) 0 0).
  - Lra.lra.
  - split; reflexivity.
  - apply derivable_continuous_pt, derivable_pt_id.
Qed.

(** C70 *)
Theorem C70_error_sum_of_final_vector : forall bld phi dphi in_range dens ddens reach F dF FA dFA fbegin fend fstep
  eweight sweight limit_0 dummy_0 punish ntypes natoms cs nconf,
  (forall ci, cnfstart (cs (S ci)) = (cnfstart (cs ci) + inconf (cs ci))%nat) -> (0 < ntypes)%nat ->
  (forall ci i e, (ci < nconf)%nat -> (cnfstart (cs ci) <= i < cnfstart (cs ci) + inconf (cs ci))%nat ->
     In e (nb (cs ci) i) -> (i <= n_nr e < cnfstart (cs ci) + inconf (cs ci))%nat) ->
  (forall ci i e, (ci < nconf)%nat -> (cnfstart (cs ci) <= i < cnfstart (cs ci) + inconf (cs ci))%nat ->
     In e (nb (cs ci) i) -> n_type e = typ (cs ci) (n_nr e)) ->
  forall s, let s' := EamModel.calc_forces bld phi dphi in_range dens ddens reach F dF FA dFA fbegin fend fstep
                        eweight sweight limit_0 dummy_0 punish ntypes natoms cs nconf s in
  err (dv s') = rsumf (fun ci =>
     rsumf (fun a => if (uf (cs ci) && (negb (CONTRIB (base bld)) || contrib (cs ci) a))%bool
                     then conf_weight (cs ci) * sqv (frc (dv s') a) else 0) (seq (cnfstart (cs ci)) (inconf (cs ci))) +
     conf_weight (cs ci) * eweight * sq (en (dv s') ci) +
     (if (STRESS (base bld) && uf (cs ci) && us (cs ci))%bool
      then rsumf (fun k => conf_weight (cs ci) * sweight * sq (str (dv s') ci k)) (seq 0 6) else 0) +
     (if RESCALE bld then conf_weight (cs ci) * sq (lim s' ci) else 0)) (seq 0 nconf) + punish +
  (if NOPUNISH bld then 0 else rsumf (fun k => sq (dum s' k)) (seq 0 (2 * nbands bld * ntypes))).
Proof. exact eam_error. Qed.
Print Assumptions C70_error_sum_of_final_vector.
(** the entries for the limits of the densities (none without rescaling) and for the gauge *)
Theorem C70_constraints : forall bld phi dphi in_range dens ddens reach F dF FA dFA fbegin fend fstep
  eweight sweight limit_0 dummy_0 punish ntypes natoms cs nconf,
  (forall ci, cnfstart (cs (S ci)) = (cnfstart (cs ci) + inconf (cs ci))%nat) -> (0 < ntypes)%nat ->
  forall pos bx rcut, (forall ci, (ci < nconf)%nat -> geometry (cs ci) pos (bx ci) rcut) ->
  forall L, (forall ci a, (ci < nconf)%nat -> (cnfstart (cs ci) <= a < cnfstart (cs ci) + inconf (cs ci))%nat ->
    all_neighbors (cs ci) pos (bx ci) rcut a (L ci a)) ->
  (forall b t, fbegin b t <= fend b t) ->
  forall s, let s' := EamModel.calc_forces bld phi dphi in_range dens ddens reach F dF FA dFA fbegin fend fstep eweight sweight limit_0 dummy_0 punish ntypes natoms cs nconf s in
  (RESCALE bld = true -> forall ci, (ci < nconf)%nat ->
     lim s' ci = rsumf (fun a => rsumf (fun b => outside (fbegin b (typ (cs ci) a)) (fend b (typ (cs ci) a)) (density (cs ci) pos (bx ci) dens reach (L ci) b a)) (seq 0 (nbands bld))) (seq (cnfstart (cs ci)) (inconf (cs ci))) - limit_0 ci) /\
  (EamModel.NOPUNISH bld = false -> forall b g, (b < (nbands bld))%nat -> (g < ntypes)%nat ->
     dum s' (2 * b * ntypes + g)%nat =
       (if RESCALE bld then 100 * dF b g ((fbegin b g + fend b g) / 2) - dummy_0 (2 * b * ntypes + g)%nat else 100 * dF b g 1) /\
     dum s' ((2 * b + 1) * ntypes + g)%nat =
       (if (negb (RESCALE bld) && Nat.eqb g 0)%bool then
          let total := rsumf (fun ci => rsumf (density (cs ci) pos (bx ci) dens reach (L ci) b) (seq (cnfstart (cs ci)) (inconf (cs ci)))) (seq 0 nconf) in
          if Rlt_dec 0 total then 100 * (total / INR natoms - 1) else 0
        else 0)).
Proof. exact eam_constraints. Qed.
Print Assumptions C70_constraints.
Example C70_ex : exists l, l <> [] /\ geometry (cube_conf l) origin cube (fun _ _ => 1).
Proof. exact cube_geometry. Qed.

(** C71 *)
Theorem C71_refuted : exists (l : list neigh) (L : nat -> list (nat * image)),
  let c := one_conf l 0 in
  geometry c origin cube (fun _ _ => 1) /\ all_neighbors c origin cube (fun _ _ => 1) 0 (L 0%nat) /\
  forall s, let s' := EamModel.calc_forces tbeam_build zf zf all_range idf onef s_band idf onef idf onef (fun _ _ => 0) (fun _ _ => 100) (fun _ _ => 1)
                1 1 (fun _ => 0) (fun _ => 0) 0 1 1 (one_conf l) 1 s in
  str (dv s') 0%nat 0%nat <>
  (pair_virial c origin cube zf all_range L 0 + embed_virial c origin cube 2 idf onef s_band onef L 0) / conf_vol c - stress_0 c 0.
Proof. exact tbeam_incomplete. Qed.
Print Assumptions C71_refuted.

(** C72.  The force on an atom (see C27, C30 for what the routines compute) is the negative
    gradient of the energy, over the bonds present. *)
Theorem C72_pair_force_is_gradient : forall c pos bx rcut, geometry c pos bx rcut ->
  forall L, (forall a, (cnfstart c <= a < cnfstart c + inconf c)%nat -> all_neighbors c pos bx rcut a (L a)) ->
  forall a u, (cnfstart c <= a < cnfstart c + inconf c)%nat ->
  forall (phi dphi : nat -> nat -> R -> R) (in_range : nat -> nat -> R -> bool),
  (forall s t r, dphi s t r = dphi t s r) -> (forall s t r, in_range s t r = in_range t s r) ->
  (forall i v, (cnfstart c <= i < cnfstart c + inconf c)%nat -> In v (L i) ->
    derivable_pt_lim (fun r => if in_range (typ c i) (typ c (fst v)) r then phi (typ c i) (typ c (fst v)) r else 0) (dist pos bx i v)
      (if in_range (typ c i) (typ c (fst v)) (dist pos bx i v) then dphi (typ c i) (typ c (fst v)) (dist pos bx i v) else 0)) ->
  derivable_pt_lim (fun t => pair_energy c (moved pos a u t) bx phi in_range L) 0 (- sprod u (pair_force c pos bx dphi in_range L a)).
Proof. exact pair_gradient. Qed.
Print Assumptions C72_pair_force_is_gradient.
Theorem C72_eam_force_is_gradient : forall c pos bx rcut, geometry c pos bx rcut ->
  forall L, (forall a, (cnfstart c <= a < cnfstart c + inconf c)%nat -> all_neighbors c pos bx rcut a (L a)) ->
  forall a u, (cnfstart c <= a < cnfstart c + inconf c)%nat ->
  forall (phi dphi : nat -> nat -> R -> R) (in_range : nat -> nat -> R -> bool),
  (forall s t r, dphi s t r = dphi t s r) -> (forall s t r, in_range s t r = in_range t s r) ->
  (forall i v, (cnfstart c <= i < cnfstart c + inconf c)%nat -> In v (L i) ->
    derivable_pt_lim (fun r => if in_range (typ c i) (typ c (fst v)) r then phi (typ c i) (typ c (fst v)) r else 0) (dist pos bx i v)
      (if in_range (typ c i) (typ c (fst v)) (dist pos bx i v) then dphi (typ c i) (typ c (fst v)) (dist pos bx i v) else 0)) ->
  forall nbd (dens ddens : nat -> nat -> R -> R) (reach : nat -> nat -> R -> bool) (E dE : nat -> nat -> R -> R),
  (forall k i v, (k < nbd)%nat -> (cnfstart c <= i < cnfstart c + inconf c)%nat -> In v (L i) ->
    derivable_pt_lim (fun r => if reach k (typ c (fst v)) r then dens k (typ c (fst v)) r else 0) (dist pos bx i v)
      (dtrans ddens reach k (typ c (fst v)) (dist pos bx i v))) ->
  (forall k i, (k < nbd)%nat -> (cnfstart c <= i < cnfstart c + inconf c)%nat ->
    derivable_pt_lim (E k (typ c i)) (density c pos bx dens reach L k i) (slope c pos bx dens reach dE L k i)) ->
  derivable_pt_lim (fun t => pair_energy c (moved pos a u t) bx phi in_range L + embed_energy c (moved pos a u t) bx nbd dens reach E L) 0
    (- sprod u (vadd (pair_force c pos bx dphi in_range L a) (embed_force c pos bx nbd dens ddens reach dE L a))).
Proof. exact eam_gradient. Qed.
Print Assumptions C72_eam_force_is_gradient.
Example C72_ex : (exists l, l <> [] /\ geometry (cube_conf l) origin cube (fun _ _ => 1)) /\
  (forall x, derivable_pt_lim (fun r : R => if all_range 0 0 r then idf 0%nat 0%nat r else 0) x (if all_range 0 0 x then onef 0%nat 0%nat x else 0)).
Proof. split; [exact cube_geometry|]. intros x. apply derivable_pt_lim_id. Qed.

(** C31: the slope that enters the forces is the derivative of the embedding function that
    enters the energy, on both sides of the table and inside. *)
Theorem C31_slope : forall bld F dF FA dFA fbegin fend fstep b t,
  RESCALE bld = false /\ APOT bld = false -> fbegin b t < fend b t ->
  forall x, x <> fbegin b t -> x <> fend b t ->
  (fbegin b t < x < fend b t -> derivable_pt_lim (F b t) x (dF b t x)) ->
  derivable_pt_lim (Eu bld F dF FA dFA fbegin fend fstep b t) x (dEu bld F dF FA dFA fbegin fend fstep b t x).
Proof. exact slope_is_derivative. Qed.
Print Assumptions C31_slope.
