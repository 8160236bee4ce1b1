(** Electrostatic force routine: C99 - C104, C72, C32. *)
From Coq Require Import Reals ZArith List Bool Lia Lra.
From Verif Require Import Vec NbrModel NbrProof NbrProof3 PairModel PairProof PairSpec PairProof2 PairProof3 GradProof CellSpec SwProof3 SwProof4 FuncModel
  ElSpec ElModel ElProof ElProof2 ElProof6 ElProof7 ElProof8 ElProof9 ElProof10 ElProof11 ElProof12 ElProof13 ElProof14.
Import ListNotations.
Local Open Scope R_scope.

(** C99.  [ratio] is the share of the types among the atoms of all configurations, [q] the
    parameters. *)
Theorem C99_neutral : forall ntypes ratio q, (0 < ntypes)%nat -> ratio (ntypes - 1)%nat <> 0 ->
  (forall i, (i < ntypes - 1)%nat -> charges ntypes ratio q i = q i) /\
  rsumf (fun i => ratio i * charges ntypes ratio q i) (seq 0 ntypes) = 0.
Proof. exact charges_spec. Qed.
Print Assumptions C99_neutral.
Example C99_ex : charges 2 (fun i => if Nat.eqb i 0 then 1/3 else 2/3) (fun _ => 24/10) 1 = -12/10.
Proof. exact charges_ex. Qed.

(** C100: the values of the routine; [p] are the dipoles it leaves.  [fel], [gel], [ggel] are
    any tail function of the Coulomb interaction and its gradients. *)
Theorem C100_textbook : forall bld DIPOLE phi dphi in_range charge alpha dpb dpc fel gel ggel dp_cut dp_tol dp_mix self_coef eweight sweight punish cs nconf,
  (forall ci, cnfstart (cs (S ci)) = (cnfstart (cs ci) + inconf (cs ci))%nat) ->
  (forall s t r, phi s t r = phi t s r) -> (forall s t r, dphi s t r = dphi t s r) -> (forall s t r, in_range s t r = in_range t s r) ->
  (forall s t, dpb s t = dpb t s) -> (forall s t, dpc s t = dpc t s) ->
  forall pos bx rcut, (forall ci, (ci < nconf)%nat -> geometry (cs ci) pos (bx ci) rcut) ->
  forall L, (forall ci a, (ci < nconf)%nat -> (cnfstart (cs ci) <= a < cnfstart (cs ci) + inconf (cs ci))%nat ->
    all_neighbors (cs ci) pos (bx ci) rcut a (L ci a)) ->
  (forall ci, (ci < nconf)%nat -> DIPOLE = true -> forall a, (cnfstart (cs ci) <= a < cnfstart (cs ci) + inconf (cs ci))%nat ->
     alpha (typ (cs ci) a) <> 0 -> charge (typ (cs ci) a) <> 0) ->
  forall s, let s' := ElModel.calc_forces bld DIPOLE phi dphi in_range charge alpha dpb dpc fel gel ggel dp_cut dp_tol dp_mix self_coef eweight sweight punish cs nconf s in
  let v := edv s' in let p := p_ind (edp s') in forall ci, (ci < nconf)%nat ->
  (uf (cs ci) = true -> forall a, (cnfstart (cs ci) <= a < cnfstart (cs ci) + inconf (cs ci))%nat ->
     frc v a = vscale (fscale bld cs ci a) (vsub (vadd (vadd (pair_force (cs ci) pos (bx ci) dphi in_range (L ci) a) (coulomb_force (cs ci) pos (bx ci) charge gel dp_cut (L ci) a))
        (if DIPOLE then dip_force (cs ci) pos (bx ci) charge gel ggel dp_cut (L ci) alpha dpb dpc p a else v0)) (force_0 (cs ci) a))) /\
  (uf (cs ci) = false -> forall a, (cnfstart (cs ci) <= a < cnfstart (cs ci) + inconf (cs ci))%nat -> frc v a = v0) /\
  en v ci = (pair_energy (cs ci) pos (bx ci) phi in_range (L ci) + coulomb_energy (cs ci) pos (bx ci) charge fel dp_cut (L ci) - charge_self (cs ci) charge self_coef +
     (if DIPOLE then dip_energy (cs ci) pos (bx ci) charge gel dp_cut (L ci) alpha dpb dpc p + dip_self (cs ci) alpha p else 0)) / INR (inconf (cs ci)) - energy_0 (cs ci) /\
  (STRESS bld = true -> forall k, (k < 6)%nat -> str v ci k =
     if (uf (cs ci) && us (cs ci))%bool
     then (pair_virial (cs ci) pos (bx ci) dphi in_range (L ci) k + coulomb_virial (cs ci) pos (bx ci) charge gel dp_cut (L ci) k +
        (if DIPOLE then dip_virial (cs ci) pos (bx ci) charge gel ggel dp_cut (L ci) alpha dpb dpc p k else 0)) / conf_vol (cs ci) - stress_0 (cs ci) k
     else 0).
Proof. exact el_values. Qed.
Print Assumptions C100_textbook.
Theorem C100_error : forall bld DIPOLE phi dphi in_range charge alpha dpb dpc fel gel ggel dp_cut dp_tol dp_mix self_coef eweight sweight punish cs nconf,
  (forall ci, cnfstart (cs (S ci)) = (cnfstart (cs ci) + inconf (cs ci))%nat) ->
  (forall s t r, phi s t r = phi t s r) -> (forall s t r, dphi s t r = dphi t s r) -> (forall s t r, in_range s t r = in_range t s r) ->
  (forall s t, dpb s t = dpb t s) -> (forall s t, dpc s t = dpc t s) ->
  forall pos bx rcut, (forall ci, (ci < nconf)%nat -> geometry (cs ci) pos (bx ci) rcut) ->
  forall L, (forall ci a, (ci < nconf)%nat -> (cnfstart (cs ci) <= a < cnfstart (cs ci) + inconf (cs ci))%nat ->
    all_neighbors (cs ci) pos (bx ci) rcut a (L ci a)) ->
  (forall ci, (ci < nconf)%nat -> DIPOLE = true -> forall a, (cnfstart (cs ci) <= a < cnfstart (cs ci) + inconf (cs ci))%nat ->
     alpha (typ (cs ci) a) <> 0 -> charge (typ (cs ci) a) <> 0) ->
  forall s, let v := edv (ElModel.calc_forces bld DIPOLE phi dphi in_range charge alpha dpb dpc fel gel ggel dp_cut dp_tol dp_mix self_coef eweight sweight punish cs nconf s) in
  err v = rsumf (fun ci =>
     rsumf (fun a => if (uf (cs ci) && (negb (CONTRIB bld) || contrib (cs ci) a))%bool
                     then conf_weight (cs ci) * sqv (frc v a) else 0) (seq (cnfstart (cs ci)) (inconf (cs ci))) +
     conf_weight (cs ci) * eweight * sq (en v ci) +
     (if (STRESS bld && uf (cs ci) && us (cs ci))%bool
      then rsumf (fun k => conf_weight (cs ci) * sweight * sq (str v ci k)) (seq 0 6) else 0)) (seq 0 nconf) + punish.
Proof. exact el_error. Qed.
Print Assumptions C100_error.
Theorem C100_forces_sum_to_zero : forall bld DIPOLE phi dphi in_range charge alpha dpb dpc fel gel ggel dp_cut dp_tol dp_mix self_coef eweight sweight punish cs nconf,
  (forall ci, cnfstart (cs (S ci)) = (cnfstart (cs ci) + inconf (cs ci))%nat) ->
  (forall s t r, phi s t r = phi t s r) -> (forall s t r, dphi s t r = dphi t s r) -> (forall s t r, in_range s t r = in_range t s r) ->
  (forall s t, dpb s t = dpb t s) -> (forall s t, dpc s t = dpc t s) ->
  forall pos bx rcut, (forall ci, (ci < nconf)%nat -> geometry (cs ci) pos (bx ci) rcut) ->
  forall L, (forall ci a, (ci < nconf)%nat -> (cnfstart (cs ci) <= a < cnfstart (cs ci) + inconf (cs ci))%nat ->
    all_neighbors (cs ci) pos (bx ci) rcut a (L ci a)) ->
  (forall ci, (ci < nconf)%nat -> DIPOLE = true -> forall a, (cnfstart (cs ci) <= a < cnfstart (cs ci) + inconf (cs ci))%nat ->
     alpha (typ (cs ci) a) <> 0 -> charge (typ (cs ci) a) <> 0) ->
  forall s, let v := edv (ElModel.calc_forces bld DIPOLE phi dphi in_range charge alpha dpb dpc fel gel ggel dp_cut dp_tol dp_mix self_coef eweight sweight punish cs nconf s) in
  forall ci, (ci < nconf)%nat -> uf (cs ci) = true -> FWEIGHT bld = false ->
  vsum (fun a => vadd (frc v a) (force_0 (cs ci) a)) (seq (cnfstart (cs ci)) (inconf (cs ci))) = v0.
Proof. exact el_sum_zero. Qed.
Print Assumptions C100_forces_sum_to_zero.
(** two atoms of different types at distance 1/10, charges 1 and -1 *)
Example C100_ex : (forall f ci, cnfstart (duo kinds f (S ci)) = (cnfstart (duo kinds f ci) + inconf (duo kinds f ci))%nat) /\
  (forall f, geometry (duo kinds f 0) elbow cube (fun _ _ => 12/100)) /\
  (forall f a, (a < 2)%nat -> all_neighbors (duo kinds f 0) elbow cube (fun _ _ => 12/100) a (duo_list a)) /\
  (forall f a, (a < 2)%nat -> pm1 (typ (duo kinds f 0) a) <> 0) /\
  (forall f g p x y, p 0%nat = V3 x 0 0 -> p 1%nat = V3 y 0 0 ->
     dip_energy (duo kinds f 0) elbow cube pm1 g 1 duo_list all_one (fun _ _ => 0) (fun _ _ => 0) p = g (1/10) * ((y + x) / 10 + 2 * x * y)).
Proof. exact duo_example. Qed.
(** Without the condition on the charges it is false: for a polarisable type without charge
    the projections of the dipoles are those of an earlier pair of atoms. *)
Theorem C100_stale_refuted : forall bld dphi ggel mix ew sw pu, exists fel gel s tol,
  let zphi := fun (_ _ : nat) (_ : R) => 0 in
  let none := fun (_ _ : nat) (_ : R) => false in
  let s' := ElModel.calc_forces bld true zphi dphi none one0 all_one (fun _ _ => 0) (fun _ _ => 0) fel gel ggel 1 tol mix 0 ew sw pu (duo kinds false) 1 s in
  let p := p_ind (edp s') in
  0 < tol /\ gel (1/10) < 0 /\ (forall r, fel r = 0) /\
  en (edv s') 0 * 2 <> dip_energy (duo kinds false 0) elbow cube one0 gel 1 duo_list all_one (fun _ _ => 0) (fun _ _ => 0) p + dip_self (duo kinds false 0) all_one p.
Proof. exact stale_projection. Qed.
Print Assumptions C100_stale_refuted.

(** C101.  The dipoles are found by the iteration of ElSpec.v, which ends. *)
Theorem C101_iteration : forall bld DIPOLE phi dphi in_range charge alpha dpb dpc fel gel ggel dp_cut dp_tol dp_mix self_coef eweight sweight punish cs nconf,
  (forall ci, cnfstart (cs (S ci)) = (cnfstart (cs ci) + inconf (cs ci))%nat) ->
  (forall s t, dpb s t = dpb t s) -> (forall s t, dpc s t = dpc t s) ->
  forall pos bx rcut, (forall ci, (ci < nconf)%nat -> geometry (cs ci) pos (bx ci) rcut) ->
  forall L, (forall ci a, (ci < nconf)%nat -> (cnfstart (cs ci) <= a < cnfstart (cs ci) + inconf (cs ci))%nat ->
    all_neighbors (cs ci) pos (bx ci) rcut a (L ci a)) ->
  DIPOLE = true -> forall s, let s' := ElModel.calc_forces bld DIPOLE phi dphi in_range charge alpha dpb dpc fel gel ggel dp_cut dp_tol dp_mix self_coef eweight sweight punish cs nconf s in
  forall ci, (ci < nconf)%nat -> let c := cs ci in
  exists k, (k <= 51)%nat /\
  (forall j, (j < k)%nat -> ~ stops c pos (bx ci) charge gel dp_cut (L ci) alpha dpb dpc dp_tol dp_mix (E_ind (edp s)) j) /\
  stops c pos (bx ci) charge gel dp_cut (L ci) alpha dpb dpc dp_tol dp_mix (E_ind (edp s)) k /\
  forall a, (cnfstart c <= a < cnfstart c + inconf c)%nat -> alpha (typ c a) <> 0 ->
  (given_up c pos (bx ci) charge gel dp_cut (L ci) alpha dpb dpc dp_mix (E_ind (edp s)) k ->
     p_ind (edp s') a = moment_of c pos (bx ci) charge gel dp_cut (L ci) alpha dpb dpc (fun _ => v0) a /\
     E_ind (edp s') a = static_field c pos (bx ci) charge gel dp_cut (L ci) a) /\
  (~ given_up c pos (bx ci) charge gel dp_cut (L ci) alpha dpb dpc dp_mix (E_ind (edp s)) k ->
     p_ind (edp s') a = step_moment c pos (bx ci) charge gel dp_cut (L ci) alpha dpb dpc dp_mix (E_ind (edp s)) k a /\
     E_ind (edp s') a = dipole_field c pos (bx ci) gel dp_cut (L ci) alpha (p_ind (edp s')) a).
Proof. exact el_dipoles. Qed.
Print Assumptions C101_iteration.
Theorem C101_others_unchanged : forall bld DIPOLE phi dphi in_range charge alpha dpb dpc fel gel ggel dp_cut dp_tol dp_mix self_coef eweight sweight punish cs nconf,
  (forall ci, cnfstart (cs (S ci)) = (cnfstart (cs ci) + inconf (cs ci))%nat) ->
  (forall s t, dpb s t = dpb t s) -> (forall s t, dpc s t = dpc t s) ->
  forall pos bx rcut, (forall ci, (ci < nconf)%nat -> geometry (cs ci) pos (bx ci) rcut) ->
  forall L, (forall ci a, (ci < nconf)%nat -> (cnfstart (cs ci) <= a < cnfstart (cs ci) + inconf (cs ci))%nat ->
    all_neighbors (cs ci) pos (bx ci) rcut a (L ci a)) ->
  forall s, let s' := ElModel.calc_forces bld DIPOLE phi dphi in_range charge alpha dpb dpc fel gel ggel dp_cut dp_tol dp_mix self_coef eweight sweight punish cs nconf s in
  forall ci a, (ci < nconf)%nat -> (cnfstart (cs ci) <= a < cnfstart (cs ci) + inconf (cs ci))%nat -> alpha (typ (cs ci) a) = 0 -> p_ind (edp s') a = p_ind (edp s) a.
Proof. exact el_unpolar. Qed.
Print Assumptions C101_others_unchanged.
(** opposite charges with field G at the other atom and fields x, y left by an earlier call *)
Example C101_ex : forall bld phi dphi in_range fel gel ggel tol mix sc ew sw pu s x y,
  E_ind (edp s) 0%nat = V3 x 0 0 -> E_ind (edp s) 1%nat = V3 y 0 0 -> 0 < tol ->
  let s' := ElModel.calc_forces bld true phi dphi in_range pm1 all_one (fun _ _ => 0) (fun _ _ => 0) fel gel ggel 1 tol mix sc ew sw pu (duo kinds true) 1 s in
  let G := gel (1/10) in let p0 := x + -1 * G / 10 in let p1 := y - 1 * G / 10 in
  (sq (x - 2 * G * p1) + sq (y - 2 * G * p0)) / 6 < tol * tol ->
  p_ind (edp s') 0%nat = V3 p0 0 0 /\ p_ind (edp s') 1%nat = V3 p1 0 0.
Proof. exact duo_first_ex. Qed.

(** C102.  Without mixing the dipoles agree with the fields they produce, up to the tolerance,
    unless the iteration is given up ... *)
Theorem C102_consistent_partial : forall bld phi dphi in_range charge alpha dpb dpc fel gel ggel dp_cut dp_tol dp_mix self_coef eweight sweight punish cs nconf,
  (forall ci, cnfstart (cs (S ci)) = (cnfstart (cs ci) + inconf (cs ci))%nat) ->
  (forall s t, dpb s t = dpb t s) -> (forall s t, dpc s t = dpc t s) ->
  forall pos bx rcut, (forall ci, (ci < nconf)%nat -> geometry (cs ci) pos (bx ci) rcut) ->
  forall L, (forall ci a, (ci < nconf)%nat -> (cnfstart (cs ci) <= a < cnfstart (cs ci) + inconf (cs ci))%nat ->
    all_neighbors (cs ci) pos (bx ci) rcut a (L ci a)) ->
  dp_mix = 0 -> forall s ci, (ci < nconf)%nat -> let p := p_ind (edp (ElModel.calc_forces bld true phi dphi in_range charge alpha dpb dpc fel gel ggel dp_cut dp_tol dp_mix self_coef eweight sweight punish cs nconf s)) in let c := cs ci in
  (forall a, (cnfstart c <= a < cnfstart c + inconf c)%nat -> alpha (typ c a) <> 0 ->
     p a = moment_of c pos (bx ci) charge gel dp_cut (L ci) alpha dpb dpc (fun _ => v0) a) \/
  inconsistency c pos (bx ci) charge gel dp_cut (L ci) alpha dpb dpc p < dp_tol.
Proof. exact el_consistent. Qed.
Print Assumptions C102_consistent_partial.
(** ... with mixing they need not: the step that falls below the tolerance is that of the
    mixed fields. *)
Theorem C102_mixing_refuted : forall bld phi dphi in_range fel ggel sc ew sw pu, exists gel s tol mix,
  let e := E_ind (edp s) in
  let p := p_ind (edp (ElModel.calc_forces bld true phi dphi in_range pm1 all_one (fun _ _ => 0) (fun _ _ => 0) fel gel ggel 1 tol mix sc ew sw pu (duo kinds true) 1 s)) in
  0 < tol /\ 0 <= mix < 1 /\ gel (1/10) < 0 /\
  step_change (duo kinds true 0) elbow cube pm1 gel 1 duo_list all_one (fun _ _ => 0) (fun _ _ => 0) mix e 1 < tol /\
  (forall a, (a < 2)%nat -> p a = step_moment (duo kinds true 0) elbow cube pm1 gel 1 duo_list all_one (fun _ _ => 0) (fun _ _ => 0) mix e 1 a) /\
  2 * tol < inconsistency (duo kinds true 0) elbow cube pm1 gel 1 duo_list all_one (fun _ _ => 0) (fun _ _ => 0) p.
Proof. exact not_consistent. Qed.
Print Assumptions C102_mixing_refuted.

(** C103.  Slope of the energy in the dipole of one atom: it vanishes for dipoles induced by
    the opposite of the field the routine uses ... *)
Theorem C103_slope_partial : forall c pos bx rcut, geometry c pos bx rcut ->
  forall L, (forall a, (cnfstart c <= a < cnfstart c + inconf c)%nat -> all_neighbors c pos bx rcut a (L a)) ->
  forall charge rc g alpha dpb dpc, (forall s t, dpb s t = dpb t s) -> (forall s t, dpc s t = dpc t s) ->
  forall p a w, (cnfstart c <= a < cnfstart c + inconf c)%nat -> alpha (typ c a) <> 0 ->
  derivable_pt_lim (fun t => dip_energy c pos bx charge g rc L alpha dpb dpc (turned p a w t) + dip_self c alpha (turned p a w t)) 0
    (sprod w (vsub (p a) (moment_of c pos bx charge g rc L alpha dpb dpc (fun b => vscale (-1) (dipole_field c pos bx g rc L alpha p b)) a)) / alpha (typ c a)).
Proof. exact dip_slope. Qed.
Print Assumptions C103_slope_partial.
(** ... so it does not vanish at the dipoles of the routine, even if they agree with its
    fields. *)
Theorem C103_minimum_refuted : forall bld phi dphi in_range fel gel ggel tol mix sc ew sw pu, gel (1/10) < 0 -> 0 < tol ->
  exists s, let p := p_ind (edp (ElModel.calc_forces bld true phi dphi in_range pm1 all_one (fun _ _ => 0) (fun _ _ => 0) fel gel ggel 1 tol mix sc ew sw pu (duo kinds true) 1 s)) in
  (forall a, (a < 2)%nat -> p a = moment_of (duo kinds true 0) elbow cube pm1 gel 1 duo_list all_one (fun _ _ => 0) (fun _ _ => 0)
     (dipole_field (duo kinds true 0) elbow cube gel 1 duo_list all_one p) a) /\
  exists slope, slope < 0 /\
  derivable_pt_lim (fun t => dip_energy (duo kinds true 0) elbow cube pm1 gel 1 duo_list all_one (fun _ _ => 0) (fun _ _ => 0) (turned p 0 (V3 1 0 0) t) +
     dip_self (duo kinds true 0) all_one (turned p 0 (V3 1 0 0) t)) 0 slope.
Proof. exact not_stationary. Qed.
Print Assumptions C103_minimum_refuted.

(** C104.  With charges only, the result does not depend on earlier calls ... *)
Theorem C104_charges_only_partial : forall bld phi dphi in_range charge alpha dpb dpc fel gel ggel dp_cut dp_tol dp_mix self_coef eweight sweight punish cs nconf,
  (forall ci, cnfstart (cs (S ci)) = (cnfstart (cs ci) + inconf (cs ci))%nat) ->
  (forall s t r, phi s t r = phi t s r) -> (forall s t r, dphi s t r = dphi t s r) -> (forall s t r, in_range s t r = in_range t s r) ->
  (forall s t, dpb s t = dpb t s) -> (forall s t, dpc s t = dpc t s) ->
  forall pos bx rcut, (forall ci, (ci < nconf)%nat -> geometry (cs ci) pos (bx ci) rcut) ->
  forall L, (forall ci a, (ci < nconf)%nat -> (cnfstart (cs ci) <= a < cnfstart (cs ci) + inconf (cs ci))%nat ->
    all_neighbors (cs ci) pos (bx ci) rcut a (L ci a)) ->
  forall s1 s2, let r1 := edv (ElModel.calc_forces bld false phi dphi in_range charge alpha dpb dpc fel gel ggel dp_cut dp_tol dp_mix self_coef eweight sweight punish cs nconf s1) in let r2 := edv (ElModel.calc_forces bld false phi dphi in_range charge alpha dpb dpc fel gel ggel dp_cut dp_tol dp_mix self_coef eweight sweight punish cs nconf s2) in forall ci, (ci < nconf)%nat ->
  (forall a, (cnfstart (cs ci) <= a < cnfstart (cs ci) + inconf (cs ci))%nat -> frc r1 a = frc r2 a) /\
  en r1 ci = en r2 ci /\ (STRESS bld = true -> forall k, (k < 6)%nat -> str r1 ci k = str r2 ci k) /\ err r1 = err r2.
Proof. exact el_repeatable. Qed.
Print Assumptions C104_charges_only_partial.
(** ... with dipoles it does: the first step uses the fields left by the last call. *)
Theorem C104_repeat_refuted : forall bld phi dphi in_range fel ggel mix sc ew sw pu,
  (forall s t r, phi s t r = phi t s r) -> (forall s t r, dphi s t r = dphi t s r) -> (forall s t r, in_range s t r = in_range t s r) ->
  exists gel s tol, let calc := ElModel.calc_forces bld true phi dphi in_range pm1 all_one (fun _ _ => 0) (fun _ _ => 0) fel gel ggel 1 tol mix sc ew sw pu (duo kinds true) 1 in
  0 < tol /\ gel (1/10) < 0 /\ (forall a, E_ind (edp s) a = v0) /\ en (edv (calc (calc s))) 0 <> en (edv (calc s)) 0.
Proof. exact not_repeatable. Qed.
Print Assumptions C104_repeat_refuted.

(** C72 for this routine, with the tail functions of the code, which are smooth at the cutoff. *)
Theorem C72_charges_force_is_gradient : forall c pos bx rcut, geometry c pos bx rcut ->
  forall L, (forall a, (cnfstart c <= a < cnfstart c + inconf c)%nat -> all_neighbors c pos bx rcut a (L a)) ->
  forall a u, (cnfstart c <= a < cnfstart c + inconf c)%nat ->
  forall erfc kappa rc, (forall x, 0 < x -> derivable_pt_lim erfc x (- 2 / sqrt PI * exp (- (x * x)))) -> 0 < kappa ->
  forall charge,
  derivable_pt_lim (fun t => coulomb_energy c (moved pos a u t) bx charge (fun r => fst (fst (elstat_shift erfc false rc r kappa))) rc L) 0
    (- sprod u (coulomb_force c pos bx charge (fun r => snd (fst (elstat_shift erfc false rc r kappa))) rc L a)).
Proof. exact charges_gradient. Qed.
Print Assumptions C72_charges_force_is_gradient.
Theorem C72_dsf_force_is_gradient : forall c pos bx rcut, geometry c pos bx rcut ->
  forall L, (forall a, (cnfstart c <= a < cnfstart c + inconf c)%nat -> all_neighbors c pos bx rcut a (L a)) ->
  forall a u, (cnfstart c <= a < cnfstart c + inconf c)%nat ->
  forall erfc kappa rc, (forall x, 0 < x -> derivable_pt_lim erfc x (- 2 / sqrt PI * exp (- (x * x)))) -> 0 < kappa ->
  forall charge, 0 < rc ->
  derivable_pt_lim (fun t => coulomb_energy c (moved pos a u t) bx charge (fun r => fst (fst (elstat_dsf erfc false rc r kappa))) rc L) 0
    (- sprod u (coulomb_force c pos bx charge (fun r => snd (fst (elstat_dsf erfc false rc r kappa))) rc L a)).
Proof. exact dsf_gradient. Qed.
Print Assumptions C72_dsf_force_is_gradient.
(** for given dipoles *)
Theorem C72_dipoles_force_is_gradient_partial : forall c pos bx rcut, geometry c pos bx rcut ->
  forall L, (forall a, (cnfstart c <= a < cnfstart c + inconf c)%nat -> all_neighbors c pos bx rcut a (L a)) ->
  forall a u, (cnfstart c <= a < cnfstart c + inconf c)%nat ->
  forall erfc kappa rc, (forall x, 0 < x -> derivable_pt_lim erfc x (- 2 / sqrt PI * exp (- (x * x)))) -> 0 < kappa ->
  forall charge alpha dpb dpc, (forall s t, dpb s t = dpb t s) -> (forall s t, dpc s t = dpc t s) ->
  forall p, let f := fun r => fst (fst (elstat_shift erfc true rc r kappa)) in
  let g := fun r => snd (fst (elstat_shift erfc true rc r kappa)) in let h := fun r => snd (elstat_shift erfc true rc r kappa) in
  derivable_pt_lim (fun t => coulomb_energy c (moved pos a u t) bx charge f rc L +
      (dip_energy c (moved pos a u t) bx charge g rc L alpha dpb dpc p + dip_self c alpha p)) 0
    (- sprod u (vadd (coulomb_force c pos bx charge g rc L a) (dip_force c pos bx charge g h rc L alpha dpb dpc p a))).
Proof. exact dipoles_gradient. Qed.
Print Assumptions C72_dipoles_force_is_gradient_partial.

(** C32 for this routine. *)
Theorem C32_el_cell_independent : forall bld DIPOLE phi dphi in_range charge alpha dpb dpc fel gel ggel rc tol mix self_coef ew1 sw1 ew2 sw2 pu1 pu2 cs1 cs2 n1 n2,
  STRESS bld = true ->
  (forall ci, cnfstart (cs1 (S ci)) = (cnfstart (cs1 ci) + inconf (cs1 ci))%nat) ->
  (forall ci, cnfstart (cs2 (S ci)) = (cnfstart (cs2 ci) + inconf (cs2 ci))%nat) ->
  (forall s t r, phi s t r = phi t s r) -> (forall s t r, dphi s t r = dphi t s r) ->
  (forall s t r, in_range s t r = in_range t s r) -> (forall s t, dpb s t = dpb t s) -> (forall s t, dpc s t = dpc t s) ->
  forall pos1 pos2 bx1 bx2 rcut,
  (forall ci, (ci < n1)%nat -> geometry (cs1 ci) pos1 (bx1 ci) rcut) ->
  (forall ci, (ci < n2)%nat -> geometry (cs2 ci) pos2 (bx2 ci) rcut) ->
  (forall ci, (ci < n1)%nat -> DIPOLE = true -> forall a, (cnfstart (cs1 ci) <= a < cnfstart (cs1 ci) + inconf (cs1 ci))%nat -> alpha (typ (cs1 ci) a) <> 0 -> charge (typ (cs1 ci) a) <> 0) ->
  (forall ci, (ci < n2)%nat -> DIPOLE = true -> forall a, (cnfstart (cs2 ci) <= a < cnfstart (cs2 ci) + inconf (cs2 ci))%nat -> alpha (typ (cs2 ci) a) <> 0 -> charge (typ (cs2 ci) a) <> 0) ->
  forall x y m tau s1 s2, (x < n1)%nat -> (y < n2)%nat -> (0 < inconf (cs1 x))%nat -> conf_vol (cs1 x) <> 0 ->
  same_crystal (cs1 x) (cs2 y) pos1 pos2 (bx1 x) (bx2 y) m tau ->
  (forall A N, fst (tau (A, N)) = fst (tau (A, (0, 0, 0)%Z))) ->
  (forall A, (cnfstart (cs2 y) <= A < cnfstart (cs2 y) + inconf (cs2 y))%nat -> E_ind (edp s2) A = E_ind (edp s1) (fst (tau (A, (0, 0, 0)%Z)))) ->
  uf (cs1 x) = true -> us (cs1 x) = true -> uf (cs2 y) = true -> us (cs2 y) = true ->
  let r1 := ElModel.calc_forces bld DIPOLE phi dphi in_range charge alpha dpb dpc fel gel ggel rc tol mix self_coef ew1 sw1 pu1 cs1 n1 s1 in
  let r2 := ElModel.calc_forces bld DIPOLE phi dphi in_range charge alpha dpb dpc fel gel ggel rc tol mix self_coef ew2 sw2 pu2 cs2 n2 s2 in
  en (edv r1) x + energy_0 (cs1 x) = en (edv r2) y + energy_0 (cs2 y) /\
  (forall k, (k < 6)%nat -> str (edv r1) x k + stress_0 (cs1 x) k = str (edv r2) y k + stress_0 (cs2 y) k) /\
  (DIPOLE = true -> forall A, (cnfstart (cs2 y) <= A < cnfstart (cs2 y) + inconf (cs2 y))%nat -> alpha (typ (cs2 y) A) <> 0 ->
     p_ind (edp r2) A = p_ind (edp r1) (fst (tau (A, (0, 0, 0)%Z)))).
Proof. exact el_cell_independent. Qed.
Print Assumptions C32_el_cell_independent.
