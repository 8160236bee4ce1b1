(** Force routine of the MEAM potentials: C97, C98, C72, C32. *)
From Coq Require Import Reals ZArith List Bool Lia.
From Verif Require Import Vec NbrModel NbrProof NbrProof3 PairModel PairProof PairSpec PairProof2 PairProof3 EamModel
  GradProof CellSpec ThreeSpec ThreeProof ThreeProof5 SwProof3 SwProof4 SwProof5 AngSpec AngProof2 MeamModel MeamSpec MeamProof3 MeamProof4 MeamProof5.
Import ListNotations.
Local Open Scope R_scope.

(** C97: all densities inside the tables of the embedding functions. *)
Theorem C97_textbook_meam : forall bld phi dphi in0 dens ddens reach f df in2 g dg F dF FA dFA fbegin fend fstep eweight sweight limit_0 punish natoms cs nconf,
  (forall ci, cnfstart (cs (S ci)) = (cnfstart (cs ci) + inconf (cs ci))%nat) ->
  (forall s t r, dphi s t r = dphi t s r) -> (forall s t r, in0 s t r = in0 t s r) ->
  forall pos bx rcut, (forall ci, (ci < nconf)%nat -> full_geometry (cs ci) pos (bx ci) rcut) ->
  forall L, (forall ci a, (ci < nconf)%nat -> (cnfstart (cs ci) <= a < cnfstart (cs ci) + inconf (cs ci))%nat ->
    all_neighbors (cs ci) pos (bx ci) rcut a (L ci a)) ->
  (forall ci a, (ci < nconf)%nat -> (cnfstart (cs ci) <= a < cnfstart (cs ci) + inconf (cs ci))%nat ->
     let x := meam_density (cs ci) pos (bx ci) dens reach f in2 g (L ci) a in
     fbegin (typ (cs ci) a) <= x <= fend (typ (cs ci) a) /\ (APOT bld = true -> RESCALE bld = false -> 1/10 <= x)) ->
  forall s, let s' := mdv (MeamModel.calc_forces bld phi dphi in0 dens ddens reach f df in2 g dg F dF FA dFA fbegin fend fstep eweight sweight limit_0 punish natoms cs nconf s) in
  forall ci, (ci < nconf)%nat ->
  (uf (cs ci) = true -> forall a, (cnfstart (cs ci) <= a < cnfstart (cs ci) + inconf (cs ci))%nat ->
     frc s' a = vscale (fscale (base bld) cs ci a) (vsub (vadd (pair_force (cs ci) pos (bx ci) dphi in0 (L ci) a)
        (meam_force (cs ci) pos (bx ci) dens ddens reach f df in2 g dg dF (L ci) a)) (force_0 (cs ci) a))) /\
  (uf (cs ci) = false -> forall a, (cnfstart (cs ci) <= a < cnfstart (cs ci) + inconf (cs ci))%nat -> frc s' a = v0) /\
  en s' ci = (pair_energy (cs ci) pos (bx ci) phi in0 (L ci) + meam_energy (cs ci) pos (bx ci) dens reach f in2 g F (L ci)) / INR (inconf (cs ci)) - energy_0 (cs ci) /\
  (STRESS (base bld) = true -> forall k, (k < 6)%nat -> str s' ci k =
     (if (uf (cs ci) && us (cs ci))%bool then (pair_virial (cs ci) pos (bx ci) dphi in0 (L ci) k +
        meam_virial (cs ci) pos (bx ci) dens ddens reach f df in2 g dg dF (L ci) k) / conf_vol (cs ci) else 0) - stress_0 (cs ci) k).
Proof. exact meam_values_in. Qed.
Print Assumptions C97_textbook_meam.
(** three atoms at a right angle; transfer function r, f = 1, g(x) = 1 + x *)
Example C97_ex : ((forall ci, cnfstart (bent (S ci)) = (cnfstart (bent ci) + inconf (bent ci))%nat) /\
  full_geometry (bent 0) elbow cube (fun _ _ => 12/100) /\
  (forall a, (a < 3)%nat -> all_neighbors (bent 0) elbow cube (fun _ _ => 12/100) a (elbow_list a))) /\
  meam_density (bent 0) elbow cube lin1 yes1 one2 yes2 plus1 elbow_list 0 = 12/10 /\
  meam_density (bent 0) elbow cube lin1 yes1 one2 yes2 plus1 elbow_list 1 = 1/10 /\
  meam_density (bent 0) elbow cube lin1 yes1 one2 yes2 plus1 elbow_list 2 = 1/10.
Proof. exact (conj (conj (proj1 bent_ex) (conj (proj1 (proj2 bent_ex)) (proj1 (proj2 (proj2 bent_ex))))) bent_density). Qed.
(** Without the condition on the densities: the embedding function is [continued] beyond its table. *)
Theorem C97_any_density : forall bld phi dphi in0 dens ddens reach f df in2 g dg F dF FA dFA fbegin fend fstep eweight sweight limit_0 punish natoms cs nconf,
  (forall ci, cnfstart (cs (S ci)) = (cnfstart (cs ci) + inconf (cs ci))%nat) ->
  (forall s t r, dphi s t r = dphi t s r) -> (forall s t r, in0 s t r = in0 t s r) ->
  forall pos bx rcut, (forall ci, (ci < nconf)%nat -> full_geometry (cs ci) pos (bx ci) rcut) ->
  forall L, (forall ci a, (ci < nconf)%nat -> (cnfstart (cs ci) <= a < cnfstart (cs ci) + inconf (cs ci))%nat ->
    all_neighbors (cs ci) pos (bx ci) rcut a (L ci a)) ->
  forall s, let s' := mdv (MeamModel.calc_forces bld phi dphi in0 dens ddens reach f df in2 g dg F dF FA dFA fbegin fend fstep eweight sweight limit_0 punish natoms cs nconf s) in
  let E := fun t x => fst (continued (RESCALE bld) (APOT bld) (F t) (dF t) (FA t) (dFA t) (fbegin t) (fend t) (fstep t) x) in
  let dE := fun t x => snd (continued (RESCALE bld) (APOT bld) (F t) (dF t) (FA t) (dFA t) (fbegin t) (fend t) (fstep t) x) in
  forall ci, (ci < nconf)%nat ->
  (uf (cs ci) = true -> forall a, (cnfstart (cs ci) <= a < cnfstart (cs ci) + inconf (cs ci))%nat ->
     frc s' a = vscale (fscale (base bld) cs ci a) (vsub (vadd (pair_force (cs ci) pos (bx ci) dphi in0 (L ci) a)
        (meam_force (cs ci) pos (bx ci) dens ddens reach f df in2 g dg dE (L ci) a)) (force_0 (cs ci) a))) /\
  (uf (cs ci) = false -> forall a, (cnfstart (cs ci) <= a < cnfstart (cs ci) + inconf (cs ci))%nat -> frc s' a = v0) /\
  en s' ci = (pair_energy (cs ci) pos (bx ci) phi in0 (L ci) + meam_energy (cs ci) pos (bx ci) dens reach f in2 g E (L ci)) / INR (inconf (cs ci)) - energy_0 (cs ci) /\
  (STRESS (base bld) = true -> forall k, (k < 6)%nat -> str s' ci k =
     (if (uf (cs ci) && us (cs ci))%bool then (pair_virial (cs ci) pos (bx ci) dphi in0 (L ci) k +
        meam_virial (cs ci) pos (bx ci) dens ddens reach f df in2 g dg dE (L ci) k) / conf_vol (cs ci) else 0) - stress_0 (cs ci) k).
Proof. exact meam_values. Qed.
Print Assumptions C97_any_density.
Theorem C97_forces_sum_to_zero : forall bld phi dphi in0 dens ddens reach f df in2 g dg F dF FA dFA fbegin fend fstep eweight sweight limit_0 punish natoms cs nconf,
  (forall ci, cnfstart (cs (S ci)) = (cnfstart (cs ci) + inconf (cs ci))%nat) ->
  (forall s t r, dphi s t r = dphi t s r) -> (forall s t r, in0 s t r = in0 t s r) ->
  forall pos bx rcut, (forall ci, (ci < nconf)%nat -> full_geometry (cs ci) pos (bx ci) rcut) ->
  forall L, (forall ci a, (ci < nconf)%nat -> (cnfstart (cs ci) <= a < cnfstart (cs ci) + inconf (cs ci))%nat ->
    all_neighbors (cs ci) pos (bx ci) rcut a (L ci a)) ->
  forall s, let s' := mdv (MeamModel.calc_forces bld phi dphi in0 dens ddens reach f df in2 g dg F dF FA dFA fbegin fend fstep eweight sweight limit_0 punish natoms cs nconf s) in
  forall ci, (ci < nconf)%nat -> uf (cs ci) = true -> FWEIGHT (base bld) = false ->
  vsum (fun a => vadd (frc s' a) (force_0 (cs ci) a)) (seq (cnfstart (cs ci)) (inconf (cs ci))) = v0.
Proof. exact meam_sum_zero. Qed.
Print Assumptions C97_forces_sum_to_zero.

(** C72 for this routine. *)
Theorem C72_meam_force_is_gradient : forall phi dphi in0 dens ddens reach f df in2 g dg E dE c pos bx rcut, full_geometry c pos bx rcut ->
  forall L, (forall a, (cnfstart c <= a < cnfstart c + inconf c)%nat -> all_neighbors c pos bx rcut a (L a)) ->
  (forall s t r, dphi s t r = dphi t s r) -> (forall s t r, in0 s t r = in0 t s r) ->
  (forall i v, (cnfstart c <= i < cnfstart c + inconf c)%nat -> In v (L i) ->
     let r := dist pos bx i v in let s := typ c i in let t := typ c (fst v) in
     derivable_pt_lim (off in0 phi s t) r (off in0 dphi s t r) /\
     derivable_pt_lim (cutd reach dens t) r (cutd reach ddens t r) /\
     derivable_pt_lim (off in2 f s t) r (off in2 df s t r)) ->
  (forall i x, derivable_pt_lim (g i) x (dg i x)) ->
  (forall i, (cnfstart c <= i < cnfstart c + inconf c)%nat -> let x := meam_density c pos bx dens reach f in2 g L i in derivable_pt_lim (E (typ c i)) x (dE (typ c i) x)) ->
  forall a u, (cnfstart c <= a < cnfstart c + inconf c)%nat ->
  derivable_pt_lim (fun t => pair_energy c (moved pos a u t) bx phi in0 L + meam_energy c (moved pos a u t) bx dens reach f in2 g E L) 0
    (- sprod u (vadd (pair_force c pos bx dphi in0 L a) (meam_force c pos bx dens ddens reach f df in2 g dg dE L a))).
Proof. exact meam_full_gradient. Qed.
Print Assumptions C72_meam_force_is_gradient.
(** phi and f both r*r, cut off at 1/5 *)
Example C72_meam_ex : forall i v, (i < 3)%nat -> In v (elbow_list i) -> forall s t,
  derivable_pt_lim (off short sqr2 s t) (dist elbow cube i v) (off short dbl s t (dist elbow cube i v)).
Proof. exact bent_derivable. Qed.

(** C32 for this routine, for all cells. *)
Theorem C32_meam_cell_independent : forall bld phi dphi in0 dens ddens reach f df in2 g dg F dF FA dFA fbegin fend fstep
  ew1 sw1 ew2 sw2 l1 l2 pu1 pu2 na1 na2 cs1 cs2 n1 n2,
  STRESS (base bld) = true ->
  (forall s t r, dphi s t r = dphi t s r) -> (forall s t r, in0 s t r = in0 t s r) ->
  (forall ci, cnfstart (cs1 (S ci)) = (cnfstart (cs1 ci) + inconf (cs1 ci))%nat) ->
  (forall ci, cnfstart (cs2 (S ci)) = (cnfstart (cs2 ci) + inconf (cs2 ci))%nat) ->
  forall pos1 pos2 bx1 bx2 rcut,
  (forall ci, (ci < n1)%nat -> full_geometry (cs1 ci) pos1 (bx1 ci) rcut) ->
  (forall ci, (ci < n2)%nat -> full_geometry (cs2 ci) pos2 (bx2 ci) rcut) ->
  forall x y m tau s1 s2, (x < n1)%nat -> (y < n2)%nat -> (0 < inconf (cs1 x))%nat -> conf_vol (cs1 x) <> 0 ->
  same_crystal (cs1 x) (cs2 y) pos1 pos2 (bx1 x) (bx2 y) m tau ->
  uf (cs1 x) = true -> us (cs1 x) = true -> uf (cs2 y) = true -> us (cs2 y) = true ->
  let r1 := mdv (MeamModel.calc_forces bld phi dphi in0 dens ddens reach f df in2 g dg F dF FA dFA fbegin fend fstep ew1 sw1 l1 pu1 na1 cs1 n1 s1) in
  let r2 := mdv (MeamModel.calc_forces bld phi dphi in0 dens ddens reach f df in2 g dg F dF FA dFA fbegin fend fstep ew2 sw2 l2 pu2 na2 cs2 n2 s2) in
  en r1 x + energy_0 (cs1 x) = en r2 y + energy_0 (cs2 y) /\
  forall k, (k < 6)%nat -> str r1 x k + stress_0 (cs1 x) k = str r2 y k + stress_0 (cs2 y) k.
Proof. exact meam_cell_independent. Qed.
Print Assumptions C32_meam_cell_independent.

(** C98: the returned error sum. *)
Theorem C98_error_sum_partial : forall bld phi dphi in0 dens ddens reach f df in2 g dg F dF FA dFA fbegin fend fstep eweight sweight limit_0 punish natoms cs nconf,
  (forall ci, cnfstart (cs (S ci)) = (cnfstart (cs ci) + inconf (cs ci))%nat) ->
  (forall s t r, dphi s t r = dphi t s r) -> (forall s t r, in0 s t r = in0 t s r) ->
  forall pos bx rcut, (forall ci, (ci < nconf)%nat -> full_geometry (cs ci) pos (bx ci) rcut) ->
  forall L, (forall ci a, (ci < nconf)%nat -> (cnfstart (cs ci) <= a < cnfstart (cs ci) + inconf (cs ci))%nat ->
    all_neighbors (cs ci) pos (bx ci) rcut a (L ci a)) ->
  forall s, let r := MeamModel.calc_forces bld phi dphi in0 dens ddens reach f df in2 g dg F dF FA dFA fbegin fend fstep eweight sweight limit_0 punish natoms cs nconf s in let s' := mdv r in
  err s' = rsumf (fun ci =>
     rsumf (fun a => if (negb (CONTRIB (base bld)) || contrib (cs ci) a)%bool
                     then conf_weight (cs ci) * sqv (frc s' a) else 0) (seq (cnfstart (cs ci)) (inconf (cs ci))) +
     conf_weight (cs ci) * eweight * sq (en s' ci) +
     (if STRESS (base bld) then rsumf (fun k => conf_weight (cs ci) * sweight * sq (str s' ci k)) (seq 0 6) else 0) +
     (if RESCALE bld then sq (mlim r ci) else 0)) (seq 0 nconf) + punish + (if RESCALE bld then 0 else sq (mdum r)).
Proof. exact meam_error. Qed.
Print Assumptions C98_error_sum_partial.
(** The limiting entries contain the weight before they are squared; the mean density is
    constrained to 1 whatever the build says about punishments. *)
Theorem C98_limits : forall bld phi dphi in0 dens ddens reach f df in2 g dg F dF FA dFA fbegin fend fstep eweight sweight limit_0 punish natoms cs nconf,
  forall pos bx rcut, (forall ci, (ci < nconf)%nat -> full_geometry (cs ci) pos (bx ci) rcut) ->
  forall L, (forall ci a, (ci < nconf)%nat -> (cnfstart (cs ci) <= a < cnfstart (cs ci) + inconf (cs ci))%nat ->
    all_neighbors (cs ci) pos (bx ci) rcut a (L ci a)) ->
  forall s, let r := MeamModel.calc_forces bld phi dphi in0 dens ddens reach f df in2 g dg F dF FA dFA fbegin fend fstep eweight sweight limit_0 punish natoms cs nconf s in
  (RESCALE bld = true -> forall ci, (ci < nconf)%nat -> mlim r ci =
     conf_weight (cs ci) * (1000 * rsumf (fun a => sq (excess (fbegin (typ (cs ci) a)) (fend (typ (cs ci) a))
        (meam_density (cs ci) pos (bx ci) dens reach f in2 g (L ci) a))) (seq (cnfstart (cs ci)) (inconf (cs ci))) - limit_0 ci)) /\
  (RESCALE bld = false -> mdum r =
     100 * (rsumf (fun ci => rsumf (meam_density (cs ci) pos (bx ci) dens reach f in2 g (L ci)) (seq (cnfstart (cs ci)) (inconf (cs ci)))) (seq 0 nconf) / INR natoms - 1)).
Proof. exact meam_limits. Qed.
Print Assumptions C98_limits.
(** Twice the weight is four times the error. *)
Theorem C98_limit_weight_refuted : exists cs1 cs2 : nat -> conf,
  conf_weight (cs1 0%nat) = 1 /\ conf_weight (cs2 0%nat) = 2 /\
  (forall k, cs2 k = mk_conf (cnfstart (cs1 k)) (inconf (cs1 k)) (uf (cs1 k)) (us (cs1 k)) 2 (conf_vol (cs1 k)) (nb (cs1 k)) (typ (cs1 k)) (contrib (cs1 k))
     (absforce (cs1 k)) (force_0 (cs1 k)) (energy_0 (cs1 k)) (stress_0 (cs1 k))) /\
  forall bld natoms s, RESCALE bld = true ->
  let run cs := err (mdv (MeamModel.calc_forces bld z2 z2 yes2 z1 z1 yes1 z2 z2 yes2 z1 z1 z1 z1 z1 z1 (fun _ => 1) (fun _ => 2) (fun _ => 1/10) 0 0 (fun _ => 0) 0 natoms cs 1 s)) in
  run cs2 = 4 * run cs1 /\ 0 < run cs1.
Proof. exact limit_weight_refuted. Qed.
Print Assumptions C98_limit_weight_refuted.
(** A configuration whose forces are not used still adds its reference stresses. *)
Theorem C98_unused_stress_refuted : exists cs pos bx rcut,
  (forall ci, cnfstart (cs (S ci)) = (cnfstart (cs ci) + inconf (cs ci))%nat) /\
  full_geometry (cs 0%nat) pos bx rcut /\ uf (cs 0%nat) = false /\
  forall bld phi dphi in0 dens ddens reach f df in2 g dg F dF FA dFA fbegin fend fstep natoms s, STRESS (base bld) = true -> 
  (forall s t r, dphi s t r = dphi t s r) -> (forall s t r, in0 s t r = in0 t s r) ->
  let r := MeamModel.calc_forces bld phi dphi in0 dens ddens reach f df in2 g dg F dF FA dFA fbegin fend fstep 0 1 (fun _ => 0) 0 natoms cs 1 s in
  err (mdv r) = 6 + if RESCALE bld then sq (mlim r 0%nat) else sq (mdum r).
Proof. exact meam_unused_stress_refuted. Qed.
Print Assumptions C98_unused_stress_refuted.
Example C98_ex : forall w, full_geometry (heavy w 0) elbow cube (fun _ _ => 12/100).
Proof. exact heavy_full. Qed.
