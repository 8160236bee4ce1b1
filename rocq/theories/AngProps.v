(** Force routine of the angular potentials: C91, C32. *)
From Coq Require Import Reals ZArith List Bool Lia.
From Verif Require Import Vec NbrModel NbrProof NbrProof3 PairModel PairSpec PairProof3 GradProof CellSpec ThreeSpec ThreeProof ThreeProof2 ThreeProof5
  SwProof3 SwProof4 SwProof5 AngSpec AngModel AngProof2.
Import ListNotations.
Local Open Scope R_scope.

(** C91: forces, energies and stresses are the textbook ones, for all cells and neighbour lists. *)
Theorem C91_values : forall bld phi dphi in0 f df in1 g dg ew sw punish cs nconf,
  (forall ci, cnfstart (cs (S ci)) = (cnfstart (cs ci) + inconf (cs ci))%nat) ->
  (forall s t r, dphi s t r = dphi t s r) -> (forall s t r, in0 s t r = in0 t s r) ->
  forall pos bx rcut, (forall ci, (ci < nconf)%nat -> full_geometry (cs ci) pos (bx ci) rcut) ->
  forall L, (forall ci a, (ci < nconf)%nat -> (cnfstart (cs ci) <= a < cnfstart (cs ci) + inconf (cs ci))%nat ->
    all_neighbors (cs ci) pos (bx ci) rcut a (L ci a)) ->
  forall s, let s' := calc_forces bld phi dphi in0 f df in1 g dg ew sw punish cs nconf s in
  forall ci, (ci < nconf)%nat -> let c := cs ci in let b := bx ci in
  let h := ang f in1 g in let h1 := ang1 f df in1 g in let hc := angc f in1 dg in
  (uf c = true -> forall a, (cnfstart c <= a < cnfstart c + inconf c)%nat -> frc s' a = vscale (fscale bld cs ci a)
     (vsub (vadd (pair_force c pos b dphi in0 (L ci) a) (three_force c pos b h1 hc (L ci) a)) (force_0 c a))) /\
  (uf c = false -> forall a, (cnfstart c <= a < cnfstart c + inconf c)%nat -> frc s' a = v0) /\
  en s' ci = (pair_energy c pos b phi in0 (L ci) + three_energy c pos b h (L ci)) / INR (inconf c) - energy_0 c /\
  (STRESS bld = true -> forall k, (k < 6)%nat -> str s' ci k =
     (if (uf c && us c)%bool then (pair_virial c pos b dphi in0 (L ci) k + three_virial c pos b h1 hc (L ci) k) / conf_vol c else 0)
     - stress_0 c k).
Proof. exact ang_values. Qed.
Print Assumptions C91_values.
Example C91_ex : (forall ci, cnfstart (bent (S ci)) = (cnfstart (bent ci) + inconf (bent ci))%nat) /\
  full_geometry (bent 0) elbow cube (fun _ _ => 12/100) /\
  (forall a, (a < 3)%nat -> all_neighbors (bent 0) elbow cube (fun _ _ => 12/100) a (elbow_list a)).
Proof. exact (conj (proj1 bent_ex) (conj (proj1 (proj2 bent_ex)) (proj1 (proj2 (proj2 bent_ex))))). Qed.

(** The forces are minus the gradient of the energy where the functions, cut off, are differentiable. *)
Theorem C91_gradient : forall phi dphi in0 f df in1 g dg c pos bx rcut, full_geometry c pos bx rcut ->
  forall L, (forall a, (cnfstart c <= a < cnfstart c + inconf c)%nat -> all_neighbors c pos bx rcut a (L a)) ->
  (forall s t r, dphi s t r = dphi t s r) -> (forall s t r, in0 s t r = in0 t s r) ->
  (forall i v, (cnfstart c <= i < cnfstart c + inconf c)%nat -> In v (L i) ->
     derivable_pt_lim (off in0 phi (typ c i) (typ c (fst v))) (dist pos bx i v) (off in0 dphi (typ c i) (typ c (fst v)) (dist pos bx i v)) /\
     derivable_pt_lim (off in1 f (typ c i) (typ c (fst v))) (dist pos bx i v) (off in1 df (typ c i) (typ c (fst v)) (dist pos bx i v))) ->
  (forall i x, derivable_pt_lim (g i) x (dg i x)) ->
  forall a u, (cnfstart c <= a < cnfstart c + inconf c)%nat ->
  derivable_pt_lim (fun t => pair_energy c (moved pos a u t) bx phi in0 L + three_energy c (moved pos a u t) bx (ang f in1 g) L) 0
    (- sprod u (vadd (pair_force c pos bx dphi in0 L a) (three_force c pos bx (ang1 f df in1 g) (angc f in1 dg) L a))).
Proof. exact ang_gradient. Qed.
Print Assumptions C91_gradient.
(** phi and f both r*r, cut off at 1/5 *)
Example C91_gradient_ex : forall i v, (i < 3)%nat -> In v (elbow_list i) -> forall s t,
  derivable_pt_lim (off short sqr2 s t) (dist elbow cube i v) (off short dbl s t (dist elbow cube i v)).
Proof. exact bent_derivable. Qed.

(** Newton's third law. *)
Theorem C91_sum_zero : forall bld phi dphi in0 f df in1 g dg ew sw punish cs nconf,
  (forall ci, cnfstart (cs (S ci)) = (cnfstart (cs ci) + inconf (cs ci))%nat) ->
  (forall s t r, dphi s t r = dphi t s r) -> (forall s t r, in0 s t r = in0 t s r) ->
  forall pos bx rcut, (forall ci, (ci < nconf)%nat -> full_geometry (cs ci) pos (bx ci) rcut) ->
  forall L, (forall ci a, (ci < nconf)%nat -> (cnfstart (cs ci) <= a < cnfstart (cs ci) + inconf (cs ci))%nat ->
    all_neighbors (cs ci) pos (bx ci) rcut a (L ci a)) ->
  forall s, let s' := calc_forces bld phi dphi in0 f df in1 g dg ew sw punish cs nconf s in
  forall ci, (ci < nconf)%nat -> uf (cs ci) = true -> FWEIGHT bld = false ->
  vsum (fun a => vadd (frc s' a) (force_0 (cs ci) a)) (seq (cnfstart (cs ci)) (inconf (cs ci))) = v0.
Proof. exact ang_sum_zero. Qed.
Print Assumptions C91_sum_zero.

(** The returned error sum: neither forces nor stresses ask whether the configuration uses them. *)
Theorem C91_error_sum_partial : forall bld phi dphi in0 f df in1 g dg ew sw punish cs nconf,
  (forall ci, cnfstart (cs (S ci)) = (cnfstart (cs ci) + inconf (cs ci))%nat) ->
  (forall s t r, dphi s t r = dphi t s r) -> (forall s t r, in0 s t r = in0 t s r) ->
  forall pos bx rcut, (forall ci, (ci < nconf)%nat -> full_geometry (cs ci) pos (bx ci) rcut) ->
  forall L, (forall ci a, (ci < nconf)%nat -> (cnfstart (cs ci) <= a < cnfstart (cs ci) + inconf (cs ci))%nat ->
    all_neighbors (cs ci) pos (bx ci) rcut a (L ci a)) ->
  forall s, let s' := calc_forces bld phi dphi in0 f df in1 g dg ew sw punish cs nconf s in
  err s' = rsumf (fun ci => 
     rsumf (fun a => if (negb (CONTRIB bld) || contrib (cs ci) a)%bool
                     then conf_weight (cs ci) * sqv (frc s' a) else 0) (seq (cnfstart (cs ci)) (inconf (cs ci))) +
     conf_weight (cs ci) * ew * sq (en s' ci) +
     (if STRESS bld then rsumf (fun k => conf_weight (cs ci) * sw * sq (str s' ci k)) (seq 0 6) else 0)) (seq 0 nconf) + punish.
Proof. exact ang_error. Qed.
Print Assumptions C91_error_sum_partial.
(** A configuration whose forces (and so stresses) are not used still adds its reference stresses
    to the error sum. *)
Theorem C91_unused_stress_refuted : exists cs pos bx rcut,
  (forall ci, cnfstart (cs (S ci)) = (cnfstart (cs ci) + inconf (cs ci))%nat) /\
  full_geometry (cs 0%nat) pos bx rcut /\ uf (cs 0%nat) = false /\
  forall bld phi dphi in0 f df in1 g dg s, STRESS bld = true ->
  (forall s t r, dphi s t r = dphi t s r) -> (forall s t r, in0 s t r = in0 t s r) ->
  err (calc_forces bld phi dphi in0 f df in1 g dg 0 1 0 cs 1 s) = 6.
Proof. exact unused_stress_refuted. Qed.
Print Assumptions C91_unused_stress_refuted.

(** C32 for this routine, for all cells. *)
Theorem C32_ang_cell_independent : forall bld phi dphi in0 f df in1 g dg ew1 sw1 ew2 sw2 pu1 pu2 cs1 cs2 n1 n2,
  STRESS bld = true ->
  (forall s t r, dphi s t r = dphi t s r) -> (forall s t r, in0 s t r = in0 t s r) ->
  (forall ci, cnfstart (cs1 (S ci)) = (cnfstart (cs1 ci) + inconf (cs1 ci))%nat) ->
  (forall ci, cnfstart (cs2 (S ci)) = (cnfstart (cs2 ci) + inconf (cs2 ci))%nat) ->
  forall pos1 pos2 bx1 bx2 rcut,
  (forall ci, (ci < n1)%nat -> full_geometry (cs1 ci) pos1 (bx1 ci) rcut) ->
  (forall ci, (ci < n2)%nat -> full_geometry (cs2 ci) pos2 (bx2 ci) rcut) ->
  forall x y m tau s1 s2, (x < n1)%nat -> (y < n2)%nat -> (0 < inconf (cs1 x))%nat -> conf_vol (cs1 x) <> 0 ->
  same_crystal (cs1 x) (cs2 y) pos1 pos2 (bx1 x) (bx2 y) m tau ->
  uf (cs1 x) = true -> us (cs1 x) = true -> uf (cs2 y) = true -> us (cs2 y) = true ->
  let r1 := calc_forces bld phi dphi in0 f df in1 g dg ew1 sw1 pu1 cs1 n1 s1 in
  let r2 := calc_forces bld phi dphi in0 f df in1 g dg ew2 sw2 pu2 cs2 n2 s2 in
  en r1 x + energy_0 (cs1 x) = en r2 y + energy_0 (cs2 y) /\
  forall k, (k < 6)%nat -> str r1 x k + stress_0 (cs1 x) k = str r2 y k + stress_0 (cs2 y) k.
Proof. exact ang_cell_independent. Qed.
Print Assumptions C32_ang_cell_independent.
