(** Tersoff force routines: C92 (standard form), C93 (modified form), C32. *)
From Coq Require Import Reals ZArith List Bool.
From Verif Require Import Vec NbrModel NbrProof NbrProof3 PairModel PairSpec PairProof3 LammpsModel GradProof CellSpec ThreeSpec ThreeProof ThreeProof2
  SwModel SwSpec SwProof SwProof2 SwProof3 SwProof4 SwProof5 BoSpec TersModel TersSpec TersProof2 TersProof3 TersProof4 TersProof5.
Import ListNotations.
Local Open Scope R_scope.

(** C92: what calc_forces of the standard form finds for configuration ci, for any full neighbour
    lists: repulsive pair terms plus bond-order terms.  The repulsive terms of an atom with its own
    images count with weight 1/2 in energy and stress. *)
Theorem C92_values : forall bld pow0 V n omega ew sw punish cs nconf,
  (forall ci, cnfstart (cs (S ci)) = (cnfstart (cs ci) + inconf (cs ci))%nat) ->
  forall pos bx rcut, (forall ci, (ci < nconf)%nat -> full_geometry (cs ci) pos (bx ci) rcut) ->
  forall L, (forall ci a, (ci < nconf)%nat -> (cnfstart (cs ci) <= a < cnfstart (cs ci) + inconf (cs ci))%nat ->
    all_neighbors (cs ci) pos (bx ci) rcut a (L ci a)) ->
  forall s, let s' := TersModel.calc_forces bld pow0 V n ew sw punish omega cs nconf s in
  forall ci, (ci < nconf)%nat -> let c := cs ci in let b := bx ci in let P := par_of V omega n in
  (uf c = true -> forall a, (cnfstart c <= a < cnfstart c + inconf c)%nat -> frc s' a = vscale (fscale bld cs ci a)
     (vsub (vadd (pair_force c pos b (repel' P) (reach P) (L ci) a)
                 (bo_force c pos b (attract P) (attract' P) (order (cpow pow0) P) (order' (cpow pow0) P)
       (around P) around1 (around2 P) (aroundc P) (L ci) a)) (force_0 c a))) /\
  (uf c = false -> forall a, (cnfstart c <= a < cnfstart c + inconf c)%nat ->
     frc s' a = bo_force c pos b (attract P) (attract' P) (order (cpow pow0) P) (order' (cpow pow0) P)
       (around P) around1 (around2 P) (aroundc P) (L ci) a) /\
  en s' ci = (pair_energy c pos b (repel P) (reach P) (L ci) - 1/2 * self_energy c pos b (L ci) (repel P) (reach P)
              + bo_energy c pos b (attract P) (order (cpow pow0) P) (around P) (L ci)) / INR (inconf c) - energy_0 c /\
  (STRESS bld = true -> forall k, (k < 6)%nat -> str s' ci k =
     if us c
     then if uf c then (pair_virial c pos b (repel' P) (reach P) (L ci) k - 1/2 * self_virial c pos b (L ci) (repel' P) (reach P) k
                        + bo_virial c pos b (attract P) (attract' P) (order (cpow pow0) P) (order' (cpow pow0) P)
       (around P) around1 (around2 P) (aroundc P) (L ci) k) / conf_vol c - stress_0 c k
          else bo_virial c pos b (attract P) (attract' P) (order (cpow pow0) P) (order' (cpow pow0) P)
       (around P) around1 (around2 P) (aroundc P) (L ci) k
     else 0).
Proof. exact ters_values. Qed.
Print Assumptions C92_values.

(** Textbook values, where no atom is a neighbour of an image of itself. *)
Theorem C92_textbook_partial : forall bld pow0 V n omega ew sw punish cs nconf,
  (forall ci, cnfstart (cs (S ci)) = (cnfstart (cs ci) + inconf (cs ci))%nat) ->
  forall pos bx rcut, (forall ci, (ci < nconf)%nat -> full_geometry (cs ci) pos (bx ci) rcut) ->
  forall L, (forall ci a, (ci < nconf)%nat -> (cnfstart (cs ci) <= a < cnfstart (cs ci) + inconf (cs ci))%nat ->
    all_neighbors (cs ci) pos (bx ci) rcut a (L ci a)) ->
  forall s, let s' := TersModel.calc_forces bld pow0 V n ew sw punish omega cs nconf s in
  forall ci, (ci < nconf)%nat -> let c := cs ci in let b := bx ci in let P := par_of V omega n in
  (uf c = true -> forall a, (cnfstart c <= a < cnfstart c + inconf c)%nat -> frc s' a = vscale (fscale bld cs ci a)
     (vsub (vadd (pair_force c pos b (repel' P) (reach P) (L ci) a)
                 (bo_force c pos b (attract P) (attract' P) (order (cpow pow0) P) (order' (cpow pow0) P)
       (around P) around1 (around2 P) (aroundc P) (L ci) a)) (force_0 c a))) /\
  (no_self c (L ci) ->
   en s' ci = (pair_energy c pos b (repel P) (reach P) (L ci) + bo_energy c pos b (attract P) (order (cpow pow0) P) (around P) (L ci)) / INR (inconf c) - energy_0 c /\
   (STRESS bld = true -> uf c = true -> us c = true -> forall k, (k < 6)%nat ->
     str s' ci k = (pair_virial c pos b (repel' P) (reach P) (L ci) k + bo_virial c pos b (attract P) (attract' P) (order (cpow pow0) P) (order' (cpow pow0) P)
       (around P) around1 (around2 P) (aroundc P) (L ci) k)
                   / conf_vol c - stress_0 c k)).
Proof. exact ters_textbook. Qed.
Print Assumptions C92_textbook_partial.
Example C92_ex : (forall ci, cnfstart (bent (S ci)) = (cnfstart (bent ci) + inconf (bent ci))%nat) /\
  full_geometry (bent 0) elbow cube (fun _ _ => 12/100) /\
  (forall a, (a < 3)%nat -> all_neighbors (bent 0) elbow cube (fun _ _ => 12/100) a (elbow_list a)) /\
  no_self (bent 0) elbow_list.
Proof. exact bent_ex. Qed.
(** Without that condition the energy is not the textbook one. *)
Theorem C92_self_refuted : exists V omega n cs pos bx rcut s,
  (forall ci, cnfstart (cs (S ci)) = (cnfstart (cs ci) + inconf (cs ci))%nat) /\
  full_geometry (cs 0%nat) pos bx rcut /\ uf (cs 0%nat) = true /\
  exists L, (forall a, (cnfstart (cs 0%nat) <= a < cnfstart (cs 0%nat) + inconf (cs 0%nat))%nat -> all_neighbors (cs 0%nat) pos bx rcut a (L a)) /\
  forall bld pow0 ew sw, let P := par_of V omega n in
  en (TersModel.calc_forces bld pow0 V n ew sw 0 omega cs 1 s) 0%nat <>
  (pair_energy (cs 0%nat) pos bx (repel P) (reach P) L + bo_energy (cs 0%nat) pos bx (attract P) (order (cpow pow0) P) (around P) L)
    / INR (inconf (cs 0%nat)) - energy_0 (cs 0%nat).
Proof. exact ters_self_refuted. Qed.
Print Assumptions C92_self_refuted.

(** The forces of C92_values are minus the gradient of the energy, away from the outer cutoff S. *)
Theorem C92_gradient : forall pow0 P,
  (forall s t, t_R (P s t) < t_S (P s t)) -> (forall s t, t_d (P s t) <> 0) -> (forall s t, 0 < t_gamma (P s t)) -> (forall s t, t_n (P s t) <> 0) ->
  (forall s t, 0 <= t_omega (P s t)) ->
  forall c pos b rcut, full_geometry c pos b rcut ->
  forall L, (forall a, (cnfstart c <= a < cnfstart c + inconf c)%nat -> all_neighbors c pos b rcut a (L a)) ->
  (forall i v, (cnfstart c <= i < cnfstart c + inconf c)%nat -> In v (L i) -> dist pos b i v <> t_S (P (typ c i) (typ c (fst v)))) ->
  (forall s t, P s t = P t s) ->
  forall a u, (cnfstart c <= a < cnfstart c + inconf c)%nat ->
  derivable_pt_lim (fun t => pair_energy c (moved pos a u t) b (repel P) (reach P) L
      + bo_energy c (moved pos a u t) b (attract P) (order (cpow pow0) P) (around P) L) 0
    (- sprod u (vadd (pair_force c pos b (repel' P) (reach P) L a)
      (bo_force c pos b (attract P) (attract' P) (order (cpow pow0) P) (order' (cpow pow0) P) (around P) around1 (around2 P) (aroundc P) L a))).
Proof. exact ters_gradient. Qed.
Print Assumptions C92_gradient.
Example C92_gradient_ex : let P := par_of binding one_omega 1 in
  (forall s t, t_R (P s t) < t_S (P s t)) /\ (forall s t, t_d (P s t) <> 0) /\ (forall s t, 0 < t_gamma (P s t)) /\ (forall s t, t_n (P s t) <> 0) /\
  (forall s t, 0 <= t_omega (P s t)) /\
  (forall i v, (cnfstart (bent 0) <= i < cnfstart (bent 0) + inconf (bent 0))%nat -> In v (elbow_list i) ->
     dist elbow cube i v <> t_S (P (typ (bent 0) i) (typ (bent 0) (fst v)))).
Proof. exact ters_gradient_ex. Qed.
(** The parameters of a pair of types do not depend on their order. *)
Theorem C92_pair_symmetric : forall V omega n s t, par_of V omega n s t = par_of V omega n t s.
Proof. exact par_of_sym. Qed.
Print Assumptions C92_pair_symmetric.
(** Newton's third law. *)
Theorem C92_sum_zero : forall bld pow0 V n omega ew sw punish cs nconf,
  (forall ci, cnfstart (cs (S ci)) = (cnfstart (cs ci) + inconf (cs ci))%nat) ->
  forall pos bx rcut, (forall ci, (ci < nconf)%nat -> full_geometry (cs ci) pos (bx ci) rcut) ->
  forall L, (forall ci a, (ci < nconf)%nat -> (cnfstart (cs ci) <= a < cnfstart (cs ci) + inconf (cs ci))%nat ->
    all_neighbors (cs ci) pos (bx ci) rcut a (L ci a)) ->
  forall s, let s' := TersModel.calc_forces bld pow0 V n ew sw punish omega cs nconf s in
  forall ci, (ci < nconf)%nat -> uf (cs ci) = true -> FWEIGHT bld = false ->
  vsum (fun a => vadd (frc s' a) (force_0 (cs ci) a)) (seq (cnfstart (cs ci)) (inconf (cs ci))) = v0.
Proof. exact ters_sum_zero. Qed.
Print Assumptions C92_sum_zero.
(** The returned error sum. *)
Theorem C92_error_sum : forall bld pow0 V n omega ew sw punish cs nconf,
  (forall ci, cnfstart (cs (S ci)) = (cnfstart (cs ci) + inconf (cs ci))%nat) ->
  forall pos bx rcut, (forall ci, (ci < nconf)%nat -> full_geometry (cs ci) pos (bx ci) rcut) ->
  forall L, (forall ci a, (ci < nconf)%nat -> (cnfstart (cs ci) <= a < cnfstart (cs ci) + inconf (cs ci))%nat ->
    all_neighbors (cs ci) pos (bx ci) rcut a (L ci a)) ->
  forall s, let s' := TersModel.calc_forces bld pow0 V n ew sw punish omega cs nconf s in
  err s' = rsumf (fun ci => 
     rsumf (fun a => if (uf (cs ci) && (negb (CONTRIB bld) || contrib (cs ci) a))%bool
                     then conf_weight (cs ci) * sqv (frc s' a) else 0) (seq (cnfstart (cs ci)) (inconf (cs ci))) +
     conf_weight (cs ci) * ew * sq (en s' ci) +
     (if (STRESS bld && uf (cs ci) && us (cs ci))%bool
      then rsumf (fun k => conf_weight (cs ci) * sw * sq (str s' ci k)) (seq 0 6) else 0)) (seq 0 nconf) + punish.
Proof. exact ters_error. Qed.
Print Assumptions C92_error_sum.
(** Forces of configurations that do not use forces are not left at zero. *)
Theorem C92_unused_forces_refuted : exists pow0 V omega n cs pos bx rcut s a,
  (forall ci, cnfstart (cs (S ci)) = (cnfstart (cs ci) + inconf (cs ci))%nat) /\
  full_geometry (cs 0%nat) pos bx rcut /\ uf (cs 0%nat) = false /\ (cnfstart (cs 0%nat) <= a < cnfstart (cs 0%nat) + inconf (cs 0%nat))%nat /\
  forall bld ew sw, frc (TersModel.calc_forces bld pow0 V n ew sw 0 omega cs 1 s) a <> v0.
Proof. exact ters_unused_refuted. Qed.
Print Assumptions C92_unused_forces_refuted.

(** C32 for this routine: only for cells without self images ... *)
Theorem C32_ters_cell_independent_partial : forall bld pow0 V n omega ew1 sw1 ew2 sw2 pu1 pu2 cs1 cs2 n1 n2, STRESS bld = true ->
  (forall ci, cnfstart (cs1 (S ci)) = (cnfstart (cs1 ci) + inconf (cs1 ci))%nat) ->
  (forall ci, cnfstart (cs2 (S ci)) = (cnfstart (cs2 ci) + inconf (cs2 ci))%nat) ->
  forall pos1 pos2 bx1 bx2 rcut,
  (forall ci, (ci < n1)%nat -> full_geometry (cs1 ci) pos1 (bx1 ci) rcut) ->
  (forall ci, (ci < n2)%nat -> full_geometry (cs2 ci) pos2 (bx2 ci) rcut) ->
  forall L1 L2,
  (forall ci a, (ci < n1)%nat -> (cnfstart (cs1 ci) <= a < cnfstart (cs1 ci) + inconf (cs1 ci))%nat -> all_neighbors (cs1 ci) pos1 (bx1 ci) rcut a (L1 ci a)) ->
  (forall ci a, (ci < n2)%nat -> (cnfstart (cs2 ci) <= a < cnfstart (cs2 ci) + inconf (cs2 ci))%nat -> all_neighbors (cs2 ci) pos2 (bx2 ci) rcut a (L2 ci a)) ->
  forall x y m tau s1 s2, (x < n1)%nat -> (y < n2)%nat -> (0 < inconf (cs1 x))%nat -> conf_vol (cs1 x) <> 0 ->
  same_crystal (cs1 x) (cs2 y) pos1 pos2 (bx1 x) (bx2 y) m tau ->
  no_self (cs1 x) (L1 x) -> no_self (cs2 y) (L2 y) ->
  uf (cs1 x) = true -> us (cs1 x) = true -> uf (cs2 y) = true -> us (cs2 y) = true ->
  let r1 := TersModel.calc_forces bld pow0 V n ew1 sw1 pu1 omega cs1 n1 s1 in
  let r2 := TersModel.calc_forces bld pow0 V n ew2 sw2 pu2 omega cs2 n2 s2 in
  en r1 x + energy_0 (cs1 x) = en r2 y + energy_0 (cs2 y) /\
  forall k, (k < 6)%nat -> str r1 x k + stress_0 (cs1 x) k = str r2 y k + stress_0 (cs2 y) k.
Proof. exact ters_cell. Qed.
Print Assumptions C32_ters_cell_independent_partial.
(** ... but not in general: two descriptions of one crystal. *)
Theorem C32_ters_cells_refuted : exists V omega n cs1 cs2 pos1 pos2 bx1 bx2 rcut m tau s,
 
  (forall ci, cnfstart (cs1 (S ci)) = (cnfstart (cs1 ci) + inconf (cs1 ci))%nat) /\
  (forall ci, cnfstart (cs2 (S ci)) = (cnfstart (cs2 ci) + inconf (cs2 ci))%nat) /\
  full_geometry (cs1 0%nat) pos1 bx1 rcut /\ full_geometry (cs2 0%nat) pos2 bx2 rcut /\
  same_crystal (cs1 0%nat) (cs2 0%nat) pos1 pos2 bx1 bx2 m tau /\
  energy_0 (cs1 0%nat) = energy_0 (cs2 0%nat) /\
  forall bld pow0 ew sw,
  en (TersModel.calc_forces bld pow0 V n ew sw 0 omega cs1 1 s) 0%nat < en (TersModel.calc_forces bld pow0 V n ew sw 0 omega cs2 1 s) 0%nat.
Proof. exact ters_cells_refuted. Qed.
Print Assumptions C32_ters_cells_refuted.

(** C93: what calc_forces of the modified form finds for configuration ci, for any full neighbour
    lists: repulsive pair terms plus bond-order terms.  The repulsive terms of an atom with its own
    images count with weight 1/2 in energy and stress. *)
Theorem C93_values : forall bld pow0 V n ew sw punish cs nconf,
  (forall ci, cnfstart (cs (S ci)) = (cnfstart (cs ci) + inconf (cs ci))%nat) ->
  forall pos bx rcut, (forall ci, (ci < nconf)%nat -> full_geometry (cs ci) pos (bx ci) rcut) ->
  forall L, (forall ci a, (ci < nconf)%nat -> (cnfstart (cs ci) <= a < cnfstart (cs ci) + inconf (cs ci))%nat ->
    all_neighbors (cs ci) pos (bx ci) rcut a (L ci a)) ->
  forall s, let s' := mod_calc_forces bld pow0 V n ew sw punish cs nconf s in
  forall ci, (ci < nconf)%nat -> let c := cs ci in let b := bx ci in let P := mod_of V n in
  (uf c = true -> forall a, (cnfstart c <= a < cnfstart c + inconf c)%nat -> frc s' a = vscale (fscale bld cs ci a)
     (vsub (vadd (pair_force c pos b (mrepel' P) (mreach P) (L ci) a)
                 (bo_force c pos b (mattract P) (mattract' P) (morder (cpow pow0) P) (morder' (cpow pow0) P)
       (maround (cpow pow0) P) (maround1 (cpow pow0) P) (maround2 (cpow pow0) P) (maroundc (cpow pow0) P) (L ci) a)) (force_0 c a))) /\
  (uf c = false -> forall a, (cnfstart c <= a < cnfstart c + inconf c)%nat ->
     frc s' a = bo_force c pos b (mattract P) (mattract' P) (morder (cpow pow0) P) (morder' (cpow pow0) P)
       (maround (cpow pow0) P) (maround1 (cpow pow0) P) (maround2 (cpow pow0) P) (maroundc (cpow pow0) P) (L ci) a) /\
  en s' ci = (pair_energy c pos b (mrepel P) (mreach P) (L ci) - 1/2 * self_energy c pos b (L ci) (mrepel P) (mreach P)
              + bo_energy c pos b (mattract P) (morder (cpow pow0) P) (maround (cpow pow0) P) (L ci)) / INR (inconf c) - energy_0 c /\
  (STRESS bld = true -> forall k, (k < 6)%nat -> str s' ci k =
     if us c
     then if uf c then (pair_virial c pos b (mrepel' P) (mreach P) (L ci) k - 1/2 * self_virial c pos b (L ci) (mrepel' P) (mreach P) k
                        + bo_virial c pos b (mattract P) (mattract' P) (morder (cpow pow0) P) (morder' (cpow pow0) P)
       (maround (cpow pow0) P) (maround1 (cpow pow0) P) (maround2 (cpow pow0) P) (maroundc (cpow pow0) P) (L ci) k) / conf_vol c - stress_0 c k
          else bo_virial c pos b (mattract P) (mattract' P) (morder (cpow pow0) P) (morder' (cpow pow0) P)
       (maround (cpow pow0) P) (maround1 (cpow pow0) P) (maround2 (cpow pow0) P) (maroundc (cpow pow0) P) (L ci) k
     else 0).
Proof. exact mod_values. Qed.
Print Assumptions C93_values.

(** Textbook values, where no atom is a neighbour of an image of itself. *)
Theorem C93_textbook_partial : forall bld pow0 V n ew sw punish cs nconf,
  (forall ci, cnfstart (cs (S ci)) = (cnfstart (cs ci) + inconf (cs ci))%nat) ->
  forall pos bx rcut, (forall ci, (ci < nconf)%nat -> full_geometry (cs ci) pos (bx ci) rcut) ->
  forall L, (forall ci a, (ci < nconf)%nat -> (cnfstart (cs ci) <= a < cnfstart (cs ci) + inconf (cs ci))%nat ->
    all_neighbors (cs ci) pos (bx ci) rcut a (L ci a)) ->
  forall s, let s' := mod_calc_forces bld pow0 V n ew sw punish cs nconf s in
  forall ci, (ci < nconf)%nat -> let c := cs ci in let b := bx ci in let P := mod_of V n in
  (uf c = true -> forall a, (cnfstart c <= a < cnfstart c + inconf c)%nat -> frc s' a = vscale (fscale bld cs ci a)
     (vsub (vadd (pair_force c pos b (mrepel' P) (mreach P) (L ci) a)
                 (bo_force c pos b (mattract P) (mattract' P) (morder (cpow pow0) P) (morder' (cpow pow0) P)
       (maround (cpow pow0) P) (maround1 (cpow pow0) P) (maround2 (cpow pow0) P) (maroundc (cpow pow0) P) (L ci) a)) (force_0 c a))) /\
  (no_self c (L ci) ->
   en s' ci = (pair_energy c pos b (mrepel P) (mreach P) (L ci) + bo_energy c pos b (mattract P) (morder (cpow pow0) P) (maround (cpow pow0) P) (L ci)) / INR (inconf c) - energy_0 c /\
   (STRESS bld = true -> uf c = true -> us c = true -> forall k, (k < 6)%nat ->
     str s' ci k = (pair_virial c pos b (mrepel' P) (mreach P) (L ci) k + bo_virial c pos b (mattract P) (mattract' P) (morder (cpow pow0) P) (morder' (cpow pow0) P)
       (maround (cpow pow0) P) (maround1 (cpow pow0) P) (maround2 (cpow pow0) P) (maroundc (cpow pow0) P) (L ci) k)
                   / conf_vol c - stress_0 c k)).
Proof. exact mod_textbook. Qed.
Print Assumptions C93_textbook_partial.
Example C93_ex : (forall ci, cnfstart (bent (S ci)) = (cnfstart (bent ci) + inconf (bent ci))%nat) /\
  full_geometry (bent 0) elbow cube (fun _ _ => 12/100) /\
  (forall a, (a < 3)%nat -> all_neighbors (bent 0) elbow cube (fun _ _ => 12/100) a (elbow_list a)) /\
  no_self (bent 0) elbow_list.
Proof. exact bent_ex. Qed.
(** Without that condition the energy is not the textbook one. *)
Theorem C93_self_refuted : exists V n cs pos bx rcut s,
  (forall ci, cnfstart (cs (S ci)) = (cnfstart (cs ci) + inconf (cs ci))%nat) /\
  full_geometry (cs 0%nat) pos bx rcut /\ uf (cs 0%nat) = true /\
  exists L, (forall a, (cnfstart (cs 0%nat) <= a < cnfstart (cs 0%nat) + inconf (cs 0%nat))%nat -> all_neighbors (cs 0%nat) pos bx rcut a (L a)) /\
  forall bld pow0 ew sw, let P := mod_of V n in
  en (mod_calc_forces bld pow0 V n ew sw 0 cs 1 s) 0%nat <>
  (pair_energy (cs 0%nat) pos bx (mrepel P) (mreach P) L + bo_energy (cs 0%nat) pos bx (mattract P) (morder (cpow pow0) P) (maround (cpow pow0) P) L)
    / INR (inconf (cs 0%nat)) - energy_0 (cs 0%nat).
Proof. exact mod_self_refuted. Qed.
Print Assumptions C93_self_refuted.

(** The forces of C93_values are minus the gradient of the energy, where pow( . , beta) has its
    textbook derivative at the differences of the bond lengths and no zeta is zero (except for bonds
    without other neighbours in range). *)
Theorem C93_gradient : forall pow0 P,
  (forall s t, m_R1 (P s t) < m_R2 (P s t)) -> (forall s t, 0 < m_c3 (P s t)) ->
  forall c pos b rcut, full_geometry c pos b rcut ->
  forall L, (forall a, (cnfstart c <= a < cnfstart c + inconf c)%nat -> all_neighbors c pos b rcut a (L a)) ->
  (forall i v w, (cnfstart c <= i < cnfstart c + inconf c)%nat -> In v (L i) -> In w (L i) -> v <> w ->
     let beta := m_beta (P (typ c i) (typ c (fst v))) in
     derivable_pt_lim (fun x => cpow pow0 x beta) (dist pos b i v - dist pos b i w) (beta * cpow pow0 (dist pos b i v - dist pos b i w) (beta - 1))) ->
  (forall i v, (cnfstart c <= i < cnfstart c + inconf c)%nat -> In v (L i) ->
     0 < zeta c pos b (maround (cpow pow0) P) L i v \/
     forall w, In w (others L i v) -> m_R2 (P (typ c i) (typ c (fst w))) < dist pos b i w) ->
  (forall s t, P s t = P t s) ->
  forall a u, (cnfstart c <= a < cnfstart c + inconf c)%nat ->
  derivable_pt_lim (fun t => pair_energy c (moved pos a u t) b (mrepel P) (mreach P) L
      + bo_energy c (moved pos a u t) b (mattract P) (morder (cpow pow0) P) (maround (cpow pow0) P) L) 0
    (- sprod u (vadd (pair_force c pos b (mrepel' P) (mreach P) L a)
      (bo_force c pos b (mattract P) (mattract' P) (morder (cpow pow0) P) (morder' (cpow pow0) P)
        (maround (cpow pow0) P) (maround1 (cpow pow0) P) (maround2 (cpow pow0) P) (maroundc (cpow pow0) P) L a))).
Proof. exact mod_gradient. Qed.
Print Assumptions C93_gradient.
Example C93_gradient_ex : let P := mod_of mbending 1 in
  (forall s t, m_R1 (P s t) < m_R2 (P s t)) /\ (forall s t, 0 < m_c3 (P s t)) /\
  (forall i v w, (cnfstart (bent 0) <= i < cnfstart (bent 0) + inconf (bent 0))%nat -> In v (elbow_list i) -> In w (elbow_list i) -> v <> w ->
     let beta := m_beta (P (typ (bent 0) i) (typ (bent 0) (fst v))) in
     derivable_pt_lim (fun x => cpow lin x beta) (dist elbow cube i v - dist elbow cube i w) (beta * cpow lin (dist elbow cube i v - dist elbow cube i w) (beta - 1))) /\
  (forall i v, (cnfstart (bent 0) <= i < cnfstart (bent 0) + inconf (bent 0))%nat -> In v (elbow_list i) ->
     0 < zeta (bent 0) elbow cube (maround (cpow lin) P) elbow_list i v \/
     forall w, In w (others elbow_list i v) -> m_R2 (P (typ (bent 0) i) (typ (bent 0) (fst w))) < dist elbow cube i w).
Proof. exact mod_gradient_ex. Qed.
(** The parameters of a pair of types do not depend on their order. *)
Theorem C93_pair_symmetric : forall V n s t, mod_of V n s t = mod_of V n t s.
Proof. exact mod_of_sym. Qed.
Print Assumptions C93_pair_symmetric.
(** Newton's third law. *)
Theorem C93_sum_zero : forall bld pow0 V n ew sw punish cs nconf,
  (forall ci, cnfstart (cs (S ci)) = (cnfstart (cs ci) + inconf (cs ci))%nat) ->
  forall pos bx rcut, (forall ci, (ci < nconf)%nat -> full_geometry (cs ci) pos (bx ci) rcut) ->
  forall L, (forall ci a, (ci < nconf)%nat -> (cnfstart (cs ci) <= a < cnfstart (cs ci) + inconf (cs ci))%nat ->
    all_neighbors (cs ci) pos (bx ci) rcut a (L ci a)) ->
  forall s, let s' := mod_calc_forces bld pow0 V n ew sw punish cs nconf s in
  forall ci, (ci < nconf)%nat -> uf (cs ci) = true -> FWEIGHT bld = false ->
  vsum (fun a => vadd (frc s' a) (force_0 (cs ci) a)) (seq (cnfstart (cs ci)) (inconf (cs ci))) = v0.
Proof. exact mod_sum_zero. Qed.
Print Assumptions C93_sum_zero.
(** The returned error sum. *)
Theorem C93_error_sum : forall bld pow0 V n ew sw punish cs nconf,
  (forall ci, cnfstart (cs (S ci)) = (cnfstart (cs ci) + inconf (cs ci))%nat) ->
  forall pos bx rcut, (forall ci, (ci < nconf)%nat -> full_geometry (cs ci) pos (bx ci) rcut) ->
  forall L, (forall ci a, (ci < nconf)%nat -> (cnfstart (cs ci) <= a < cnfstart (cs ci) + inconf (cs ci))%nat ->
    all_neighbors (cs ci) pos (bx ci) rcut a (L ci a)) ->
  forall s, let s' := mod_calc_forces bld pow0 V n ew sw punish cs nconf s in
  err s' = rsumf (fun ci => 
     rsumf (fun a => if (uf (cs ci) && (negb (CONTRIB bld) || contrib (cs ci) a))%bool
                     then conf_weight (cs ci) * sqv (frc s' a) else 0) (seq (cnfstart (cs ci)) (inconf (cs ci))) +
     conf_weight (cs ci) * ew * sq (en s' ci) +
     (if (STRESS bld && uf (cs ci) && us (cs ci))%bool
      then rsumf (fun k => conf_weight (cs ci) * sw * sq (str s' ci k)) (seq 0 6) else 0)) (seq 0 nconf) + punish.
Proof. exact mod_error. Qed.
Print Assumptions C93_error_sum.
(** Forces of configurations that do not use forces are not left at zero. *)
Theorem C93_unused_forces_refuted : exists pow0 V n cs pos bx rcut s a,
  (forall ci, cnfstart (cs (S ci)) = (cnfstart (cs ci) + inconf (cs ci))%nat) /\
  full_geometry (cs 0%nat) pos bx rcut /\ uf (cs 0%nat) = false /\ (cnfstart (cs 0%nat) <= a < cnfstart (cs 0%nat) + inconf (cs 0%nat))%nat /\
  forall bld ew sw, frc (mod_calc_forces bld pow0 V n ew sw 0 cs 1 s) a <> v0.
Proof. exact mod_unused_refuted. Qed.
Print Assumptions C93_unused_forces_refuted.

(** C32 for this routine: only for cells without self images ... *)
Theorem C32_mod_cell_independent_partial : forall bld pow0 V n ew1 sw1 ew2 sw2 pu1 pu2 cs1 cs2 n1 n2, STRESS bld = true ->
  (forall ci, cnfstart (cs1 (S ci)) = (cnfstart (cs1 ci) + inconf (cs1 ci))%nat) ->
  (forall ci, cnfstart (cs2 (S ci)) = (cnfstart (cs2 ci) + inconf (cs2 ci))%nat) ->
  forall pos1 pos2 bx1 bx2 rcut,
  (forall ci, (ci < n1)%nat -> full_geometry (cs1 ci) pos1 (bx1 ci) rcut) ->
  (forall ci, (ci < n2)%nat -> full_geometry (cs2 ci) pos2 (bx2 ci) rcut) ->
  forall L1 L2,
  (forall ci a, (ci < n1)%nat -> (cnfstart (cs1 ci) <= a < cnfstart (cs1 ci) + inconf (cs1 ci))%nat -> all_neighbors (cs1 ci) pos1 (bx1 ci) rcut a (L1 ci a)) ->
  (forall ci a, (ci < n2)%nat -> (cnfstart (cs2 ci) <= a < cnfstart (cs2 ci) + inconf (cs2 ci))%nat -> all_neighbors (cs2 ci) pos2 (bx2 ci) rcut a (L2 ci a)) ->
  forall x y m tau s1 s2, (x < n1)%nat -> (y < n2)%nat -> (0 < inconf (cs1 x))%nat -> conf_vol (cs1 x) <> 0 ->
  same_crystal (cs1 x) (cs2 y) pos1 pos2 (bx1 x) (bx2 y) m tau ->
  no_self (cs1 x) (L1 x) -> no_self (cs2 y) (L2 y) ->
  uf (cs1 x) = true -> us (cs1 x) = true -> uf (cs2 y) = true -> us (cs2 y) = true ->
  let r1 := mod_calc_forces bld pow0 V n ew1 sw1 pu1 cs1 n1 s1 in
  let r2 := mod_calc_forces bld pow0 V n ew2 sw2 pu2 cs2 n2 s2 in
  en r1 x + energy_0 (cs1 x) = en r2 y + energy_0 (cs2 y) /\
  forall k, (k < 6)%nat -> str r1 x k + stress_0 (cs1 x) k = str r2 y k + stress_0 (cs2 y) k.
Proof. exact mod_cell. Qed.
Print Assumptions C32_mod_cell_independent_partial.
(** ... but not in general: two descriptions of one crystal. *)
Theorem C32_mod_cells_refuted : exists V n cs1 cs2 pos1 pos2 bx1 bx2 rcut m tau s,
 
  (forall ci, cnfstart (cs1 (S ci)) = (cnfstart (cs1 ci) + inconf (cs1 ci))%nat) /\
  (forall ci, cnfstart (cs2 (S ci)) = (cnfstart (cs2 ci) + inconf (cs2 ci))%nat) /\
  full_geometry (cs1 0%nat) pos1 bx1 rcut /\ full_geometry (cs2 0%nat) pos2 bx2 rcut /\
  same_crystal (cs1 0%nat) (cs2 0%nat) pos1 pos2 bx1 bx2 m tau /\
  energy_0 (cs1 0%nat) = energy_0 (cs2 0%nat) /\
  forall bld pow0 ew sw,
  en (mod_calc_forces bld pow0 V n ew sw 0 cs1 1 s) 0%nat < en (mod_calc_forces bld pow0 V n ew sw 0 cs2 1 s) 0%nat.
Proof. exact mod_cells_refuted. Qed.
Print Assumptions C32_mod_cells_refuted.

