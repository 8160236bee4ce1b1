(** Stillinger-Weber force routine: C88, C32. *)
From Coq Require Import Reals ZArith List Bool.
From Verif Require Import Vec NbrModel NbrProof NbrProof3 PairModel PairSpec PairProof3 GradProof CellSpec ThreeSpec ThreeProof ThreeProof2
  SwModel SwSpec SwProof SwProof2 SwProof3 SwProof4 SwProof5.
Import ListNotations.
Local Open Scope R_scope.

(** C88: what calc_forces finds for configuration ci, for any full neighbour lists.  The pair
    terms of an atom with its own images count with weight 1/2 in energy and stress. *)
Theorem C88_values : forall bld pow0 V lam n ew sw punish cs nconf,
  (forall ci, cnfstart (cs (S ci)) = (cnfstart (cs ci) + inconf (cs ci))%nat) ->
  (forall i j k, lam i j k = lam i k j) ->
  forall pos bx rcut, (forall ci, (ci < nconf)%nat -> full_geometry (cs ci) pos (bx ci) rcut) ->
  forall L, (forall ci a, (ci < nconf)%nat -> (cnfstart (cs ci) <= a < cnfstart (cs ci) + inconf (cs ci))%nat ->
    all_neighbors (cs ci) pos (bx ci) rcut a (L ci a)) ->
  forall s, let s' := calc_forces bld pow0 V lam n ew sw punish cs nconf s in
  forall ci, (ci < nconf)%nat -> let c := cs ci in let b := bx ci in let P := par V n in
  (uf c = true -> forall a, (cnfstart c <= a < cnfstart c + inconf c)%nat -> frc s' a = vscale (fscale bld cs ci a)
     (vsub (vadd (pair_force c pos b (two' P) (two_in P) (L ci) a)
                 (three_force c pos b (three1 P lam) (threec P lam) (L ci) a)) (force_0 c a))) /\
  (uf c = false -> forall a, (cnfstart c <= a < cnfstart c + inconf c)%nat ->
     frc s' a = three_force c pos b (three1 P lam) (threec P lam) (L ci) a) /\
  en s' ci = (pair_energy c pos b (two P) (two_in P) (L ci) - 1/2 * self_energy c pos b (L ci) (two P) (two_in P)
              + three_energy c pos b (three P lam) (L ci)) / INR (inconf c) - energy_0 c /\
  (STRESS bld = true -> forall k, (k < 6)%nat -> str s' ci k =
     if us c
     then if uf c then (pair_virial c pos b (two' P) (two_in P) (L ci) k - 1/2 * self_virial c pos b (L ci) (two' P) (two_in P) k
                        + three_virial c pos b (three1 P lam) (threec P lam) (L ci) k) / conf_vol c - stress_0 c k
          else three_virial c pos b (three1 P lam) (threec P lam) (L ci) k
     else 0).
Proof. exact sw_values. Qed.
Print Assumptions C88_values.

(** Textbook values, where no atom is a neighbour of an image of itself. *)
Theorem C88_textbook_partial : forall bld pow0 V lam n ew sw punish cs nconf,
  (forall ci, cnfstart (cs (S ci)) = (cnfstart (cs ci) + inconf (cs ci))%nat) ->
  (forall i j k, lam i j k = lam i k j) ->
  forall pos bx rcut, (forall ci, (ci < nconf)%nat -> full_geometry (cs ci) pos (bx ci) rcut) ->
  forall L, (forall ci a, (ci < nconf)%nat -> (cnfstart (cs ci) <= a < cnfstart (cs ci) + inconf (cs ci))%nat ->
    all_neighbors (cs ci) pos (bx ci) rcut a (L ci a)) ->
  forall s, let s' := calc_forces bld pow0 V lam n ew sw punish cs nconf s in
  forall ci, (ci < nconf)%nat -> let c := cs ci in let b := bx ci in let P := par V n in
  (uf c = true -> forall a, (cnfstart c <= a < cnfstart c + inconf c)%nat -> frc s' a = vscale (fscale bld cs ci a)
     (vsub (vadd (pair_force c pos b (two' P) (two_in P) (L ci) a)
                 (three_force c pos b (three1 P lam) (threec P lam) (L ci) a)) (force_0 c a))) /\
  (no_self c (L ci) ->
   en s' ci = (pair_energy c pos b (two P) (two_in P) (L ci) + three_energy c pos b (three P lam) (L ci)) / INR (inconf c) - energy_0 c /\
   (STRESS bld = true -> uf c = true -> us c = true -> forall k, (k < 6)%nat ->
     str s' ci k = (pair_virial c pos b (two' P) (two_in P) (L ci) k + three_virial c pos b (three1 P lam) (threec P lam) (L ci) k)
                   / conf_vol c - stress_0 c k)).
Proof. exact sw_textbook. Qed.
Print Assumptions C88_textbook_partial.
Example C88_ex : (forall ci, cnfstart (bent (S ci)) = (cnfstart (bent ci) + inconf (bent ci))%nat) /\
  full_geometry (bent 0) elbow cube (fun _ _ => 12/100) /\
  (forall a, (a < 3)%nat -> all_neighbors (bent 0) elbow cube (fun _ _ => 12/100) a (elbow_list a)) /\
  no_self (bent 0) elbow_list.
Proof. exact bent_ex. Qed.
(** Without that condition the energy is not the textbook one. *)
Theorem C88_self_refuted : exists V lam n cs pos bx rcut s,
  (forall ci, cnfstart (cs (S ci)) = (cnfstart (cs ci) + inconf (cs ci))%nat) /\
  (forall i j k, lam i j k = lam i k j) /\ full_geometry (cs 0%nat) pos bx rcut /\ uf (cs 0%nat) = true /\
  exists L, (forall a, (cnfstart (cs 0%nat) <= a < cnfstart (cs 0%nat) + inconf (cs 0%nat))%nat -> all_neighbors (cs 0%nat) pos bx rcut a (L a)) /\
  forall bld pow0 ew sw,
  en (calc_forces bld pow0 V lam n ew sw 0 cs 1 s) 0%nat <>
  (pair_energy (cs 0%nat) pos bx (two (par V n)) (two_in (par V n)) L + three_energy (cs 0%nat) pos bx (three (par V n) lam) L)
    / INR (inconf (cs 0%nat)) - energy_0 (cs 0%nat).
Proof. exact self_refuted. Qed.
Print Assumptions C88_self_refuted.

(** The forces of C88_values are minus the gradient of the energy, away from the two cutoffs. *)
Theorem C88_gradient : forall P lam c pos b rcut, full_geometry c pos b rcut ->
  forall L, (forall a, (cnfstart c <= a < cnfstart c + inconf c)%nat -> all_neighbors c pos b rcut a (L a)) ->
  (forall s t, P s t = P t s) -> (forall i j k, lam i j k = lam i k j) -> (forall s t, 0 <= sw_gamma (P s t)) ->
  (forall i v, (cnfstart c <= i < cnfstart c + inconf c)%nat -> In v (L i) ->
     dist pos b i v <> sw_a1 (P (typ c i) (typ c (fst v))) /\
     dist pos b i v <> sw_a2 (P (typ c i) (typ c (fst v))) - 1 / 100 * sw_gamma (P (typ c i) (typ c (fst v)))) ->
  forall a u, (cnfstart c <= a < cnfstart c + inconf c)%nat ->
  derivable_pt_lim (fun t => pair_energy c (moved pos a u t) b (two P) (two_in P) L + three_energy c (moved pos a u t) b (three P lam) L) 0
    (- sprod u (vadd (pair_force c pos b (two' P) (two_in P) L a) (three_force c pos b (three1 P lam) (threec P lam) L a))).
Proof. exact sw_gradient. Qed.
Print Assumptions C88_gradient.
Example C88_gradient_ex : forall i v, (cnfstart (bent 0) <= i < cnfstart (bent 0) + inconf (bent 0))%nat -> In v (elbow_list i) ->
  let P := par bending 1 in
  dist elbow cube i v <> sw_a1 (P (typ (bent 0) i) (typ (bent 0) (fst v))) /\
  dist elbow cube i v <> sw_a2 (P (typ (bent 0) i) (typ (bent 0) (fst v))) - 1 / 100 * sw_gamma (P (typ (bent 0) i) (typ (bent 0) (fst v))).
Proof. exact bent_off. Qed.
(** The parameters of a pair of types do not depend on their order. *)
Theorem C88_pair_symmetric : forall V n s t, par V n s t = par V n t s.
Proof. exact par_sym. Qed.
Print Assumptions C88_pair_symmetric.
(** The cutoff function differs from the literature by at most exp(-100). *)
Theorem C88_cutoff_error : forall P s t r, 0 <= sw_gamma (P s t) -> r < sw_a2 (P s t) ->
  0 <= exp (sw_gamma (P s t) / (r - sw_a2 (P s t))) - cut P s t r <= exp (- 100).
Proof. exact cut_error. Qed.
Print Assumptions C88_cutoff_error.
(** Newton's third law. *)
Theorem C88_sum_zero : forall bld pow0 V lam n ew sw punish cs nconf,
  (forall ci, cnfstart (cs (S ci)) = (cnfstart (cs ci) + inconf (cs ci))%nat) ->
  (forall i j k, lam i j k = lam i k j) ->
  forall pos bx rcut, (forall ci, (ci < nconf)%nat -> full_geometry (cs ci) pos (bx ci) rcut) ->
  forall L, (forall ci a, (ci < nconf)%nat -> (cnfstart (cs ci) <= a < cnfstart (cs ci) + inconf (cs ci))%nat ->
    all_neighbors (cs ci) pos (bx ci) rcut a (L ci a)) ->
  forall s, let s' := calc_forces bld pow0 V lam n ew sw punish cs nconf s in
  forall ci, (ci < nconf)%nat -> uf (cs ci) = true -> FWEIGHT bld = false ->
  vsum (fun a => vadd (frc s' a) (force_0 (cs ci) a)) (seq (cnfstart (cs ci)) (inconf (cs ci))) = v0.
Proof. exact sw_sum_zero. Qed.
Print Assumptions C88_sum_zero.
(** The returned error sum. *)
Theorem C88_error_sum : forall bld pow0 V lam n ew sw punish cs nconf,
  (forall ci, cnfstart (cs (S ci)) = (cnfstart (cs ci) + inconf (cs ci))%nat) ->
  (forall i j k, lam i j k = lam i k j) ->
  forall pos bx rcut, (forall ci, (ci < nconf)%nat -> full_geometry (cs ci) pos (bx ci) rcut) ->
  forall L, (forall ci a, (ci < nconf)%nat -> (cnfstart (cs ci) <= a < cnfstart (cs ci) + inconf (cs ci))%nat ->
    all_neighbors (cs ci) pos (bx ci) rcut a (L ci a)) ->
  forall s, let s' := calc_forces bld pow0 V lam n ew sw punish cs nconf s in
  err s' = rsumf (fun ci => 
     rsumf (fun a => if (uf (cs ci) && (negb (CONTRIB bld) || contrib (cs ci) a))%bool
                     then conf_weight (cs ci) * sqv (frc s' a) else 0) (seq (cnfstart (cs ci)) (inconf (cs ci))) +
     conf_weight (cs ci) * ew * sq (en s' ci) +
     (if (STRESS bld && uf (cs ci) && us (cs ci))%bool
      then rsumf (fun k => conf_weight (cs ci) * sw * sq (str s' ci k)) (seq 0 6) else 0)) (seq 0 nconf) + punish.
Proof. exact sw_error. Qed.
Print Assumptions C88_error_sum.
(** Forces of configurations that do not use forces are not left at zero. *)
Theorem C88_unused_forces_refuted : exists V lam n cs pos bx rcut s a,
  (forall ci, cnfstart (cs (S ci)) = (cnfstart (cs ci) + inconf (cs ci))%nat) /\
  full_geometry (cs 0%nat) pos bx rcut /\ uf (cs 0%nat) = false /\ (cnfstart (cs 0%nat) <= a < cnfstart (cs 0%nat) + inconf (cs 0%nat))%nat /\
  forall bld pow0 ew sw, frc (calc_forces bld pow0 V lam n ew sw 0 cs 1 s) a <> v0.
Proof. exact unused_refuted. Qed.
Print Assumptions C88_unused_forces_refuted.

(** C32 for this routine: only for cells without self images ... *)
Theorem C32_sw_cell_independent_partial : forall bld pow0 V lam n ew1 sw1 ew2 sw2 pu1 pu2 cs1 cs2 n1 n2, STRESS bld = true ->
  (forall i j k, lam i j k = lam i k j) ->
  (forall ci, cnfstart (cs1 (S ci)) = (cnfstart (cs1 ci) + inconf (cs1 ci))%nat) ->
  (forall ci, cnfstart (cs2 (S ci)) = (cnfstart (cs2 ci) + inconf (cs2 ci))%nat) ->
  forall pos1 pos2 bx1 bx2 rcut,
  (forall ci, (ci < n1)%nat -> full_geometry (cs1 ci) pos1 (bx1 ci) rcut) ->
  (forall ci, (ci < n2)%nat -> full_geometry (cs2 ci) pos2 (bx2 ci) rcut) ->
  forall L1 L2,
  (forall ci a, (ci < n1)%nat -> (cnfstart (cs1 ci) <= a < cnfstart (cs1 ci) + inconf (cs1 ci))%nat -> all_neighbors (cs1 ci) pos1 (bx1 ci) rcut a (L1 ci a)) ->
  (forall ci a, (ci < n2)%nat -> (cnfstart (cs2 ci) <= a < cnfstart (cs2 ci) + inconf (cs2 ci))%nat -> all_neighbors (cs2 ci) pos2 (bx2 ci) rcut a (L2 ci a)) ->
  forall x y m tau s1 s2, (x < n1)%nat -> (y < n2)%nat -> (0 < inconf (cs1 x))%nat -> conf_vol (cs1 x) <> 0 ->
  same_crystal (cs1 x) (cs2 y) pos1 pos2 (bx1 x) (bx2 y) m tau ->
  no_self (cs1 x) (L1 x) -> no_self (cs2 y) (L2 y) ->
  uf (cs1 x) = true -> us (cs1 x) = true -> uf (cs2 y) = true -> us (cs2 y) = true ->
  let r1 := calc_forces bld pow0 V lam n ew1 sw1 pu1 cs1 n1 s1 in
  let r2 := calc_forces bld pow0 V lam n ew2 sw2 pu2 cs2 n2 s2 in
  en r1 x + energy_0 (cs1 x) = en r2 y + energy_0 (cs2 y) /\
  forall k, (k < 6)%nat -> str r1 x k + stress_0 (cs1 x) k = str r2 y k + stress_0 (cs2 y) k.
Proof. exact sw_cell_independent. Qed.
Print Assumptions C32_sw_cell_independent_partial.
(** ... but not in general: two descriptions of one crystal. *)
Theorem C32_sw_cells_refuted : exists V lam n cs1 cs2 pos1 pos2 bx1 bx2 rcut m tau s,
  (forall i j k, lam i j k = lam i k j) /\
  (forall ci, cnfstart (cs1 (S ci)) = (cnfstart (cs1 ci) + inconf (cs1 ci))%nat) /\
  (forall ci, cnfstart (cs2 (S ci)) = (cnfstart (cs2 ci) + inconf (cs2 ci))%nat) /\
  full_geometry (cs1 0%nat) pos1 bx1 rcut /\ full_geometry (cs2 0%nat) pos2 bx2 rcut /\
  same_crystal (cs1 0%nat) (cs2 0%nat) pos1 pos2 bx1 bx2 m tau /\
  energy_0 (cs1 0%nat) = energy_0 (cs2 0%nat) /\
  forall bld pow0 ew sw,
  en (calc_forces bld pow0 V lam n ew sw 0 cs1 1 s) 0%nat < en (calc_forces bld pow0 V lam n ew sw 0 cs2 1 s) 0%nat.
Proof. exact cells_refuted. Qed.
Print Assumptions C32_sw_cells_refuted.
