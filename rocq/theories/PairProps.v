(** Statements about the pair force routine: C27, C28, C29. *)
From Coq Require Import Reals ZArith List Bool.
From Verif Require Import Vec NbrModel NbrProof NbrProof3 PairModel PairProof PairSpec PairProof2 PairProof3 PairProof4.
Import ListNotations.
Local Open Scope R_scope.

(** C27.  The neighbour lists are the half lists made by init_neighbors ([geometry]); the
    sums on the right run over all neighbours of every atom. *)
Theorem C27_textbook_pair_model : forall bld phi dphi in_range eweight sweight cp_energy punish cs nconf,
  (forall ci, cnfstart (cs (S ci)) = (cnfstart (cs ci) + inconf (cs ci))%nat) ->
  (forall s t r, phi s t r = phi t s r) -> (forall s t r, dphi s t r = dphi t s r) ->
  (forall s t r, in_range s t r = in_range t s r) ->
  forall pos bx rcut, (forall ci, (ci < nconf)%nat -> geometry (cs ci) pos (bx ci) rcut) ->
  forall L, (forall ci a, (ci < nconf)%nat -> (cnfstart (cs ci) <= a < cnfstart (cs ci) + inconf (cs ci))%nat ->
    all_neighbors (cs ci) pos (bx ci) rcut a (L ci a)) ->
  forall s, let s' := calc_forces bld phi dphi in_range eweight sweight cp_energy punish cs nconf s in
  forall ci, (ci < nconf)%nat ->
  (uf (cs ci) = true -> forall a, (cnfstart (cs ci) <= a < cnfstart (cs ci) + inconf (cs ci))%nat ->
     frc s' a = vscale (fscale bld cs ci a) (vsub (pair_force (cs ci) pos (bx ci) dphi in_range (L ci) a) (force_0 (cs ci) a))) /\
  (uf (cs ci) = false -> forall a, (cnfstart (cs ci) <= a < cnfstart (cs ci) + inconf (cs ci))%nat -> frc s' a = v0) /\
  en s' ci = (cp_energy ci + pair_energy (cs ci) pos (bx ci) phi in_range (L ci)) / INR (inconf (cs ci)) - energy_0 (cs ci) /\
  (STRESS bld = true -> forall k, (k < 6)%nat -> str s' ci k =
     if (uf (cs ci) && us (cs ci))%bool
     then pair_virial (cs ci) pos (bx ci) dphi in_range (L ci) k / conf_vol (cs ci) - stress_0 (cs ci) k else 0).
Proof. exact forces_textbook. Qed.
Print Assumptions C27_textbook_pair_model.
Theorem C27_forces_sum_to_zero : forall bld phi dphi in_range eweight sweight cp_energy punish cs nconf,
  (forall ci, cnfstart (cs (S ci)) = (cnfstart (cs ci) + inconf (cs ci))%nat) ->
  (forall s t r, phi s t r = phi t s r) -> (forall s t r, dphi s t r = dphi t s r) ->
  (forall s t r, in_range s t r = in_range t s r) ->
  forall pos bx rcut, (forall ci, (ci < nconf)%nat -> geometry (cs ci) pos (bx ci) rcut) ->
  forall L, (forall ci a, (ci < nconf)%nat -> (cnfstart (cs ci) <= a < cnfstart (cs ci) + inconf (cs ci))%nat ->
    all_neighbors (cs ci) pos (bx ci) rcut a (L ci a)) ->
  forall s, let s' := calc_forces bld phi dphi in_range eweight sweight cp_energy punish cs nconf s in
  forall ci, (ci < nconf)%nat -> uf (cs ci) = true -> FWEIGHT bld = false ->
  vsum (fun a => vadd (frc s' a) (force_0 (cs ci) a)) (seq (cnfstart (cs ci)) (inconf (cs ci))) = v0.
Proof. exact forces_sum_zero. Qed.
Print Assumptions C27_forces_sum_to_zero.
(** The lists of all neighbours exist, and so does a configuration with neighbours. *)
Example C27_ex : (exists l, l <> [] /\ geometry (cube_conf l) origin cube (fun _ _ => 1)) /\
  forall c pos b rcut, geometry c pos b rcut ->
  exists L, forall a, (cnfstart c <= a < cnfstart c + inconf c)%nat -> all_neighbors c pos b rcut a (L a).
Proof. exact (conj cube_geometry all_neighbors_exist). Qed.

(** C28.  The force entries are scored inside the loop that still adds to other entries;
    the sum nevertheless is the one of the values left in the array at the end.  The
    premise says that neighbours come later in the same configuration, as in half lists. *)
Theorem C28_final_when_scored : forall bld phi dphi in_range eweight sweight cp_energy punish cs nconf,
  (forall ci, cnfstart (cs (S ci)) = (cnfstart (cs ci) + inconf (cs ci))%nat) ->
  (forall ci i e, (ci < nconf)%nat -> (cnfstart (cs ci) <= i < cnfstart (cs ci) + inconf (cs ci))%nat ->
     In e (nb (cs ci) i) -> (i <= n_nr e < cnfstart (cs ci) + inconf (cs ci))%nat) ->
  forall s, let s' := calc_forces bld phi dphi in_range eweight sweight cp_energy punish cs nconf s in
  err s' = rsumf (fun ci => 
     rsumf (fun a => if (uf (cs ci) && (negb (CONTRIB bld) || contrib (cs ci) a))%bool
                     then conf_weight (cs ci) * sqv (frc s' a) else 0) (seq (cnfstart (cs ci)) (inconf (cs ci))) +
     conf_weight (cs ci) * eweight * sq (en s' ci) +
     (if (STRESS bld && uf (cs ci) && us (cs ci))%bool
      then rsumf (fun k => conf_weight (cs ci) * sweight * sq (str s' ci k)) (seq 0 6) else 0)) (seq 0 nconf) + punish.
Proof. exact scored_when_final. Qed.
Print Assumptions C28_final_when_scored.
(** The premise holds for the lists of init_neighbors. *)
Theorem C28_lists_ordered : forall c pos b rcut, geometry c pos b rcut -> forall i e,
  (cnfstart c <= i < cnfstart c + inconf c)%nat -> In e (nb c i) -> (i <= n_nr e < cnfstart c + inconf c)%nat.
Proof. exact geo_ordered. Qed.
Print Assumptions C28_lists_ordered.
Example C28_ex : exists l, l <> [] /\ geometry (cube_conf l) origin cube (fun _ _ => 1).
Proof. exact cube_geometry. Qed.

(** C29 *)
Theorem C29_error_nonneg : forall bld phi dphi in_range eweight sweight cp_energy punish cs nconf,
  (forall ci, cnfstart (cs (S ci)) = (cnfstart (cs ci) + inconf (cs ci))%nat) ->
  forall pos bx rcut, (forall ci, (ci < nconf)%nat -> geometry (cs ci) pos (bx ci) rcut) ->
  forall s, 0 <= eweight -> 0 <= sweight -> (forall ci, 0 <= conf_weight (cs ci)) ->
  punish <= err (calc_forces bld phi dphi in_range eweight sweight cp_energy punish cs nconf s).
Proof. exact error_nonneg. Qed.
Print Assumptions C29_error_nonneg.
Theorem C29_zero_iff_all_match : forall bld phi dphi in_range eweight sweight cp_energy punish cs nconf,
  (forall ci, cnfstart (cs (S ci)) = (cnfstart (cs ci) + inconf (cs ci))%nat) ->
  (forall s t r, phi s t r = phi t s r) -> (forall s t r, dphi s t r = dphi t s r) ->
  (forall s t r, in_range s t r = in_range t s r) ->
  forall pos bx rcut, (forall ci, (ci < nconf)%nat -> geometry (cs ci) pos (bx ci) rcut) ->
  forall L, (forall ci a, (ci < nconf)%nat -> (cnfstart (cs ci) <= a < cnfstart (cs ci) + inconf (cs ci))%nat ->
    all_neighbors (cs ci) pos (bx ci) rcut a (L ci a)) ->
  forall s, 0 < eweight -> 0 < sweight -> (forall ci, 0 < conf_weight (cs ci)) ->
  (forall ci a, 0 <= absforce (cs ci) a) ->
  (err (calc_forces bld phi dphi in_range eweight sweight cp_energy punish cs nconf s) = punish <->
   forall ci, (ci < nconf)%nat ->
     (forall a, (cnfstart (cs ci) <= a < cnfstart (cs ci) + inconf (cs ci))%nat ->
        (uf (cs ci) && (negb (CONTRIB bld) || contrib (cs ci) a))%bool = true ->
        pair_force (cs ci) pos (bx ci) dphi in_range (L ci) a = force_0 (cs ci) a) /\
     (cp_energy ci + pair_energy (cs ci) pos (bx ci) phi in_range (L ci)) / INR (inconf (cs ci)) = energy_0 (cs ci) /\
     ((STRESS bld && uf (cs ci) && us (cs ci))%bool = true -> forall k, (k < 6)%nat ->
        pair_virial (cs ci) pos (bx ci) dphi in_range (L ci) k / conf_vol (cs ci) = stress_0 (cs ci) k)).
Proof. exact error_zero. Qed.
Print Assumptions C29_zero_iff_all_match.
Example C29_ex : exists l, l <> [] /\ geometry (cube_conf l) origin cube (fun _ _ => 1) /\
  0 < conf_weight (cube_conf l) /\ forall a, 0 <= absforce (cube_conf l) a.
Proof. destruct cube_geometry as (l & N & G). exists l. split; [auto|]. split; [auto|]. simpl. split; intros; Lra.lra. Qed.

(** C27: order of the six components *)
Theorem C27_stress_components : forall d f, map (stress_of d f) (seq 0 6) =
  [vx d * vx f; vy d * vy f; vz d * vz f; vx d * vy f; vy d * vz f; vz d * vx f].
Proof. exact stress_components. Qed.
Print Assumptions C27_stress_components.

(** C77: with unit weights the cost is the squared norm of the deviation vector. *)
Theorem C77_norm_partial : forall bld phi dphi in_range eweight sweight cp_energy punish cs nconf,
  (forall ci, cnfstart (cs (S ci)) = (cnfstart (cs ci) + inconf (cs ci))%nat) ->
  (forall ci i e, (ci < nconf)%nat -> (cnfstart (cs ci) <= i < cnfstart (cs ci) + inconf (cs ci))%nat ->
     In e (nb (cs ci) i) -> (i <= n_nr e < cnfstart (cs ci) + inconf (cs ci))%nat) ->
  CONTRIB bld = false -> eweight = 1 -> sweight = 1 -> punish = 0 ->
  (forall ci, (ci < nconf)%nat -> conf_weight (cs ci) = 1 /\ uf (cs ci) = true /\ us (cs ci) = true) ->
  forall s, let s' := calc_forces bld phi dphi in_range eweight sweight cp_energy punish cs nconf s in
  err s' = squared_norm bld cs nconf s'.
Proof. exact norm_is_cost. Qed.
Print Assumptions C77_norm_partial.
(** In general it is not: weights multiply the squares in the sum, not the entries. *)
Theorem C77_norm_refuted : exists bld phi dphi in_range eweight sweight cp_energy cs nconf s,
  let s' := calc_forces bld phi dphi in_range eweight sweight cp_energy 0 cs nconf s in
  0 < eweight /\ (forall ci, conf_weight (cs ci) = 1 /\ uf (cs ci) = true) /\
  err s' = 2 /\ squared_norm bld cs nconf s' = 1.
Proof. exact norm_refuted. Qed.
Print Assumptions C77_norm_refuted.
Example C77_ex : (forall ci, conf_weight ((fun _ : nat => lone) ci) = 1 /\ uf ((fun _ : nat => lone) ci) = true).
Proof. split; reflexivity. Qed.
