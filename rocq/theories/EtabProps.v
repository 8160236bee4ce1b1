(** C135, C136: the tables of the error report. *)
From Coq Require Import Reals List Arith Bool Lra Lia.
From Verif Require Import Vec NbrModel PairModel PairSpec PairProof3 EamModel EamSpec EamProof2 CellSpec NbrProof3 SwProof3 AdpProof6 ErrModel ErrSpec RepSpec EtabModel EtabProof.
Import ListNotations.
Local Open Scope R_scope.

Theorem C135_pair_tables : forall bld phi dphi in_range eweight sweight cp_energy punish cs nconf conf_of,
  (forall ci, cnfstart (cs (S ci)) = (cnfstart (cs ci) + inconf (cs ci))%nat) -> placed cs nconf conf_of ->
  (forall s t r, phi s t r = phi t s r) -> (forall s t r, dphi s t r = dphi t s r) -> (forall s t r, in_range s t r = in_range t s r) ->
  forall pos bx rcut, (forall ci, (ci < nconf)%nat -> geometry (cs ci) pos (bx ci) rcut) ->
  forall L, (forall ci a, (ci < nconf)%nat -> (cnfstart (cs ci) <= a < cnfstart (cs ci) + inconf (cs ci))%nat ->
    all_neighbors (cs ci) pos (bx ci) rcut a (L ci a)) ->
  forall s, let s' := PairModel.calc_forces bld phi dphi in_range eweight sweight cp_energy punish cs nconf s in
  forall ci, (ci < nconf)%nat ->
  (uf (cs ci) = true -> forall a k, (cnfstart (cs ci) <= a < cnfstart (cs ci) + inconf (cs ci))%nat -> (k < 3)%nat -> 0 <= absforce (cs ci) a ->
     exists l, nth_error (force_table bld (cnfstart (cs nconf)) cs conf_of s') (3 * a + k) = Some l /\
     l_value l = comp (pair_force (cs ci) pos (bx ci) dphi in_range (L ci) a) k /\ l_ref l = comp (force_0 (cs ci) a) k /\
     (FWEIGHT bld = false -> l_square l = Some (if (CONTRIB bld && negb (contrib (cs ci) a))%bool then 0 else conf_weight (cs ci) * sq (comp (pair_force (cs ci) pos (bx ci) dphi in_range (L ci) a) k - comp (force_0 (cs ci) a) k)) /\
     l_rel l = if Req_EM_T (comp (force_0 (cs ci) a) k) 0 then None else Some ((comp (pair_force (cs ci) pos (bx ci) dphi in_range (L ci) a) k - comp (force_0 (cs ci) a) k) / comp (force_0 (cs ci) a) k))) /\
  (eweight <> 0 -> forall file, let e := (cp_energy ci + pair_energy (cs ci) pos (bx ci) phi in_range (L ci)) / INR (inconf (cs ci)) in
     exists l, nth_error (energy_table eweight nconf cs s' file) ci = Some l /\
     l_weight l = Some (conf_weight (cs ci)) /\ l_value l = e /\ l_ref l = energy_0 (cs ci) /\
     (file = true -> l_dev l = Some (e - energy_0 (cs ci)) /\
        l_square l = if Req_EM_T (conf_weight (cs ci)) 0 then None else Some (eweight * sq (e - energy_0 (cs ci))))) /\
  (STRESS bld = true -> sweight <> 0 -> (uf (cs ci) && us (cs ci))%bool = true -> forall k, (k < 6)%nat ->
     let x := pair_virial (cs ci) pos (bx ci) dphi in_range (L ci) k / conf_vol (cs ci) in
     exists l, nth_error (stress_table bld sweight nconf cs s') (6 * ci + k) = Some l /\
     l_weight l = Some (conf_weight (cs ci)) /\ l_value l = x /\ l_ref l = stress_0 (cs ci) k /\
     l_square l = Some (conf_weight (cs ci) * sweight * sq (x - stress_0 (cs ci) k))).
Proof. exact pair_tables. Qed.
Print Assumptions C135_pair_tables.

Theorem C135_zero_weight_refuted : exists (c : conf) (d : dev), conf_weight c = 0 /\ en d 0 = 1 /\
  option_map l_square (nth_error (energy_table 1 1 (fun _ => c) d true) 0) = Some None.
Proof. exact zero_weight_refuted. Qed.
Print Assumptions C135_zero_weight_refuted.

Theorem C135_weighted_ratio_refuted : exists (bld : build) (c : conf) (d : dev) l q, placed (fun _ => c) 1 (fun _ => 0%nat) /\
  nth_error (force_table bld 1 (fun _ => c) (fun _ => 0%nat) d) 0 = Some l /\
  l_ref l = 1 /\ l_value l - l_ref l = 1 + FORCE_EPS /\ l_rel l = Some q /\ q = 1.
Proof. exact weighted_ratio_refuted. Qed.
Print Assumptions C135_weighted_ratio_refuted.

Theorem C135_unused_refuted : exists cs pos bx rcut L, (forall ci, cnfstart (cs (S ci)) = (cnfstart (cs ci) + inconf (cs ci))%nat) /\ geometry (cs 0%nat) pos bx rcut /\ all_neighbors (cs 0%nat) pos bx rcut 0 (L 0%nat) /\ uf (cs 0%nat) = false /\ forall bld eweight sweight s,
  let s' := PairModel.calc_forces bld (fun _ _ _ => 0) (fun _ _ _ => 0) (fun _ _ _ => true) eweight sweight (fun _ => 0) 0 cs 1 s in
  comp (pair_force (cs 0%nat) pos bx (fun _ _ _ => 0) (fun _ _ _ => true) L 0) 0 = 0 /\ option_map l_value (nth_error (force_table bld 1 cs (fun _ => 0%nat) s') 0) = Some 1.
Proof. exact unused_refuted. Qed.
Print Assumptions C135_unused_refuted.

Theorem C136_gauge : forall bld phi dphi in_range dens ddens reach F dF FA dFA fbegin fend fstep
  eweight sweight limit_0 dummy_0 punish ntypes natoms cs nconf,
  (forall ci, cnfstart (cs (S ci)) = (cnfstart (cs ci) + inconf (cs ci))%nat) -> (0 < ntypes)%nat ->
  forall pos bx rcut, (forall ci, (ci < nconf)%nat -> geometry (cs ci) pos (bx ci) rcut) ->
  forall L, (forall ci a, (ci < nconf)%nat -> (cnfstart (cs ci) <= a < cnfstart (cs ci) + inconf (cs ci))%nat ->
    all_neighbors (cs ci) pos (bx ci) rcut a (L ci a)) ->
  (forall b t, fbegin b t <= fend b t) -> NOPUNISH bld = false -> TBEAM bld = false ->
  forall s, let s' := EamModel.calc_forces bld phi dphi in_range dens ddens reach F dF FA dFA fbegin fend fstep
                        eweight sweight limit_0 dummy_0 punish ntypes natoms cs nconf s in
  let p := punish_file bld nconf ntypes limit_0 s' in
  rsumf (fun k => sq (dum s' k)) (seq 0 (2 * nbands bld * ntypes)) =
  rsumf (fun l => fst (fst (fst l)) + snd (fst (fst l))) (p_dummy p) + shown (p_added p).
Proof. exact eam_tables. Qed.
Print Assumptions C136_gauge.

Theorem C136_bands_refuted : exists dF s, let bld := mk_ebuild (mk_build false false false) false false false true in
  let s' := EamModel.calc_forces bld (fun _ _ _ => 0) (fun _ _ _ => 0) (fun _ _ _ => false) (fun _ _ _ => 0) (fun _ _ _ => 0) (fun _ _ _ => false)
     (fun _ _ _ => 0) dF (fun _ _ _ => 0) (fun _ _ _ => 0) (fun _ _ => 0) (fun _ _ => 2) (fun _ _ => 1) 0 0 (fun _ => 0) (fun _ => 0) 0 1 1 (only 1 1 true true (fun _ => [])) 0 s in
  let p := punish_file bld 0 1 (fun _ => 0) s' in
  err (dv s') = 10000 /\ rsumf (fun l => fst (fst (fst l)) + snd (fst (fst l))) (p_dummy p) + shown (p_added p) = 0.
Proof. exact bands_missing. Qed.
Print Assumptions C136_bands_refuted.

(** The line of an element: U^2, U'^2, U, U'. *)
Theorem C136_columns : forall bld nconf ntypes limit_0 (s : est) i, (i < ntypes)%nat ->
  exists u2 du2 u du, nth_error (p_dummy (punish_file bld nconf ntypes limit_0 s)) i = Some (u2, du2, u, du) /\
  u2 = u * u /\ du2 = du * du /\ du = dum s i /\
  (RESCALE bld = true -> u = dum s (i + ntypes)%nat) /\ (RESCALE bld = false -> u = 0).
Proof. exact columns. Qed.
Print Assumptions C136_columns.

(** The line of a configuration: square of the deviation, and the punishment itself. *)
Theorem C136_limit_lines : forall bld nconf ntypes limit_0 (s : est) i, (i < nconf)%nat ->
  nth_error (p_limits (punish_file bld nconf ntypes limit_0 s)) i = Some (EamModel.lim s i * EamModel.lim s i, EamModel.lim s i + limit_0 i).
Proof. exact limit_lines. Qed.
Print Assumptions C136_limit_lines.

Theorem C136_limits : forall bld (cs : nat -> conf) nconf ntypes limit_0 (s : est),
  (forall ci, (ci < nconf)%nat -> conf_weight (cs ci) = 1) ->
  rsumf fst (p_limits (punish_file bld nconf ntypes limit_0 s)) = rsumf (fun ci => conf_weight (cs ci) * sq (EamModel.lim s ci)) (seq 0 nconf).
Proof. exact limits_weighted. Qed.
Print Assumptions C136_limits.

Theorem C136_limits_refuted : exists (cs : nat -> conf) (s : est), let bld := mk_ebuild (mk_build false false false) true false false false in
  rsumf fst (p_limits (punish_file bld 1 1 (fun _ => 0) s)) = 1 /\ rsumf (fun ci => conf_weight (cs ci) * sq (EamModel.lim s ci)) (seq 0 1) = 2.
Proof. exact limits_differ. Qed.
Print Assumptions C136_limits_refuted.

(** hypotheses are met by a cube with one atom, energy 3/2 instead of 1 *)
Example C135_energy_ex : let c := mk_conf 0 1 true true 2 1 (fun _ => []) (fun _ => 0%nat) (fun _ => true) (fun _ => 0) (fun _ => v0) 1 (fun _ => 0) in
  nth_error (energy_table 3 1 (fun _ => c) (mk_dev (fun _ => v0) (fun _ => 1/2) (fun _ _ => 0) 0) true) 0 =
  Some (Line (Some 2) (Some (3 * (1/4))) (3/2) 1 (Some (1/2)) (Some (1/2))).
Proof.
  unfold energy_table. destruct (Req_EM_T 3 0); [lra|]. cbn. unfold energy_line, over, sq. cbn. destruct (Req_EM_T 2 0); [lra|]. destruct (Req_EM_T 1 0); [lra|].
  f_equal. f_equal; try (f_equal; unfold Rdiv; field); field.
Qed.
Example C135_pair_ex : exists cs pos bx rcut, (forall ci, cnfstart (cs (S ci)) = (cnfstart (cs ci) + inconf (cs ci))%nat) /\ placed cs 1 (fun _ => 0%nat) /\
  (forall ci, (ci < 1)%nat -> geometry (cs ci) pos (bx ci) rcut) /\
  exists L, (forall ci a, (ci < 1)%nat -> (cnfstart (cs ci) <= a < cnfstart (cs ci) + inconf (cs ci))%nat -> all_neighbors (cs ci) pos (bx ci) rcut a (L ci a)) /\
  uf (cs 0%nat) = true /\ inconf (cs 0%nat) = 1%nat.
Proof.
  destruct cube_geometry as (l & _ & G). exists (only 1 1 true true (fun _ => l)), origin, (fun _ => cube), (fun _ _ => 1).
  split; [intros [|ci]; reflexivity|]. split; [split; [reflexivity|intros ci a C A; lia]|].
  assert (GG : forall ci, (ci < 1)%nat -> geometry (only 1 1 true true (fun _ => l) ci) origin cube (fun _ _ => 1)) by (intros ci C; replace ci with 0%nat by lia; destruct G; constructor; auto).
  split; [exact GG|]. destruct (all_neighbors_exist _ _ _ _ (GG 0%nat ltac:(lia))) as (L & HL). exists (fun _ => L). split; [|split; reflexivity].
  intros ci a C A. replace ci with 0%nat in * by lia. apply HL. exact A.
Qed.
Example C136_ex : let bld := mk_ebuild (mk_build false false false) false false false false in
  punish_file bld 1 2 (fun _ => 0) (mk_est (mk_dev (fun _ => v0) (fun _ => 0) (fun _ _ => 0) 0) (fun _ _ => 0) (fun _ _ => 0) (fun _ => 5) (fun _ => 0) (fun k => INR k)) =
  Punishments [(sq 5, 5 + 0)] [(0, sq 0, 0, 0); (0, sq 1, 0, 1)] (Some (sq 2)).
Proof. cbv zeta. unfold punish_file. cbn. reflexivity. Qed.
