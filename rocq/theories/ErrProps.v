(** C33, C83: the error report. *)
From Coq Require Import Reals List Arith Bool Lra.
From Verif Require Import Vec NbrModel PairModel PairProof PairProof2 PairProof3 EamModel EamProof2 EamProof3 ErrModel ErrSpec ErrProof ErrProof2.
Import ListNotations.
Open Scope R_scope.

(** C33.  Pair potentials: forces, energies, stresses as reported and the punishments add up to
    the total; the line of the punishments shows just them if they exceed 0.01 and a fit was
    done.  [conf_of] is the number of the configuration stored with each atom. *)
Theorem C33_pair_sum : forall cs nconf mdim conf_of opt, cnfstart (cs O) = O ->
  (forall ci, cnfstart (cs (S ci)) = (cnfstart (cs ci) + inconf (cs ci))%nat) ->
  (forall ci a, (ci < nconf)%nat -> (cnfstart (cs ci) <= a < cnfstart (cs ci) + inconf (cs ci))%nat -> conf_of a = ci) ->
  (forall ci i e, (ci < nconf)%nat -> (cnfstart (cs ci) <= i < cnfstart (cs ci) + inconf (cs ci))%nat ->
     In e (nb (cs ci) i) -> (i <= n_nr e < cnfstart (cs ci) + inconf (cs ci))%nat) ->
  forall bld phi dphi in_range eweight sweight cp_energy punish s,
  let s' := PairModel.calc_forces bld phi dphi in_range eweight sweight cp_energy punish cs nconf s in
  let r := write_errors bld eweight sweight (cnfstart (cs nconf)) nconf mdim cs conf_of opt s' (err s') in
  r_total r = r_forces r + shown (r_energies r) + shown (r_stresses r) + punish /\
  (r_punish r = if Rlt_dec (1 / 100) punish then if opt then Some punish else None else None).
Proof. exact pair_report. Qed.
Print Assumptions C33_pair_sum.
(** EAM: the rest are limits of the density, punishments and gauge constraints. *)
Theorem C33_eam_sum : forall cs nconf mdim conf_of opt, cnfstart (cs O) = O ->
  (forall ci, cnfstart (cs (S ci)) = (cnfstart (cs ci) + inconf (cs ci))%nat) ->
  (forall ci a, (ci < nconf)%nat -> (cnfstart (cs ci) <= a < cnfstart (cs ci) + inconf (cs ci))%nat -> conf_of a = ci) ->
  (forall ci i e, (ci < nconf)%nat -> (cnfstart (cs ci) <= i < cnfstart (cs ci) + inconf (cs ci))%nat ->
     In e (nb (cs ci) i) -> (i <= n_nr e < cnfstart (cs ci) + inconf (cs ci))%nat) ->
  forall bld phi dphi in_range dens ddens reach F dF FA dFA fbegin fend fstep
  eweight sweight limit_0 dummy_0 punish ntypes natoms s, (0 < ntypes)%nat ->
  (forall ci i e, (ci < nconf)%nat -> (cnfstart (cs ci) <= i < cnfstart (cs ci) + inconf (cs ci))%nat ->
     In e (nb (cs ci) i) -> n_type e = typ (cs ci) (n_nr e)) ->
  let s' := EamModel.calc_forces bld phi dphi in_range dens ddens reach F dF FA dFA fbegin fend fstep
              eweight sweight limit_0 dummy_0 punish ntypes natoms cs nconf s in
  let r := write_errors (base bld) eweight sweight (cnfstart (cs nconf)) nconf mdim cs conf_of opt (dv s') (err (dv s')) in
  let limits := if RESCALE bld then rsumf (fun ci => conf_weight (cs ci) * sq (lim s' ci)) (seq 0 nconf) else 0 in
  let gauge := if NOPUNISH bld then 0 else rsumf (fun k => sq (dum s' k)) (seq 0 (2 * nbands bld * ntypes)) in
  let rest := limits + punish + gauge in
  r_total r = r_forces r + shown (r_energies r) + shown (r_stresses r) + rest /\
  (r_punish r = if Rlt_dec (1 / 100) rest then if opt then Some rest else None else None).
Proof. exact eam_report. Qed.
Print Assumptions C33_eam_sum.
Example C33_ex : cnfstart (two_confs 0) = 0%nat /\ cnfstart (two_confs 1) = 1%nat /\ cnfstart (two_confs 2) = 2%nat /\
  forall ci i e, (ci < 2)%nat -> In e (nb (two_confs ci) i) -> False.
Proof.
  split; [reflexivity|]. split; [reflexivity|]. split; [reflexivity|].
  intros [|[|ci]] i e H; simpl; auto.
Qed.
(** Small punishments are not shown: the lines do not add up. *)
Theorem C33_hidden_refuted : forall punish, 0 < punish <= 1 / 100 -> exists bld cs s,
  let s' := PairModel.calc_forces bld (fun _ _ _ => 0) (fun _ _ _ => 0) (fun _ _ _ => false) 1 0 (fun _ => 0) punish cs 1 s in
  forall opt, let r := write_errors bld 1 0 1 1 4 cs (fun _ => O) opt s' (err s') in
  r_forces r + shown (r_energies r) + shown (r_stresses r) + shown (r_punish r) < r_total r.
Proof. exact hidden. Qed.
Print Assumptions C33_hidden_refuted.

(** The rms values are the root mean squares of the deviations of all (contributing) atoms, of
    all energies and of all stress components; with no contributing atom there is none. *)
Theorem C33_rms_forces_partial : forall bld nconf cs conf_of d,
  (counted bld nconf cs conf_of <> [] -> exists r,
     rms_force bld (natoms nconf cs) cs conf_of d = Some r /\ root_mean_square (deviations bld nconf cs conf_of d) r) /\
  (counted bld nconf cs conf_of = [] -> rms_force bld (natoms nconf cs) cs conf_of d = None).
Proof. exact (fun b n c o d => conj (rms_force_spec b n c o d) (rms_force_none b n c o d)). Qed.
Print Assumptions C33_rms_forces_partial.
Theorem C33_unweighted : forall bld (cs : nat -> conf) conf_of ci a v w k, conf_of a = ci -> 0 <= absforce (cs ci) a ->
  v = vscale (fscale bld cs ci a) w -> undone bld cs conf_of a (comp v k) = comp w k.
Proof. exact unweighted. Qed.
Print Assumptions C33_unweighted.
Theorem C33_rms_energies : forall nconf d, (0 < nconf)%nat -> exists r,
  rms_energy nconf d = Some r /\ root_mean_square (map (en d) (seq 0 nconf)) r.
Proof. exact rms_energy_spec. Qed.
Print Assumptions C33_rms_energies.
Theorem C33_rms_stresses_partial : forall nconf d, (0 < nconf)%nat -> exists r,
  rms_stress nconf d = Some r /\ root_mean_square (flat_map (fun i => map (str d i) (seq 0 6)) (seq 0 nconf)) r.
Proof. exact rms_stress_spec. Qed.
Print Assumptions C33_rms_stresses_partial.
(** Configurations whose forces are not used count as perfect: the rms is too small. *)
Theorem C33_rms_refuted : exists bld eweight cs nconf conf_of s,
  let s' := PairModel.calc_forces bld (fun _ _ _ => 0) (fun _ _ _ => 0) (fun _ _ _ => false) eweight 0 (fun _ => 0) 0 cs nconf s in
  let scored := [comp (frc s' 0) 0; comp (frc s' 0) 1; comp (frc s' 0) 2] in
  uf (cs 0%nat) = true /\ uf (cs 1%nat) = false /\ nconf = 2%nat /\ cnfstart (cs nconf) = 2%nat /\
  conf_of 0%nat = 0%nat /\ conf_of 1%nat = 1%nat /\
  exists r, rms_force bld 2 cs conf_of s' = Some r /\ forall q, root_mean_square scored q -> r < q.
Proof. exact diluted. Qed.
Print Assumptions C33_rms_refuted.

(** C83.  What is printed as MPa is never the rms stress in MPa (but for zero). *)
Theorem C83_refuted : forall x, x <> 0 -> mpa x <> x * MPa_per_eV_A3.
Proof. exact mpa_wrong. Qed.
Print Assumptions C83_refuted.
