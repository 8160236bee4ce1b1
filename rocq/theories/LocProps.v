(** C139: the report of the local electron densities. *)
From Coq Require Import Reals ZArith List Bool.
From Verif Require Import Vec NbrModel NbrProof NbrProof3 LoopUtil PairModel PairSpec PairProof3 EamModel EamSpec EamProof5 EamProof7 LocModel LocProof RescaleProof6.
Import ListNotations.
Local Open Scope R_scope.

(** One line per atom: number, type and the density used by the force routine.  That is the
    textbook density, cut to the range of the embedding function if the density may be
    rescaled. *)
Theorem C139_lines : forall bld phi dphi in_range dens ddens reach F dF FA dFA fbegin fend fstep
  eweight sweight limit_0 dummy_0 punish ntypes natoms cs nconf,
  (forall ci, cnfstart (cs (S ci)) = (cnfstart (cs ci) + inconf (cs ci))%nat) -> (0 < ntypes)%nat ->
  forall pos bx rcut, (forall ci, (ci < nconf)%nat -> geometry (cs ci) pos (bx ci) rcut) ->
  forall L, (forall ci a, (ci < nconf)%nat -> (cnfstart (cs ci) <= a < cnfstart (cs ci) + inconf (cs ci))%nat ->
     all_neighbors (cs ci) pos (bx ci) rcut a (L ci a)) ->
  (forall b t, fbegin b t <= fend b t) ->
  forall type_of, natoms = cnfstart (cs nconf) ->
  (forall ci a, (ci < nconf)%nat -> (cnfstart (cs ci) <= a < cnfstart (cs ci) + inconf (cs ci))%nat -> type_of a = typ (cs ci) a) ->
  forall s, let s' := EamModel.calc_forces bld phi dphi in_range dens ddens reach F dF FA dFA fbegin fend fstep
     eweight sweight limit_0 dummy_0 punish ntypes natoms cs nconf s in
  let table := lines natoms type_of (EamModel.rho s' 0%nat) in
  length table = natoms /\
  forall ci a, (ci < nconf)%nat -> (cnfstart (cs ci) <= a < cnfstart (cs ci) + inconf (cs ci))%nat ->
  nth_error table a = Some (a, typ (cs ci) a,
    let x := density (cs ci) pos (bx ci) dens reach (L ci) 0 a in
    if RESCALE bld then cut (fbegin 0%nat (typ (cs ci) a)) (fend 0%nat (typ (cs ci) a)) x else x).
Proof. exact loc_lines. Qed.
Print Assumptions C139_lines.

(** The line of a type shows the mean over all atoms of the type; there is no number if no
    atom has the type. *)
Theorem C139_averages : forall bld phi dphi in_range dens ddens reach F dF FA dFA fbegin fend fstep
  eweight sweight limit_0 dummy_0 punish ntypes natoms cs nconf,
  (forall ci, cnfstart (cs (S ci)) = (cnfstart (cs ci) + inconf (cs ci))%nat) -> (0 < ntypes)%nat ->
  forall pos bx rcut, (forall ci, (ci < nconf)%nat -> geometry (cs ci) pos (bx ci) rcut) ->
  forall L, (forall ci a, (ci < nconf)%nat -> (cnfstart (cs ci) <= a < cnfstart (cs ci) + inconf (cs ci))%nat ->
     all_neighbors (cs ci) pos (bx ci) rcut a (L ci a)) ->
  (forall b t, fbegin b t <= fend b t) ->
  forall type_of na, cnfstart (cs O) = O -> natoms = cnfstart (cs nconf) ->
  (forall ci a, (ci < nconf)%nat -> (cnfstart (cs ci) <= a < cnfstart (cs ci) + inconf (cs ci))%nat -> type_of a = typ (cs ci) a) ->
  (forall t, (t < ntypes)%nat -> INR (na t) =
     rsumf (fun ci => rsumf (fun a => if Nat.eqb (typ (cs ci) a) t then 1 else 0) (seq (cnfstart (cs ci)) (inconf (cs ci)))) (seq 0 nconf)) ->
  forall s, let s' := EamModel.calc_forces bld phi dphi in_range dens ddens reach F dF FA dFA fbegin fend fstep
     eweight sweight limit_0 dummy_0 punish ntypes natoms cs nconf s in
  let table := averages ntypes natoms type_of (EamModel.rho s' 0%nat) na in
  length table = ntypes /\
  forall t, (t < ntypes)%nat -> nth_error table t = Some (
    let sum f := rsumf (fun ci => rsumf (fun a => if Nat.eqb (typ (cs ci) a) t then f ci a else 0) (seq (cnfstart (cs ci)) (inconf (cs ci)))) (seq 0 nconf) in
    if Req_EM_T (sum (fun _ _ => 1)) 0 then None
    else Some (sum (fun ci a => let x := density (cs ci) pos (bx ci) dens reach (L ci) 0 a in
                 if RESCALE bld then cut (fbegin 0%nat (typ (cs ci) a)) (fend 0%nat (typ (cs ci) a)) x else x) / sum (fun _ _ => 1))).
Proof. exact loc_averages. Qed.
Print Assumptions C139_averages.

(** What is shown need not be the density at the atom (an atom without neighbours is shown
    with the lowest argument of its embedding function), and a type without atoms is shown
    with no number. *)
Theorem C139_clamped_refuted : exists bld fbegin (l : list neigh) (L : nat -> list (nat * image)), forall s,
  let c := one_conf l 0 in
  let s' := EamModel.calc_forces bld zf zf all_range idf onef all_range idf onef idf onef fbegin (fun _ _ => 100) (fun _ _ => 1)
              1 1 (fun _ => 0) (fun _ => 0) 0 1 1 (one_conf l) 1 s in
  geometry c origin cube (fun _ _ => 1 / 2) /\ all_neighbors c origin cube (fun _ _ => 1 / 2) 0 (L 0%nat) /\
  density c origin cube idf all_range L 0 0 = 0 /\
  lines 1 (fun _ => 0%nat) (EamModel.rho s' 0%nat) = [(0%nat, 0%nat, 1 / 2)] /\
  averages 2 1 (fun _ => 0%nat) (EamModel.rho s' 0%nat) (fun t => match t with O => 1%nat | _ => 0%nat end) = [Some (1 / 2); None].
Proof. exact loc_clamped_ex. Qed.
Print Assumptions C139_clamped_refuted.

Example C139_ex : (exists l, l <> [] /\ geometry (cube_conf l) origin cube (fun _ _ => 1)) /\
  (forall l ci, cnfstart (one_conf l (S ci)) = (cnfstart (one_conf l ci) + inconf (one_conf l ci))%nat) /\
  INR 1 = rsumf (fun ci => rsumf (fun a => if Nat.eqb (typ (one_conf [] ci) a) 0 then 1 else 0) (seq (cnfstart (one_conf [] ci)) (inconf (one_conf [] ci)))) (seq 0 1).
Proof. split; [exact cube_geometry|]. split; [exact one_cont|]. cbn. unfold rsumf; cbn. unfold Vec.rsum; cbn. unfold rsumf; cbn. unfold Vec.rsum; cbn. ring. Qed.
