(** Independence of the unit cell: C32 (pair and EAM routines). *)
From Coq Require Import Reals ZArith List Bool.
From Verif Require Import Vec NbrModel NbrProof3 PairModel PairSpec PairProof3 CellSpec CellProof CellProof2 CellProof3 EamModel EamProof3.
Import ListNotations.
Local Open Scope R_scope.

(** C32: energy per atom and stress found for configuration x of one run and configuration
    y of another are the same if the two configurations describe one crystal. *)
Theorem C32_pair_cell_independent : forall bld phi dphi in_range ew1 sw1 ew2 sw2 cp1 cp2 pu1 pu2 cs1 cs2 n1 n2,
  STRESS bld = true ->
  (forall ci, cnfstart (cs1 (S ci)) = (cnfstart (cs1 ci) + inconf (cs1 ci))%nat) ->
  (forall ci, cnfstart (cs2 (S ci)) = (cnfstart (cs2 ci) + inconf (cs2 ci))%nat) ->
  (forall s t r, phi s t r = phi t s r) -> (forall s t r, dphi s t r = dphi t s r) ->
  (forall s t r, in_range s t r = in_range t s r) ->
  forall pos1 pos2 bx1 bx2 rcut,
  (forall ci, (ci < n1)%nat -> geometry (cs1 ci) pos1 (bx1 ci) rcut) ->
  (forall ci, (ci < n2)%nat -> geometry (cs2 ci) pos2 (bx2 ci) rcut) ->
  forall x y m tau s1 s2, (x < n1)%nat -> (y < n2)%nat -> (0 < inconf (cs1 x))%nat -> conf_vol (cs1 x) <> 0 ->
  same_crystal (cs1 x) (cs2 y) pos1 pos2 (bx1 x) (bx2 y) m tau ->
  cp2 y = INR m * cp1 x ->
  uf (cs1 x) = true -> us (cs1 x) = true -> uf (cs2 y) = true -> us (cs2 y) = true ->
  let r1 := PairModel.calc_forces bld phi dphi in_range ew1 sw1 cp1 pu1 cs1 n1 s1 in
  let r2 := PairModel.calc_forces bld phi dphi in_range ew2 sw2 cp2 pu2 cs2 n2 s2 in
  en r1 x + energy_0 (cs1 x) = en r2 y + energy_0 (cs2 y) /\
  forall k, (k < 6)%nat -> str r1 x k + stress_0 (cs1 x) k = str r2 y k + stress_0 (cs2 y) k.
Proof. exact pair_cell_independent. Qed.
Print Assumptions C32_pair_cell_independent.
Theorem C32_eam_cell_independent : forall bld phi dphi in_range dens ddens reach F dF FA dFA fbegin fend fstep
  ew1 sw1 ew2 sw2 l1 l2 d1 d2 pu1 pu2 nt na1 na2 cs1 cs2 n1 n2,
  STRESS (base bld) = true -> (0 < nt)%nat -> bands_nested bld reach ->
  (forall ci, cnfstart (cs1 (S ci)) = (cnfstart (cs1 ci) + inconf (cs1 ci))%nat) ->
  (forall ci, cnfstart (cs2 (S ci)) = (cnfstart (cs2 ci) + inconf (cs2 ci))%nat) ->
  (forall s t r, phi s t r = phi t s r) -> (forall s t r, dphi s t r = dphi t s r) ->
  (forall s t r, in_range s t r = in_range t s r) ->
  forall pos1 pos2 bx1 bx2 rcut,
  (forall ci, (ci < n1)%nat -> geometry (cs1 ci) pos1 (bx1 ci) rcut) ->
  (forall ci, (ci < n2)%nat -> geometry (cs2 ci) pos2 (bx2 ci) rcut) ->
  forall x y m tau s1 s2, (x < n1)%nat -> (y < n2)%nat -> (0 < inconf (cs1 x))%nat -> conf_vol (cs1 x) <> 0 ->
  same_crystal (cs1 x) (cs2 y) pos1 pos2 (bx1 x) (bx2 y) m tau ->
  (forall A N, (cnfstart (cs2 y) <= A < cnfstart (cs2 y) + inconf (cs2 y))%nat -> fst (tau (A, N)) = fst (tau (A, (0, 0, 0)%Z))) ->
  uf (cs1 x) = true -> us (cs1 x) = true -> uf (cs2 y) = true -> us (cs2 y) = true ->
  let r1 := dv (EamModel.calc_forces bld phi dphi in_range dens ddens reach F dF FA dFA fbegin fend fstep ew1 sw1 l1 d1 pu1 nt na1 cs1 n1 s1) in
  let r2 := dv (EamModel.calc_forces bld phi dphi in_range dens ddens reach F dF FA dFA fbegin fend fstep ew2 sw2 l2 d2 pu2 nt na2 cs2 n2 s2) in
  en r1 x + energy_0 (cs1 x) = en r2 y + energy_0 (cs2 y) /\
  forall k, (k < 6)%nat -> str r1 x k + stress_0 (cs1 x) k = str r2 y k + stress_0 (cs2 y) k.
Proof. exact eam_cell_independent. Qed.
Print Assumptions C32_eam_cell_independent.
(** A supercell of k1 x k2 x k3 cells is such a description. *)
Theorem C32_supercell_same_crystal : forall k1 k2 k3 c1 c2 pos1 pos2 b1 b2, supercell k1 k2 k3 c1 c2 pos1 pos2 b1 b2 ->
  forall t1 t2, make_box b1 = Some (t1, conf_vol c1) -> make_box b2 = Some (t2, conf_vol c2) ->
  same_crystal c1 c2 pos1 pos2 b1 b2 (k1 * k2 * k3) (tau k1 k2 k3 c1 c2) /\
  forall A N, fst (tau k1 k2 k3 c1 c2 (A, N)) = fst (tau k1 k2 k3 c1 c2 (A, (0, 0, 0)%Z)).
Proof. intros k1 k2 k3 c1 c2 pos1 pos2 b1 b2 S t1 t2 V1 V2. split; [exact (super_same _ _ _ _ _ _ _ _ _ S t1 t2 V1 V2)|exact (super_lat k1 k2 k3 c1 c2)]. Qed.
Print Assumptions C32_supercell_same_crystal.
Example C32_ex : supercell 1 1 2 (cube_conf []) two_conf origin pair_pos cube two_box /\ exists t, make_box two_box = Some (t, conf_vol two_conf).
Proof. exact (conj two_super two_volume). Qed.
