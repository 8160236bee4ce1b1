(** Model of the force routine of the angular potentials, src/force_ang.c:214-510 (one
    process), from the second derivatives of the splines on.

    Neighbour lists are full (THREEBODY).  phi, f and g are functions of types and distance
    or cosine, as in PairModel; [in0], [in1] are the tests r < end of the two columns of a
    neighbour.  The angle read for a pair of neighbours is the one stored for it (C64); its
    slot is right in analytic builds (C76).  The regions of punishments and NaN are not part of
    the model. *)
From Coq Require Import Reals ZArith List Bool.
From Verif Require Import Vec NbrModel LoopUtil PairModel SwModel.
Import ListNotations.
Local Open Scope R_scope.

Section Ang.
Variable bld : build.
Variables phi dphi : nat -> nat -> R -> R.
Variable in0 : nat -> nat -> R -> bool.
Variables f df : nat -> nat -> R -> R.
Variable in1 : nat -> nat -> R -> bool.
Variables g dg : nat -> R -> R.
Variables eweight sweight : R.
Variable punish : R.

(** 262-309 *)
Definition pair_body (ci : nat) (c : conf) (i : nat) (s : dev) (e : neigh) : dev :=
  if in0 (typ c i) (n_type e) (n_r e) then
    let phi_val := phi (typ c i) (n_type e) (n_r e) in
    let en' := setf (en s) ci (en s ci + 1 / 2 * phi_val) in
    if uf c then
      let tmp := vscale (dphi (typ c i) (n_type e) (n_r e)) (n_dist_r e) in
      mk_dev (add_force (frc s) i tmp) en'
        (if (STRESS bld && us c)%bool then add_stress ci (str s) (fun k => 1 / 2 * stress_of (n_dist e) tmp k) else str s)
        (err s)
    else mk_dev (frc s) en' (str s) (err s)
  else s.

(** 311-332; f and df of neighbours outside of the table are zero *)
Definition fv (c : conf) (i : nat) (e : neigh) : R := if in1 (typ c i) (n_type e) (n_r e) then f (typ c i) (n_type e) (n_r e) else 0.
Definition fd (c : conf) (i : nat) (e : neigh) : R := if in1 (typ c i) (n_type e) (n_r e) then df (typ c i) (n_type e) (n_r e) else 0.

(** 362-446: neighbours j and k of atom i; the second component is angener_sum *)
Definition tri_body (ci : nat) (c : conf) (i : nat) (ej : neigh) (st : dev * R) (ek : neigh) : dev * R :=
  let (s, sum) := st in
  if in1 (typ c i) (n_type ek) (n_r ek) then
    let cos := sprod (n_dist_r ej) (n_dist_r ek) in
    let gv := g (typ c i) cos in
    let dgv := dg (typ c i) cos in
    let sum := sum + fv c i ej * fv c i ek * gv in
    if uf c then
      let dV3j := gv * fd c i ej * fv c i ek in
      let dV3k := gv * fv c i ej * fd c i ek in
      let V3 := fv c i ej * fv c i ek * dgv in
      let vlj := V3 * n_inv_r ej in
      let vlk := V3 * n_inv_r ek in
      let vv3j := dV3j - vlj * cos in
      let vv3k := dV3k - vlk * cos in
      let dfj := vadd (vscale vv3j (n_dist_r ej)) (vscale vlj (n_dist_r ek)) in
      let dfk := vadd (vscale vv3k (n_dist_r ek)) (vscale vlk (n_dist_r ej)) in
      let fr := add_force (frc s) i (vadd dfj dfk) in
      let fr := add_force fr (n_nr ej) (vscale (-1) dfj) in
      let fr := add_force fr (n_nr ek) (vscale (-1) dfk) in
      (mk_dev fr (en s)
        (if (STRESS bld && us c)%bool
         then add_stress ci (add_stress ci (str s) (stress_of (n_dist ej) dfj)) (stress_of (n_dist ek) dfk)
         else str s) (err s), sum)
    else (s, sum)
  else (s, sum).
(** 351-450 *)
Fixpoint triples (ci : nat) (c : conf) (i : nat) (l : list neigh) (st : dev * R) : dev * R :=
  match l with
  | [] => st
  | ej :: r => triples ci c i r (if in1 (typ c i) (n_type ej) (n_r ej) then fold_left (tri_body ci c i ej) r st else st)
  end.
(** 246-455 *)
Definition atom_body (ci : nat) (c : conf) (i : nat) (s : dev) : dev :=
  let (s, sum) := triples ci c i (nb c i) (fold_left (pair_body ci c i) (nb c i) s, 0) in
  mk_dev (frc s) (setf (en s) ci (en s ci + sum)) (str s) (err s).

(** third loop, 460-479: for all configurations *)
Definition score_atom_all (c : conf) (i : nat) (s : dev) : dev :=
  let fr := if FWEIGHT bld then setf (frc s) i (vscale (/ (FORCE_EPS + absforce c i)) (frc s i)) else frc s in
  mk_dev fr (en s) (str s)
    (if (negb (CONTRIB bld) || contrib c i)%bool then err s + conf_weight c * sqv (fr i) else err s).
(** 493-504: for all configurations *)
Definition score_stress_all (ci : nat) (c : conf) (s : dev) : dev :=
  if STRESS bld then for_up 0 6 (score_stress_comp sweight ci c) s else s.

(** 222-505 *)
Definition config_body (ci : nat) (c : conf) (s : dev) : dev :=
  let lo := cnfstart c in
  let hi := (cnfstart c + inconf c)%nat in
  let s := reset_conf bld (fun _ => 0) ci c s in
  let s := for_up lo hi (reset_atom c) s in
  let s := for_up lo hi (atom_body ci c) s in
  let s := for_up lo hi (score_atom_all c) s in
  score_stress_all ci c (score_energy eweight ci c s).
Definition calc_forces (cs : nat -> conf) (nconf : nat) (s : dev) : dev :=
  let s := for_up 0 nconf (fun ci => config_body ci (cs ci)) (mk_dev (frc s) (en s) (str s) 0) in
  mk_dev (frc s) (en s) (str s) (err s + punish).
End Ang.
