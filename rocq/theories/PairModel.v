(** Model of the pair force routine, src/force_pair.c:106-318 (one process), from the
    second derivatives of the splines on.

    The deviation vector "forces" has three regions here, as in set_force_vector_pointers
    (force_common.c:99-141): [frc] (three entries per atom), [en] (one per configuration)
    and [str] (six per configuration).  The value and gradient of the pair function of a
    neighbour come from the precomputed slot of the neighbour, which is determined by the two
    types and the distance (C24); here they are functions [phi], [dphi] of types and
    distance, and [in_range] is the test r < end[col].  The regions of dummy constraints and
    punishments are not part of this model; the return value of apot_punish is [punish]. *)
From Coq Require Import Reals ZArith List Bool.
From Verif Require Import Vec NbrModel LoopUtil.
Import ListNotations.
Local Open Scope R_scope.

Definition setf {A} (f : nat -> A) (i : nat) (x : A) : nat -> A := fun k => if Nat.eqb k i then x else f k.

Record dev := mk_dev { frc : nat -> vec; en : nat -> R; str : nat -> nat -> R; err : R }.

(** Compile time switches *)
Record build := mk_build { STRESS : bool; FWEIGHT : bool; CONTRIB : bool }.
(** One configuration (g_config) *)
Record conf := mk_conf {
  cnfstart : nat; inconf : nat; uf : bool; us : bool; conf_weight : R; conf_vol : R;
  nb : nat -> list neigh;      (* neighbour lists by atom *)
  typ : nat -> nat; contrib : nat -> bool; absforce : nat -> R;
  force_0 : nat -> vec; energy_0 : R; stress_0 : nat -> R }.
(** defines.h:51 *)
Definition FORCE_EPS : R := 1 / 10.

Section Pair.
Variable bld : build.
Variables phi dphi : nat -> nat -> R -> R.
Variable in_range : nat -> nat -> R -> bool.
Variables eweight sweight : R.
Variable cp_energy : nat -> R.   (* chemical potential of a configuration, 0 without *)
Variable punish : R.             (* apot_punish *)

Definition sq (x : R) : R := x * x.
Definition sqv (v : vec) : R := sq (vx v) + sq (vy v) + sq (vz v).

(** forces on i and its neighbour, 226-238 *)
Definition scatter (i : nat) (e : neigh) (tmp : vec) (f : nat -> vec) : nat -> vec :=
  let f := setf f i (vadd (f i) tmp) in
  setf f (n_nr e) (vsub (f (n_nr e)) tmp).
(** 240-249 *)
Definition stress_of (d f : vec) (k : nat) : R :=
  match k with
  | 0%nat => vx d * vx f | 1%nat => vy d * vy f | 2%nat => vz d * vz f
  | 3%nat => vx d * vy f | 4%nat => vy d * vz f | _ => vz d * vx f
  end.

(** body of the loop over neighbours, 198-252 *)
Definition neighbor_body (ci : nat) (c : conf) (i : nat) (s : dev) (e : neigh) : dev :=
  if in_range (typ c i) (n_type e) (n_r e) then
    let w := if Nat.eqb (n_nr e) i then 1 / 2 else 1 in
    let phi_val := phi (typ c i) (n_type e) (n_r e) * w in
    let phi_grad := (if uf c then dphi (typ c i) (n_type e) (n_r e) else 0) * w in
    let en' := setf (en s) ci (en s ci + phi_val) in
    if uf c then
      let tmp := vscale phi_grad (n_dist_r e) in
      mk_dev (scatter i e tmp (frc s)) en'
        (if (STRESS bld && us c)%bool
         then setf (str s) ci (fun k => if Nat.ltb k 6 then str s ci k - stress_of (n_dist e) tmp k else str s ci k)
         else str s)
        (err s)
    else mk_dev (frc s) en' (str s) (err s)
  else s.

(** 255-274 *)
Definition score_atom (c : conf) (i : nat) (s : dev) : dev :=
  if uf c then
    let f := if FWEIGHT bld then setf (frc s) i (vscale (/ (FORCE_EPS + absforce c i)) (frc s i)) else frc s in
    mk_dev f (en s) (str s)
      (if (negb (CONTRIB bld) || contrib c i)%bool then err s + conf_weight c * sqv (f i) else err s)
  else s.

Definition atom_body (ci : nat) (c : conf) (i : nat) (s : dev) : dev :=
  score_atom c i (fold_left (neighbor_body ci c i) (nb c i) s).

(** 165-190: reset *)
Definition reset_atom (c : conf) (i : nat) (s : dev) : dev :=
  mk_dev (setf (frc s) i (if uf c then vscale (-1) (force_0 c i) else v0)) (en s) (str s) (err s).
Definition reset_conf (ci : nat) (c : conf) (s : dev) : dev :=
  mk_dev (frc s) (setf (en s) ci (0 + cp_energy ci))
    (if STRESS bld then setf (str s) ci (fun k => if Nat.ltb k 6 then 0 else str s ci k) else str s) (err s).

(** 277-293 *)
Definition score_energy (ci : nat) (c : conf) (s : dev) : dev :=
  let e := en s ci / INR (inconf c) - energy_0 c in
  mk_dev (frc s) (setf (en s) ci e) (str s) (err s + conf_weight c * eweight * sq e).
Definition score_stress_comp (ci : nat) (c : conf) (k : nat) (s : dev) : dev :=
  let x := str s ci k / conf_vol c - stress_0 c k in
  mk_dev (frc s) (en s) (setf (str s) ci (setf (str s ci) k x)) (err s + conf_weight c * sweight * sq x).
Definition score_stress (ci : nat) (c : conf) (s : dev) : dev :=
  if (STRESS bld && uf c && us c)%bool then for_up 0 6 (score_stress_comp ci c) s else s.

Definition config_body (ci : nat) (c : conf) (s : dev) : dev :=
  let lo := cnfstart c in
  let hi := (cnfstart c + inconf c)%nat in
  let s := reset_conf ci c s in
  let s := for_up lo hi (reset_atom c) s in
  let s := for_up lo hi (atom_body ci c) s in
  score_stress ci c (score_energy ci c s).

(** all configurations; [cs ci] is configuration ci *)
Definition calc_forces (cs : nat -> conf) (nconf : nat) (s : dev) : dev :=
  let s := for_up 0 nconf (fun ci => config_body ci (cs ci)) (mk_dev (frc s) (en s) (str s) 0) in
  mk_dev (frc s) (en s) (str s) (err s + punish).
End Pair.
