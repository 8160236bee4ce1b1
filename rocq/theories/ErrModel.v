(** The error report, errors.c:44-209 and the sums of 273-466.
    Real numbers; the deviation vector is split as in PairModel.  The tables of single
    entries (.force, .energy, .stress, .punish) are not modelled, nor the tests for NaN. *)
From Coq Require Import Reals List Arith Bool.
From Verif Require Import Vec LoopUtil PairModel.
Import ListNotations.
Open Scope R_scope.

Definition comp (v : vec) (k : nat) : R := match k with 0%nat => vx v | 1%nat => vy v | _ => vz v end.
(** a quotient as computed; [None]: division by zero (NaN or infinity) *)
Definition quot (a : R) (n : nat) : option R := match n with O => None | _ => Some (a / INR n) end.
Definition osqrt (a : option R) : option R := match a with Some x => Some (sqrt x) | None => None end.

(** what is printed; [None]: the line is missing *)
Record report := Report {
  r_total : R; r_contrib : nat; r_forces : R; r_energies : option R; r_stresses : option R; r_punish : option R;
  r_rms_f : option R; r_rms_e : option (option R); r_rms_s : option (option R); r_mpa : option (option R) }.

Section Err.
Variable bld : build.
Variables eweight sweight : R.
Variables natoms nconf mdim : nat.
Variable cs : nat -> conf.
Variable conf_of : nat -> nat.     (* atoms[i].conf *)
Variable opt : bool.
Variable d : dev.

Definition at_conf (a : nat) : conf := cs (conf_of a).
(** errors.c:297-307 *)
Definition force_sum : R :=
  for_up 0 (3 * natoms) (fun i acc =>
    let a := (i / 3)%nat in
    acc + (if (CONTRIB bld && negb (contrib (at_conf a) a))%bool then 0
           else conf_weight (at_conf a) * sq (comp (frc d a) (i mod 3)))) 0.
(** errors.c:351-354, 377-380 *)
Definition energy_sum : R :=
  if Req_EM_T eweight 0 then 0
  else for_up 0 nconf (fun i acc => acc + conf_weight (cs i) * eweight * sq (en d i)) 0.
(** errors.c:412-424, 452-455 *)
Definition stress_sum : R :=
  if STRESS bld then
    if Req_EM_T sweight 0 then 0
    else for_up 0 (6 * nconf) (fun i acc =>
           acc + conf_weight (cs (i / 6)) * sweight * sq (str d (i / 6) (i mod 6))) 0
  else 0.

(** errors.c:77-108 *)
Definition undone (a : nat) (x : R) : R := if FWEIGHT bld then x * (FORCE_EPS + absforce (at_conf a) a) else x.
Definition rms_force : option R :=
  let s := for_up 0 natoms (fun i s =>
    if (negb (CONTRIB bld) || contrib (at_conf i) i)%bool then
      (fst s + sq (undone i (vx (frc d i))) + sq (undone i (vy (frc d i))) + sq (undone i (vz (frc d i))), S (snd s))
    else s) (0, O) in
  osqrt (quot (fst s) (3 * (if CONTRIB bld then snd s else natoms))).
(** errors.c:110-117 *)
Definition rms_energy : option R :=
  osqrt (quot (for_up 0 nconf (fun i acc => acc + sq (en d i)) 0) nconf).
(** errors.c:119-130 *)
Definition rms_stress : option R :=
  osqrt (quot (for_up 0 nconf (fun i acc => for_up 0 6 (fun j acc => acc + sq (str d i j)) acc) 0) (6 * nconf)).
(** errors.c:171, 207: printed as MPa *)
Definition mpa (x : R) : R := x / (1602 / 10) * 1000.
Definition if_weight (w : R) {A} (x : A) : option A := if Req_EM_T w 0 then None else Some x.

(** errors.c:44-209 *)
Definition write_errors (tot : R) : report :=
  let rest := tot - force_sum - energy_sum - stress_sum in
  Report tot mdim force_sum (if_weight eweight energy_sum)
    (if STRESS bld then if_weight sweight stress_sum else None)
    (if Rlt_dec (1 / 100) rest then if opt then Some rest else None else None)
    rms_force (if_weight eweight rms_energy)
    (if STRESS bld then if_weight sweight rms_stress else None)
    (if STRESS bld then if_weight sweight (match rms_stress with Some x => Some (mpa x) | None => None end) else None).
End Err.
