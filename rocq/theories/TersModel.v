(** Model of the Tersoff force routines, src/force_tersoff.c:106-430 and 446-785 (one
    process).  The parameters are those found through update_tersoff_pointers, which is
    modelled in PtrModel; c2 and d2 are the squares of c and d (PtrModel), chi is not used
    by the routine.  They are the parameters after apot_check_params (124-129, 456-461), which
    exchanges S and R of a Tersoff function if S < R (C34, C133).

    Neighbour lists are full (THREEBODY).  The deviation vector is that of PairModel.  The
    cosine of an angle is the scalar product of the two directions (C64).  neigh->f, df and
    dzeta are recomputed in every call before they are used, so they are not part of the
    state.  Doubles are real numbers; a NaN error sum (returned as 10e10) is outside of the
    model. *)
From Coq Require Import Reals ZArith List Bool.
From Verif Require Import Vec NbrModel LoopUtil PairIndexModel PairModel LammpsModel SwModel.
Import ListNotations.
Local Open Scope R_scope.

(** the elements of a list, each with the list of the others *)
Fixpoint picks {A} (pre l : list A) : list (A * list A) :=
  match l with
  | [] => []
  | x :: r => (x, pre ++ r) :: picks (pre ++ [x]) r
  end.
(** 342-347, 366-371 *)
Definition sym_stress (d f : vec) (k : nat) : R :=
  match k with
  | 0%nat => vx d * vx f
  | 1%nat => vy d * vy f
  | 2%nat => vz d * vz f
  | 3%nat => 1 / 2 * (vx d * vy f + vy d * vx f)
  | 4%nat => 1 / 2 * (vy d * vz f + vz d * vy f)
  | _ => 1 / 2 * (vz d * vx f + vx d * vz f)
  end.
(** zeta, dzeta_i, dzeta_j and neigh_k->dzeta of the neighbours within the cutoff *)
Record zacc := mk_zacc { z_zeta : R; z_i : vec; z_j : vec; z_k : list (neigh * vec) }.

Section Ters.
Variable bld : build.
Variable pow0 : R -> R -> R.          (* pow of a number that is not positive *)
Variable V : nat -> nat -> R.         (* parameters of the columns *)
Variable n : nat.                     (* ntypes *)
Variables eweight sweight : R.
Variable punish : R.                  (* apot_punish *)
Notation colof c i e := (col n (typ c i) (n_type e)).

(** force f on the neighbour e, 328-349 and 690-716 *)
Definition on_neigh (ci : nat) (c : conf) (s : dev) (p : neigh * vec) : dev :=
  let '(e, f) := p in
  mk_dev (add_force (frc s) (n_nr e) f) (en s)
    (if (STRESS bld && us c)%bool then add_stress ci (str s) (fun k => - sym_stress (n_dist e) f k) else str s) (err s).
(** repulsive part, 185-215 and 518-549, with the cutoff function f and its derivative *)
Definition rep_body (ci : nat) (c : conf) (i : nat) (e : neigh) (f df A lambda : R) (s : dev) : dev :=
  let self := Nat.eqb (n_nr e) i in
  let tmp := exp (- lambda * n_r e) in
  let phi_val := f * A * tmp in
  let phi_grad := (df - lambda * f) * (A * tmp) in
  let phi_val := if self then phi_val * (1 / 2) else phi_val in
  let phi_grad := if self then phi_grad * (1 / 2) else phi_grad in
  let en' := setf (en s) ci (en s ci + 1 / 2 * phi_val) in
  if uf c then
    let tmp := vscale phi_grad (n_dist_r e) in
    mk_dev (add_force (frc s) i tmp) en'
      (if (STRESS bld && us c)%bool then add_stress ci (str s) (fun k => 1 / 2 * stress_of (n_dist e) tmp k) else str s)
      (err s)
  else mk_dev (frc s) en' (str s) (err s).
(** the frame of both routines, 138-425 and 470-780; the third loop runs for uf only, which is
    part of score_atom *)
Definition config_body (atom : nat -> conf -> nat -> dev -> dev) (ci : nat) (c : conf) (s : dev) : dev :=
  let lo := cnfstart c in
  let hi := (cnfstart c + inconf c)%nat in
  let s := reset_conf bld (fun _ => 0) ci c s in
  let s := for_up lo hi (reset_atom c) s in
  let s := for_up lo hi (atom ci c) s in
  let s := for_up lo hi (score_atom bld c) s in
  score_stress bld sweight ci c (score_energy eweight ci c s).
Definition frame (atom : nat -> conf -> nat -> dev -> dev) (cs : nat -> conf) (nconf : nat) (s : dev) : dev :=
  let s := for_up 0 nconf (fun ci => config_body atom ci (cs ci)) (mk_dev (frc s) (en s) (str s) 0) in
  mk_dev (frc s) (en s) (str s) (err s + punish).

(** ** Tersoff: A B lambda mu gamma n c d h S R; omega *)
Section Standard.
Variable omega : nat -> R.
(** neigh->f and neigh->df, 170-183 and 216-219 *)
Definition cut_f (k : nat) (r : R) : R :=
  if Rlt_dec r (V k 9) then
    let cut_tmp := PI / (V k 9 - V k 10) in
    if Rlt_dec r (V k 10) then 1 else 1 / 2 * (1 + cos (cut_tmp * (r - V k 10)))
  else 0.
Definition cut_df (k : nat) (r : R) : R :=
  if Rlt_dec r (V k 9) then
    let cut_tmp := PI / (V k 9 - V k 10) in
    if Rlt_dec r (V k 10) then 0 else - (1 / 2) * cut_tmp * sin (cut_tmp * (r - V k 10))
  else 0.
(** 162-220 *)
Definition pair_body (ci : nat) (c : conf) (i : nat) (s : dev) (e : neigh) : dev :=
  let k := colof c i e in
  if Rlt_dec (n_r e) (V k 9) then rep_body ci c i e (cut_f k (n_r e)) (cut_df k (n_r e)) (V k 0) (V k 2) s else s.
(** 241-293 *)
Definition inner (c : conf) (i : nat) (ej : neigh) (z : zacc) (ek : neigh) : zacc :=
  let cj := colof c i ej in
  let ck := colof c i ek in
  if Rlt_dec (n_r ek) (V ck 9) then
    let cos := sprod (n_dist_r ej) (n_dist_r ek) in
    let f := cut_f ck (n_r ek) in
    let df := cut_df ck (n_r ek) in
    let c2 := V cj 6 * V cj 6 in
    let d2 := V cj 7 * V cj 7 in
    let tmp_jk := 1 / (n_r ej * n_r ek) in
    let tmp_1 := V cj 8 - cos in
    let tmp_2 := 1 / (d2 + tmp_1 * tmp_1) in
    let g_theta := 1 + c2 / d2 - c2 * tmp_2 in
    let tmp_j2 := cos / (n_r ej * n_r ej) in
    let tmp_k2 := cos / (n_r ek * n_r ek) in
    let dcos_j := vsub (vscale tmp_jk (n_dist ek)) (vscale tmp_j2 (n_dist ej)) in
    let dcos_k := vsub (vscale tmp_jk (n_dist ej)) (vscale tmp_k2 (n_dist ek)) in
    let tmp_3 := 2 * c2 * tmp_1 * tmp_2 * tmp_2 * f * omega ck in
    let tmp_grad := df / n_r ek * g_theta * omega ck in
    let dzeta := vsub (vscale tmp_grad (n_dist ek)) (vscale tmp_3 dcos_k) in
    mk_zacc (z_zeta z + f * omega ck * g_theta) (vsub (z_i z) dzeta) (vsub (z_j z) (vscale tmp_3 dcos_j)) (z_k z ++ [(ek, dzeta)])
  else z.
(** 222-378 *)
Definition bond_body (ci : nat) (c : conf) (i : nat) (s : dev) (p : neigh * list neigh) : dev :=
  let ej := fst p in
  let cj := colof c i ej in
  if Rlt_dec (n_r ej) (V cj 9) then
    if Req_EM_T (V cj 1) 0 then s else
    let z := fold_left (inner c i ej) (snd p) (mk_zacc 0 v0 v0 []) in
    let f := cut_f cj (n_r ej) in
    let df := cut_df cj (n_r ej) in
    let phi_a := 1 / 2 * V cj 1 * exp (- V cj 3 * n_r ej) in
    let tmp_4 := cpow pow0 (V cj 4 * z_zeta z) (V cj 5) in
    let b_ij := cpow pow0 (1 + tmp_4) (-1 / (2 * V cj 5)) in
    let phi_val := - b_ij * phi_a in
    let tmp_5 := if Req_EM_T (z_zeta z) 0 then 0 else - b_ij * f * phi_a * tmp_4 / (2 * z_zeta z * (1 + tmp_4)) in
    let tmp_6 := (f * phi_a * V cj 3 * b_ij + df * phi_val) / n_r ej in
    let force_j := vadd (vscale (- tmp_6) (n_dist ej)) (vscale tmp_5 (z_j z)) in
    let s := mk_dev (frc s) (setf (en s) ci (en s ci + f * phi_val)) (str s) (err s) in
    let s := fold_left (on_neigh ci c) (map (fun q => (fst q, vscale tmp_5 (snd q))) (z_k z)) s in
    let s := on_neigh ci c s (ej, force_j) in
    mk_dev (add_force (frc s) i (vsub (vscale tmp_5 (z_i z)) force_j)) (en s) (str s) (err s)
  else s.
Definition atom_body (ci : nat) (c : conf) (i : nat) (s : dev) : dev :=
  fold_left (bond_body ci c i) (picks [] (nb c i)) (fold_left (pair_body ci c i) (nb c i) s).
Definition calc_forces := frame atom_body.
End Standard.

(** ** TERSOFFMOD: A B lambda mu eta delta alpha beta c1 c2 c3 c4 c5 h R1 R2 *)
Section Modified.
(** 503-516 and 550-553 *)
Definition mod_f (k : nat) (r : R) : R :=
  if Rlt_dec r (V k 15) then
    let tmp_1 := PI / (V k 15 - V k 14) in
    let tmp_2 := tmp_1 * (r - V k 14) in
    if Rlt_dec r (V k 14) then 1 else 1 / 2 * (1 + 9 / 8 * cos tmp_2 - 1 / 8 * cos (3 * tmp_2))
  else 0.
Definition mod_df (k : nat) (r : R) : R :=
  if Rlt_dec r (V k 15) then
    let tmp_1 := PI / (V k 15 - V k 14) in
    let tmp_2 := tmp_1 * (r - V k 14) in
    if Rlt_dec r (V k 14) then 0 else - (1 / 2) * tmp_1 * (9 / 8 * sin tmp_2 - 3 / 8 * sin (3 * tmp_2))
  else 0.
(** 495-554 *)
Definition mod_pair_body (ci : nat) (c : conf) (i : nat) (s : dev) (e : neigh) : dev :=
  let k := colof c i e in
  if Rlt_dec (n_r e) (V k 15) then rep_body ci c i e (mod_f k (n_r e)) (mod_df k (n_r e)) (V k 0) (V k 2) s else s.
(** 582-637; dzeta_ij is kept in the first place of a pair with the rest *)
Definition mod_inner (c : conf) (i : nat) (ej : neigh) (zz : R * zacc) (ek : neigh) : R * zacc :=
  let '(dzeta_ij, z) := zz in
  let cj := colof c i ej in
  let ck := colof c i ek in
  if Rlt_dec (n_r ek) (V ck 15) then
    let cos := sprod (n_dist_r ej) (n_dist_r ek) in
    let f := mod_f ck (n_r ek) in
    let df := mod_df ck (n_r ek) in
    let dcos_j := vscale (/ n_r ej) (vsub (n_dist_r ek) (vscale cos (n_dist_r ej))) in
    let dcos_k := vscale (/ n_r ek) (vsub (n_dist_r ej) (vscale cos (n_dist_r ek))) in
    let tmp_1 := V cj 13 - cos in
    let tmp_2 := 1 / (V cj 10 + tmp_1 * tmp_1) in
    let tmp_3 := V cj 11 * exp (- V cj 12 * tmp_1 * tmp_1) in
    let g_theta := V cj 8 + V cj 9 * tmp_1 * tmp_1 * tmp_2 * (1 + tmp_3) in
    let dg_theta := 2 * V cj 9 * tmp_1 * tmp_2 * (V cj 12 * tmp_1 * tmp_1 * tmp_3 - V cj 10 * tmp_2 * (1 + tmp_3)) in
    let tmp_1 := n_r ej - n_r ek in
    let tmp_2 := V cj 6 * V cj 7 * cpow pow0 tmp_1 (V cj 7 - 1) in
    let tmp_3 := exp (V cj 6 * cpow pow0 tmp_1 (V cj 7)) in
    let dzeta_ik := (df - f * tmp_2) * g_theta * tmp_3 in
    let tmp_4 := f * g_theta * tmp_3 in
    let dzeta_cos := f * dg_theta * tmp_3 in
    let dzeta := vadd (vscale dzeta_cos dcos_k) (vscale dzeta_ik (n_dist_r ek)) in
    (dzeta_ij + tmp_4 * tmp_2,
     mk_zacc (z_zeta z + tmp_4) (vsub (z_i z) dzeta) (vadd (z_j z) (vscale dzeta_cos dcos_j)) (z_k z ++ [(ek, dzeta)]))
  else zz.
(** 556-720 *)
Definition mod_bond_body (ci : nat) (c : conf) (i : nat) (s : dev) (p : neigh * list neigh) : dev :=
  let ej := fst p in
  let cj := colof c i ej in
  if Rlt_dec (n_r ej) (V cj 15) then
    if Req_EM_T (V cj 1) 0 then s else
    let zz := fold_left (mod_inner c i ej) (snd p) (0, mk_zacc 0 v0 v0 []) in
    let z := snd zz in
    let f := mod_f cj (n_r ej) in
    let df := mod_df cj (n_r ej) in
    let dzeta_j := vadd (z_j z) (vscale (fst zz) (n_dist_r ej)) in
    let tmp_1 := cpow pow0 (z_zeta z) (V cj 4) in
    let b := cpow pow0 (1 + tmp_1) (- V cj 5) in
    let tmp_2 := 1 / 2 * b * V cj 1 * exp (- V cj 3 * n_r ej) in
    let tmp_3 := if Req_EM_T (z_zeta z) 0 then 0 else tmp_2 * f * V cj 4 * V cj 5 * tmp_1 / ((1 + tmp_1) * z_zeta z) in
    let phi_val := - tmp_2 in
    let tmp_4 := - tmp_2 * (df - V cj 3 * f) in
    let force_j := vsub (vscale (- tmp_4) (n_dist_r ej)) (vscale tmp_3 dzeta_j) in
    let s := mk_dev (frc s) (setf (en s) ci (en s ci + f * phi_val)) (str s) (err s) in
    let s := on_neigh ci c s (ej, force_j) in
    let s := mk_dev (add_force (frc s) i (vscale (-1) (vadd (vscale tmp_3 (z_i z)) force_j))) (en s) (str s) (err s) in
    fold_left (on_neigh ci c) (map (fun q => (fst q, vscale (- tmp_3) (snd q))) (z_k z)) s
  else s.
Definition mod_atom_body (ci : nat) (c : conf) (i : nat) (s : dev) : dev :=
  fold_left (mod_bond_body ci c i) (picks [] (nb c i)) (fold_left (mod_pair_body ci c i) (nb c i) s).
Definition mod_calc_forces := frame mod_atom_body.
End Modified.
End Ters.
