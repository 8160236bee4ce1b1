(** Model of the Stillinger-Weber force routine, src/force_stiweb.c:105-383 (one process).
    The parameters are those found through update_stiweb_pointers (391-510), which is
    modelled in PtrModel.  apot_check_params (124-129) changes nothing: all functions are of
    the Stillinger-Weber kinds (C132).

    Neighbour lists are full (THREEBODY).  The deviation vector is that of PairModel.  The
    cosine of an angle is the scalar product of the two directions, stored once (C64).
    Line 168 initialises x[1] with x[0] in the initialiser of x itself; here x[1] is the
    distance.  Doubles are real numbers, so a NaN error sum (returned as 10e30) is outside
    of the model. *)
From Coq Require Import Reals ZArith List Bool.
From Verif Require Import Vec NbrModel LoopUtil PairIndexModel PairModel LammpsModel.
Import ListNotations.
Local Open Scope R_scope.

Section Sw.
Variable bld : build.
Variable pow0 : R -> R -> R.          (* pow of a number that is not positive *)
Variable V : nat -> nat -> R.         (* parameters of the columns: A B p q delta a1; gamma a2 *)
Variable lam : nat -> nat -> nat -> R.
Variable n : nat.                     (* ntypes *)
Variables eweight sweight : R.
Variable punish : R.                  (* apot_punish *)

Definition add_force (f : nat -> vec) (i : nat) (v : vec) : nat -> vec := setf f i (vadd (f i) v).
Definition add_stress (ci : nat) (s : nat -> nat -> R) (t : nat -> R) : nat -> nat -> R :=
  setf s ci (fun k => if Nat.ltb k 6 then s ci k - t k else s ci k).

(** pair part, 160-217 *)
Definition pair_body (ci : nat) (c : conf) (i : nat) (s : dev) (e : neigh) : dev :=
  let self := Nat.eqb (n_nr e) i in
  let k := col n (typ c i) (n_type e) in
  if Rlt_dec (n_r e) (V k 5) then
    let phi_r := V k 0 * cpow pow0 (n_r e) (- V k 2) in
    let phi_a := - V k 1 * cpow pow0 (n_r e) (- V k 3) in
    let inv_c := 1 / (n_r e - V k 5) in
    let f_cut := exp (V k 4 * inv_c) in
    let v2_val := (phi_r + phi_a) * f_cut in
    let v2_grad := if uf c then - v2_val * V k 4 * inv_c * inv_c - f_cut * n_inv_r e * (V k 2 * phi_r + V k 3 * phi_a) else 0 in
    let v2_val := if self then v2_val * (1 / 2) else v2_val in
    let v2_grad := if self then v2_grad * (1 / 2) else v2_grad in
    let en' := setf (en s) ci (en s ci + 1 / 2 * v2_val) in
    if uf c then
      let tmp := vscale v2_grad (n_dist_r e) in
      mk_dev (add_force (frc s) i tmp) en'
        (if (STRESS bld && us c)%bool then add_stress ci (str s) (fun k => 1 / 2 * stress_of (n_dist e) tmp k) else str s)
        (err s)
    else mk_dev (frc s) en' (str s) (err s)
  else s.

(** neigh->f and neigh->df, 220-231; they are used for r < a2 only *)
Definition cut_f (k : nat) (r : R) : R :=
  let a2 := V (pcol n + k)%nat 1%nat in
  let gamma := V (pcol n + k)%nat 0%nat in
  if Rlt_dec (r - a2) (- (1 / 100) * gamma) then exp (gamma * (1 / (r - a2))) else 0.
Definition cut_df (k : nat) (r : R) : R :=
  let a2 := V (pcol n + k)%nat 1%nat in
  let gamma := V (pcol n + k)%nat 0%nat in
  if Rlt_dec (r - a2) (- (1 / 100) * gamma)
  then - exp (gamma * (1 / (r - a2))) * gamma * (1 / (r - a2)) * (1 / (r - a2)) / r else 0.

(** 302-312 *)
Definition tri_stress (dj dk fj fk : vec) (k : nat) : R :=
  match k with
  | 0%nat => vx fj * vx dj + vx fk * vx dk
  | 1%nat => vy fj * vy dj + vy fk * vy dk
  | 2%nat => vz fj * vz dj + vz fk * vz dk
  | 3%nat => 1 / 2 * (vx fj * vy dj + vx fk * vy dk + vy fj * vx dj + vy fk * vx dk)
  | 4%nat => 1 / 2 * (vy fj * vz dj + vy fk * vz dk + vz fj * vy dj + vz fk * vy dk)
  | _ => 1 / 2 * (vz fj * vx dj + vz fk * vx dk + vx fj * vz dj + vx fk * vz dk)
  end.
(** 252-315: neighbours j and k of atom i *)
Definition tri_body (ci : nat) (c : conf) (i : nat) (ej : neigh) (s : dev) (ek : neigh) : dev :=
  let lambda := lam (typ c i) (n_type ej) (n_type ek) in
  if Req_EM_T 0 lambda then s else
  let cj := col n (typ c i) (n_type ej) in
  let ck := col n (typ c i) (n_type ek) in
  if Rlt_dec (n_r ek) (V (pcol n + ck)%nat 1%nat) then
    let cos := sprod (n_dist_r ej) (n_dist_r ek) in
    let tmp := cos + 1 / 3 in
    let fj := cut_f cj (n_r ej) in
    let fk := cut_f ck (n_r ek) in
    let v3_val := lambda * fj * fk * tmp * tmp in
    let tmp_grad1 := lambda * fj * fk * 2 * tmp in
    let tmp_grad2 := lambda * tmp * tmp in
    let tmp_jj := 1 / n_r2 ej in
    let tmp_jk := 1 / (n_r ej * n_r ek) in
    let tmp_kk := 1 / n_r2 ek in
    let tmp_2 := tmp_grad1 * tmp_jk in
    let force_j := vadd (vscale (tmp_grad2 * cut_df cj (n_r ej) * fk - tmp_grad1 * cos * tmp_jj) (n_dist ej)) (vscale tmp_2 (n_dist ek)) in
    let force_k := vadd (vscale (tmp_grad2 * cut_df ck (n_r ek) * fj - tmp_grad1 * cos * tmp_kk) (n_dist ek)) (vscale tmp_2 (n_dist ej)) in
    let f := add_force (frc s) i (vadd force_j force_k) in
    let f := add_force f (n_nr ej) (vscale (-1) force_j) in
    let f := add_force f (n_nr ek) (vscale (-1) force_k) in
    mk_dev f (setf (en s) ci (en s ci + v3_val))
      (if (STRESS bld && us c)%bool then add_stress ci (str s) (tri_stress (n_dist ej) (n_dist ek) force_j force_k) else str s)
      (err s)
  else s.
(** 234-318: the last neighbour has none behind it *)
Fixpoint triples (ci : nat) (c : conf) (i : nat) (l : list neigh) (s : dev) : dev :=
  match l with
  | [] => s
  | ej :: r => triples ci c i r
      (if Rlt_dec (n_r ej) (V (pcol n + col n (typ c i) (n_type ej))%nat 1%nat) then fold_left (tri_body ci c i ej) r s else s)
  end.
Definition atom_body (ci : nat) (c : conf) (i : nat) (s : dev) : dev :=
  triples ci c i (nb c i) (fold_left (pair_body ci c i) (nb c i) s).

(** 133-365; the third loop (321-342) runs for uf only, which is part of score_atom *)
Definition config_body (ci : nat) (c : conf) (s : dev) : dev :=
  let lo := cnfstart c in
  let hi := (cnfstart c + inconf c)%nat in
  let s := reset_conf bld (fun _ => 0) ci c s in
  let s := for_up lo hi (reset_atom c) s in
  let s := for_up lo hi (atom_body ci c) s in
  let s := for_up lo hi (score_atom bld c) s in
  score_stress bld sweight ci c (score_energy eweight ci c s).
Definition calc_forces (cs : nat -> conf) (nconf : nat) (s : dev) : dev :=
  let s := for_up 0 nconf (fun ci => config_body ci (cs ci)) (mk_dev (frc s) (en s) (str s) 0) in
  mk_dev (frc s) (en s) (str s) (err s + punish).
End Sw.
