(** Model of the electrostatic force routine, src/force_elstat.c:111-941 (one process), from
    the second derivatives of the splines on, with and without DIPOLE.

    Frame and short-range part are those of PairModel.  [fel], [gel], [ggel] are the tail
    function of the Coulomb interaction and its gradients (neigh->fnval_el, grad_el,
    ggrad_el) as functions of the distance: elstat_shift or elstat_dsf (functions.c:434-487,
    FuncModel.v), called with the current kappa or, if kappa is fixed, once by init_tails.
    [dpb], [dpc] are dp_b[col], dp_c[col] by the two types.  [self_coef] is the factor of the
    self energy (802-827).  C uses a double as a condition; [nz] is the test for not zero.
    E_tot is computed and used at once; it is not kept here. *)
From Coq Require Import Reals ZArith List Bool.
From Verif Require Import Vec NbrModel LoopUtil PairModel FuncModel.
Import ListNotations.
Local Open Scope R_scope.

Definition nz (x : R) : bool := if Req_EM_T x 0 then false else true.

(** ** 186-205: charges from the parameters [q]; the last one makes the sample neutral *)
Definition sum_charges (ratio q : nat -> R) (n : nat) : R :=
  for_up 0 n (fun i s => if nz (q i) then s + ratio i * q i else s) 0.
Definition charges (ntypes : nat) (ratio q : nat -> R) (i : nat) : R :=
  if Nat.eqb i (ntypes - 1) then - sum_charges ratio q (ntypes - 1) / ratio (ntypes - 1)%nat
  else if nz (q i) then q i else 0.

(** fields of atom_t used for dipoles, types.h *)
Record dip := mk_dip { E_stat : nat -> vec; p_sr : nat -> vec; E_ind : nat -> vec; E_old : nat -> vec; p_ind : nat -> vec }.
Record elst := mk_elst { edv : dev; edp : dip }.

Section El.
Variable bld : build.
Variable DIPOLE : bool.
Variables phi dphi : nat -> nat -> R -> R.
Variable in_range : nat -> nat -> R -> bool.
Variables charge alpha : nat -> R.
Variables dpb dpc : nat -> nat -> R.
Variables fel gel ggel : R -> R.
Variables dp_cut dp_tol dp_mix self_coef : R.
Variables eweight sweight : R.
Variable punish : R.

Definition near (e : neigh) : bool := if Rlt_dec (n_r e) dp_cut then true else false.
Definition self (i : nat) (e : neigh) : bool := Nat.eqb (n_nr e) i.
Definition half (i : nat) (e : neigh) (x : R) : R := if self i e then x * (1 / 2) else x.
Definition add_en (ci : nat) (x : R) (s : dev) : dev :=
  mk_dev (frc s) (setf (en s) ci (en s ci + x)) (str s) (err s).
(** force tmp on atom i, - tmp on its neighbour, e.g. 392-412 *)
Definition push (ci : nat) (c : conf) (i : nat) (e : neigh) (tmp : vec) (s : dev) : dev :=
  mk_dev (scatter i e tmp (frc s)) (en s)
    (if (STRESS bld && us c)%bool
     then setf (str s) ci (fun k => if Nat.ltb k 6 then str s ci k - stress_of (n_dist e) tmp k else str s ci k)
     else str s)
    (err s).

(** ** second loop, 307-463 *)
Definition charged (c : conf) (i : nat) (e : neigh) : bool :=
  (near e && (nz (charge (typ c i)) || nz (charge (n_type e))))%bool.
(** 368-415 *)
Definition monopole (ci : nat) (c : conf) (i : nat) (s : dev) (e : neigh) : dev :=
  if charged c i e then
    let grad_i := charge (n_type e) * gel (n_r e) in
    let fnval := half i e (charge (typ c i) * charge (n_type e) * fel (n_r e)) in
    let grad := half i e (charge (typ c i) * grad_i) in
    let s := add_en ci fnval s in
    if uf c then push ci c i e (vscale grad (n_dist e)) s else s
  else s.
Definition second_neighbor (ci : nat) (c : conf) (i : nat) (s : dev) (e : neigh) : dev :=
  monopole ci c i (neighbor_body bld phi dphi in_range ci c i s e) e.
Definition second_atom (ci : nat) (c : conf) (i : nat) (s : dev) : dev :=
  fold_left (second_neighbor ci c i) (nb c i) s.
(** 373-378, 417-428 *)
Definition add_field (c : conf) (i : nat) (e : neigh) (E : nat -> vec) : nat -> vec :=
  let grad_i := charge (n_type e) * gel (n_r e) in
  let grad_j := if Nat.eqb (typ c i) (n_type e) then grad_i else charge (typ c i) * gel (n_r e) in
  let E := setf E i (vadd (E i) (vscale (half i e grad_i) (n_dist e))) in
  setf E (n_nr e) (vsub (E (n_nr e)) (vscale (half i e grad_j) (n_dist e))).
(** 430-458 *)
Definition has_sr (c : conf) (i : nat) (e : neigh) : bool := (nz (dpb (typ c i) (n_type e)) && nz (dpc (typ c i) (n_type e)))%bool.
Definition add_sr (c : conf) (i : nat) (e : neigh) (p : nat -> vec) : nat -> vec :=
  let tail a := gel (n_r e) * n_r e * shortrange_value (n_r e) a (dpb (typ c i) (n_type e)) (dpc (typ c i) (n_type e)) in
  let p := if (nz (alpha (typ c i)) && has_sr c i e)%bool
           then setf p i (vadd (p i) (vscale (charge (n_type e) * tail (alpha (typ c i))) (n_dist_r e))) else p in
  if (nz (alpha (n_type e)) && has_sr c i e && negb (self i e))%bool
  then setf p (n_nr e) (vsub (p (n_nr e)) (vscale (charge (typ c i) * tail (alpha (n_type e))) (n_dist_r e))) else p.
Definition field_neighbor (c : conf) (i : nat) (d : dip) (e : neigh) : dip :=
  if charged c i e then mk_dip (add_field c i e (E_stat d)) (add_sr c i e (p_sr d)) (E_ind d) (E_old d) (p_ind d) else d.
Definition field_atom (c : conf) (i : nat) (d : dip) : dip := fold_left (field_neighbor c i) (nb c i) d.
(** 275-289 *)
Definition reset_field (c : conf) (i : nat) (d : dip) : dip :=
  mk_dip (setf (E_stat d) i v0) (setf (p_sr d) i v0) (E_ind d) (E_old d) (p_ind d).

(** ** third loop, 466-599 *)
Definition polar (c : conf) (i : nat) : bool := nz (alpha (typ c i)).
(** 474-508; [it] is dp_it *)
Definition polarise (it : nat) (c : conf) (i : nat) (d : dip) : dip :=
  if polar c i then
    let E_tot := if Nat.eqb it 0 then vadd (E_ind d i) (E_stat d i)
                 else vadd (vadd (vscale (1 - dp_mix) (E_ind d i)) (vscale dp_mix (E_old d i))) (E_stat d i) in
    mk_dip (E_stat d) (p_sr d) (setf (E_ind d) i v0) (setf (E_old d) i (E_ind d i))
      (setf (p_ind d) i (vadd (vscale (alpha (typ c i)) E_tot) (p_sr d i)))
  else d.
(** 510-552 *)
Definition dip_field (p : vec) (e : neigh) : vec :=
  let rp := sprod p (n_dist_r e) in vscale (gel (n_r e)) (vsub (vscale (3 * rp) (n_dist_r e)) p).
Definition induce_neighbor (c : conf) (p : nat -> vec) (i : nat) (E : nat -> vec) (e : neigh) : nat -> vec :=
  if (near e && nz (alpha (typ c i)) && nz (alpha (n_type e)))%bool then
    let E := setf E i (vadd (E i) (dip_field (p (n_nr e)) e)) in
    if self i e then E else setf E (n_nr e) (vadd (E (n_nr e)) (dip_field (p i) e))
  else E.
Definition induce_atom (c : conf) (p : nat -> vec) (i : nat) (E : nat -> vec) : nat -> vec :=
  fold_left (induce_neighbor c p i) (nb c i) E.
(** 554-570 *)
Definition change (c : conf) (d : dip) (i : nat) (x : R) : R :=
  if polar c i then x + sqv (vscale (alpha (typ c i)) (vsub (E_old d i) (E_ind d i))) else x.
(** 472-570 *)
Definition round (it : nat) (c : conf) (d : dip) : dip * R :=
  let lo := cnfstart c in
  let hi := (cnfstart c + inconf c)%nat in
  let d := for_up lo hi (polarise it c) d in
  let d := mk_dip (E_stat d) (p_sr d) (for_up lo hi (induce_atom c (p_ind d)) (E_ind d)) (E_old d) (p_ind d) in
  (d, sqrt (for_up lo hi (change c d) 0 / (3 * INR (inconf c)))).
(** 575-590 *)
Definition give_up (c : conf) (i : nat) (d : dip) : dip :=
  if polar c i then
    mk_dip (E_stat d) (p_sr d) (setf (E_ind d) i (E_stat d i)) (E_old d)
      (setf (p_ind d) i (vadd (vscale (alpha (typ c i)) (E_stat d i)) (p_sr d i)))
  else d.
Definition hopeless (it : nat) (x : R) : bool :=
  (negb (Nat.eqb it 0) && ((if Rlt_dec 10 x then true else false) || Nat.ltb 50 it))%bool.
Definition small (x : R) : bool := if Rlt_dec x dp_tol then true else false.
(** None: not converged within [fuel] rounds *)
Fixpoint dip_loop (fuel it : nat) (c : conf) (d : dip) : option dip :=
  match fuel with
  | O => None
  | S fuel =>
    let (d, x) := round it c d in
    let d := if hopeless it x then for_up (cnfstart c) (cnfstart c + inconf c) (give_up c) d else d in
    if (hopeless it x || small x)%bool then Some d else dip_loop fuel (S it) c d
  end.
(** the loop ends after at most 52 rounds (ElProof5.v: dip_loop_ends), so the last case does not occur *)
Definition dipoles (c : conf) (d : dip) : dip :=
  let lo := cnfstart c in
  let hi := (cnfstart c + inconf c)%nat in
  let d := for_up lo hi (reset_field c) d in
  let d := for_up lo hi (field_atom c) d in
  match dip_loop 52 0 c d with Some d => d | None => d end.

(** ** fourth loop, 601-797; rp_i and rp_j keep their values from one neighbour to the next *)
Record proj := mk_proj { pdv : dev; rp_i : R; rp_j : R }.
Definition charge_dipole (ci : nat) (c : conf) (i : nat) (e : neigh) (sign q rp G H : R) (p : vec) (s : dev) : dev :=
  let s := add_en ci (sign * (q * rp * G * n_r e)) s in
  if uf c then push ci c i e (vscale sign (vadd (vscale (q * rp * H * n_r2 e) (n_dist_r e)) (vscale (q * G) p))) s else s.
Definition dipole_dipole (ci : nat) (c : conf) (i : nat) (e : neigh) (g h rpi rpj : R) (pi pj : vec) (s : dev) : dev :=
  let tmp_1 := 3 * rpi * rpj in
  let tmp_2 := 3 * g / n_r2 e in
  let grad_1 := (tmp_1 - sprod pi pj) * h in
  let grad_2 := 2 * rpi * rpj in
  let s := add_en ci (- (tmp_1 - sprod pi pj) * g) s in
  if uf c then push ci c i e (vscale (-1) (vsub (vscale grad_1 (n_dist e))
     (vscale tmp_2 (vsub (vsub (vscale grad_2 (n_dist e)) (vscale (rpi * n_r e) pj)) (vscale (rpj * n_r e) pi))))) s else s.
Definition fourth_neighbor (p : nat -> vec) (ci : nat) (c : conf) (i : nat) (s : proj) (e : neigh) : proj :=
  let a1 := nz (alpha (typ c i)) in
  let a2 := nz (alpha (n_type e)) in
  let q1 := charge (typ c i) in
  let q2 := charge (n_type e) in
  if (near e && (a1 || a2))%bool then
    let g0 := - gel (n_r e) in
    let h0 := - ggel (n_r e) in
    let (sv, sg) := shortrange_term (n_r e) (dpb (typ c i) (n_type e)) (dpc (typ c i) (n_type e)) in
    let g := half i e g0 in
    let h := half i e h0 in
    let G := if has_sr c i e then g + g0 * sv else g in
    let H := if has_sr c i e then h + (g0 * sg + h0 * sv) else h in
    let s := if (nz q1 && a2)%bool then
        let rpj := sprod (p (n_nr e)) (n_dist_r e) in
        mk_proj (charge_dipole ci c i e (-1) q1 rpj G H (p (n_nr e)) (pdv s)) (rp_i s) rpj
      else s in
    let s := if (a1 && nz q2)%bool then
        let rpi := sprod (p i) (n_dist_r e) in
        mk_proj (charge_dipole ci c i e 1 q2 rpi G H (p i) (pdv s)) rpi (rp_j s)
      else s in
    if (a1 && a2)%bool then
      mk_proj (dipole_dipole ci c i e g h (rp_i s) (rp_j s) (p i) (p (n_nr e)) (pdv s)) (rp_i s) (rp_j s)
    else s
  else s.
Definition fourth_atom (p : nat -> vec) (ci : nat) (c : conf) (i : nat) (s : proj) : proj :=
  fold_left (fourth_neighbor p ci c i) (nb c i) s.

(** ** fifth loop, 799-858 *)
Definition self_energy (p : nat -> vec) (ci : nat) (c : conf) (i : nat) (s : dev) : dev :=
  let q := charge (typ c i) in
  let s := if nz q then add_en ci (- (self_coef * (q * q))) s else s in
  if (DIPOLE && polar c i)%bool then add_en ci (sprod (p i) (p i) / (2 * alpha (typ c i))) s else s.
Definition fifth_atom (p : nat -> vec) (ci : nat) (c : conf) (i : nat) (s : dev) : dev :=
  score_atom bld c i (self_energy p ci c i s).

(** 258-877 *)
Definition config_body (ci : nat) (c : conf) (s : elst) : elst :=
  let lo := cnfstart c in
  let hi := (cnfstart c + inconf c)%nat in
  let d := if DIPOLE then dipoles c (edp s) else edp s in
  let s := reset_conf bld (fun _ => 0) ci c (edv s) in
  let s := for_up lo hi (reset_atom c) s in
  let s := for_up lo hi (second_atom ci c) s in
  let s := if DIPOLE then pdv (for_up lo hi (fourth_atom (p_ind d) ci c) (mk_proj s 0 0)) else s in
  let s := for_up lo hi (fifth_atom (p_ind d) ci c) s in
  mk_elst (score_stress bld sweight ci c (score_energy eweight ci c s)) d.

Definition calc_forces (cs : nat -> conf) (nconf : nat) (s : elst) : elst :=
  let s := for_up 0 nconf (fun ci => config_body ci (cs ci)) (mk_elst (mk_dev (frc (edv s)) (en (edv s)) (str (edv s)) 0) (edp s)) in
  mk_elst (mk_dev (frc (edv s)) (en (edv s)) (str (edv s)) (err (edv s) + punish)) (edp s).
End El.
(** 802-827; DSF: damped shifted force *)
Definition self_factor (erfc : R -> R) (DSF : bool) (dp_cut kappa : R) : R :=
  if DSF then
    let '(f, g, _) := elstat_value erfc dp_cut kappa in
    DP_EPS * kappa / sqrt PI + (f - g * dp_cut * dp_cut) * (1 / 2)
  else DP_EPS * kappa / sqrt PI.
