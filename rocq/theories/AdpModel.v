(** Model of the angular dependent potential (ADP) force routine, src/force_adp.c:113-672
    (one process), from the second derivatives of the splines on.

    The parts that repeat force_eam.c line by line are those of EamModel with one band: the
    pair part (240-284), the densities (349-367), the embedding (370-416), the EAM force
    (449-492).  New are the dipole and quadrupole terms: [u], [du] are the dipole function of
    columns col[2] and its gradient, by the types of the two atoms and the distance (as phi),
    [w], [dw] the quadrupole function of col[3]; [u_range], [w_range] the tests r < end.
    u_val, u_grad, w_val and w_grad of a neighbour, which the third loop finds as the second
    left them, are computed again here ([u_val], ...): both are under the same test. *)
From Coq Require Import Reals ZArith List Bool.
From Verif Require Import Vec NbrModel LoopUtil PairModel EamModel.
Import ListNotations.
Local Open Scope R_scope.

(** types.h: sym_tens *)
Record tens := mk_tens { xx : R; yy : R; zz : R; xy : R; yz : R; zx : R }.
Definition t0 : tens := mk_tens 0 0 0 0 0 0.
Definition tadd (s t : tens) : tens :=
  mk_tens (xx s + xx t) (yy s + yy t) (zz s + zz t) (xy s + xy t) (yz s + yz t) (zx s + zx t).
Definition tscale (k : R) (t : tens) : tens := mk_tens (k * xx t) (k * yy t) (k * zz t) (k * xy t) (k * yz t) (k * zx t).
(** config.c:1218-1223, dd is the unit vector *)
Definition sqrdist (e : neigh) : tens :=
  let dd := n_dist_r e in
  let r := n_r e in
  mk_tens (vx dd * vx dd * r * r) (vy dd * vy dd * r * r) (vz dd * vz dd * r * r)
          (vx dd * vy dd * r * r) (vy dd * vz dd * r * r) (vz dd * vx dd * r * r).

(** atom->mu, atom->lambda, atom->nu *)
Record ast := mk_ast { es : est; mu : nat -> vec; lam : nat -> tens; nu : nat -> R }.

Section Adp.
(** TBEAM of [bld0] is not used *)
Variable bld0 : ebuild.
Definition one_band (b : ebuild) : ebuild := mk_ebuild (base b) (RESCALE b) (APOT b) (NOPUNISH b) false.
Notation bld := (one_band bld0).
Variables phi dphi : nat -> nat -> R -> R.
Variable in_range : nat -> nat -> R -> bool.
Variables dens ddens : nat -> nat -> R -> R.
Variable reach : nat -> nat -> R -> bool.
Variables F dF FA dFA : nat -> nat -> R -> R.
Variables fbegin fend fstep : nat -> nat -> R.
Variables u du : nat -> nat -> R -> R.
Variable u_range : nat -> nat -> R -> bool.
Variables w dw : nat -> nat -> R -> R.
Variable w_range : nat -> nat -> R -> bool.
Variables eweight sweight : R.
Variable limit_0 : nat -> R.
Variable dummy_0 : nat -> R.
Variable punish : R.
Variables ntypes natoms : nat.

(** avoid double counting if atom is interacting with itself, 294-298, 320-324 *)
Definition halved (i : nat) (e : neigh) (x : R) : R := if Nat.eqb (n_nr e) i then x * (1 / 2) else x.
Definition u_val (c : conf) (i : nat) (e : neigh) : R := halved i e (u (typ c i) (n_type e) (n_r e)).
Definition u_grad (c : conf) (i : nat) (e : neigh) : R := halved i e (du (typ c i) (n_type e) (n_r e)).
Definition w_val (c : conf) (i : nat) (e : neigh) : R := halved i e (w (typ c i) (n_type e) (n_r e)).
Definition w_grad (c : conf) (i : nat) (e : neigh) : R := halved i e (dw (typ c i) (n_type e) (n_r e)).

(** 286-310 *)
Definition add_dipole (c : conf) (i : nat) (e : neigh) (m : nat -> vec) : nat -> vec :=
  if u_range (typ c i) (n_type e) (n_r e) then scatter i e (vscale (u_val c i e) (n_dist e)) m else m.
(** 312-347 *)
Definition add_quadrupole (c : conf) (i : nat) (e : neigh) (l : nat -> tens) : nat -> tens :=
  if w_range (typ c i) (n_type e) (n_r e) then
    let tmp := tscale (w_val c i e) (sqrdist e) in
    let l := setf l i (tadd (l i) tmp) in
    setf l (n_nr e) (tadd (l (n_nr e)) tmp)
  else l.
(** 233-368 *)
Definition second_neighbor (ci : nat) (c : conf) (i : nat) (s : ast) (e : neigh) : ast :=
  mk_ast (EamModel.second_neighbor bld phi dphi in_range dens reach ci c i (es s) e)
    (add_dipole c i e (mu s)) (add_quadrupole c i e (lam s)) (nu s).

(** 418-432: energy of the distortions of atom i *)
Definition trace (l : tens) : R := xx l + yy l + zz l.
Definition distortion (m : vec) (l : tens) : R :=
  let tr := trace l / 3 in
  (sq (vx m) + sq (vy m) + sq (vz m) + sq (xx l - tr) + sq (yy l - tr) + sq (zz l - tr) +
   sq (xy l) * 2 + sq (yz l) * 2 + sq (zx l) * 2) * (1 / 2).
Definition add_energy (ci : nat) (x : R) (s : est) : est :=
  with_dv s (mk_dev (frc (dv s)) (setf (en (dv s)) ci (en (dv s) ci + x)) (str (dv s)) (err (dv s))).
(** 226-433 *)
Definition second_atom (ci : nat) (c : conf) (i : nat) (s : ast) : ast :=
  let s := fold_left (second_neighbor ci c i) (nb c i) s in
  let e := embed_body bld F dF FA dFA fbegin fend fstep ci c i 0 (es s) in
  mk_ast (add_energy ci (distortion (mu s i) (lam s i)) e) (mu s) (lam s) (setf (nu s) i (trace (lam s i))).

(** ** third loop; m, l, n are the final mu, lambda, nu *)
Definition push_force (ci : nat) (c : conf) (i : nat) (e : neigh) (tmp : vec) (s : dev) : dev :=
  mk_dev (scatter i e tmp (frc s)) (en s)
    (if (STRESS (base bld) && us c)%bool
     then setf (str s) ci (fun k => if Nat.ltb k 6 then str s ci k - stress_of (n_dist e) tmp k else str s ci k)
     else str s)
    (err s).
(** 494-528 *)
Definition dipole_force (m : nat -> vec) (ci : nat) (c : conf) (i : nat) (s : dev) (e : neigh) : dev :=
  if u_range (typ c i) (n_type e) (n_r e) then
    let u_force := vsub (m i) (m (n_nr e)) in
    let u_force := if Nat.eqb (n_nr e) i then vscale (1 / 2) u_force else u_force in
    let tmp := sprod u_force (n_dist e) * u_grad c i e in
    push_force ci c i e (vadd (vscale (u_val c i e) u_force) (vscale tmp (n_dist_r e))) s
  else s.
(** 530-576 *)
Definition tmul (t : tens) (d : vec) : vec :=
  V3 (xx t * vx d + xy t * vy d + zx t * vz d) (xy t * vx d + yy t * vy d + yz t * vz d) (zx t * vx d + yz t * vy d + zz t * vz d).
Definition quadrupole_force (l : nat -> tens) (n : nat -> R) (ci : nat) (c : conf) (i : nat) (s : dev) (e : neigh) : dev :=
  if w_range (typ c i) (n_type e) (n_r e) then
    let w_force := tadd (l i) (l (n_nr e)) in
    let w_force := if Nat.eqb (n_nr e) i then tscale (1 / 2) w_force else w_force in
    let tmp_vect := tmul w_force (n_dist e) in
    let nu := (n i + n (n_nr e)) / 3 in
    let f1 := 2 * w_val c i e in
    let f2 := (sprod tmp_vect (n_dist e) - nu * n_r e * n_r e) * w_grad c i e - nu * f1 * n_r e in
    push_force ci c i e (vadd (vscale f1 tmp_vect) (vscale f2 (n_dist_r e))) s
  else s.
Definition third_neighbor (g : nat -> nat -> R) (m : nat -> vec) (l : nat -> tens) (n : nat -> R) (ci : nat) (c : conf) (i : nat) (s : dev) (e : neigh) : dev :=
  quadrupole_force l n ci c i (dipole_force m ci c i (EamModel.third_neighbor bld ddens reach g ci c i s e) e) e.
(** 435-590 *)
Definition third_atom (g : nat -> nat -> R) (m : nat -> vec) (l : nat -> tens) (n : nat -> R) (ci : nat) (c : conf) (i : nat) (s : dev) : dev :=
  score_atom (base bld) c i (fold_left (third_neighbor g m l n ci c i) (nb c i) s).

(** 206-224 *)
Definition reset_adp (c : conf) (i : nat) (s : ast) : ast :=
  mk_ast (reset_rho bld c i (es s)) (setf (mu s) i v0) (setf (lam s) i t0) (nu s).
(** 190-612; unlike EAM the limit entry is used without RESCALE too *)
Definition config_body (ci : nat) (c : conf) (s : ast) : ast :=
  let lo := cnfstart c in
  let hi := (cnfstart c + inconf c)%nat in
  let e := with_dv (es s) (reset_conf (base bld) (fun _ => 0) ci c (dv (es s))) in
  let e := mk_est (dv e) (rho e) (gradF e) (setf (lim e) ci (- limit_0 ci)) (rsum e) (dum e) in
  let s := mk_ast e (mu s) (lam s) (nu s) in
  let s := for_up lo hi (reset_adp c) s in
  let s := for_up lo hi (second_atom ci c) s in
  let d := if uf c then for_up lo hi (third_atom (gradF (es s)) (mu s) (lam s) (nu s) ci c) (dv (es s)) else dv (es s) in
  let d := score_stress (base bld) sweight ci c (score_energy eweight ci c d) in
  mk_ast (with_dv (es s) (mk_dev (frc d) (en d) (str d) (err d + conf_weight c * sq (lim (es s) ci)))) (mu s) (lam s) (nu s).

(** ** dummy constraints, 624-651: no test for a positive mean density *)
Definition mean_constraint (s : est) : est :=
  let s := set_dum s ntypes (DUMMY_WEIGHT * (rsum s 0%nat / INR natoms - 1)) in
  add_err s (sq (dum s ntypes)).
Definition dummies (s : est) : est :=
  if NOPUNISH bld then s
  else
    let s := for_up 0 ntypes (dummy_type bld dF fbegin fend dummy_0 ntypes) s in
    if RESCALE bld then s else mean_constraint s.

Definition calc_forces (cs : nat -> conf) (nconf : nat) (s : ast) : ast :=
  let e := es s in
  let d := dv e in
  let s := mk_ast (mk_est (mk_dev (frc d) (en d) (str d) 0) (rho e) (gradF e) (lim e) (fun _ => 0) (dum e)) (mu s) (lam s) (nu s) in
  let s := for_up 0 nconf (fun ci => config_body ci (cs ci)) s in
  mk_ast (dummies (add_err (es s) punish)) (mu s) (lam s) (nu s).
End Adp.
