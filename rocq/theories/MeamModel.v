(** Model of the MEAM force routine, src/force_meam.c:113-760 (one process), from the second
    derivatives of the splines on.

    Neighbour lists are full (THREEBODY).  As in EamModel and AngModel the tabulated functions
    are functions of types and distance, density or cosine: [phi], [dphi], [in0] for the pair
    column col[0]; [dens t], [ddens t], [reach t] for the transfer function of the type of the
    neighbour, col[1]; [f], [df], [in2] for col[2]; [g t], [dg t] for the angular function of
    the type of the atom; [F], [dF], [fbegin], [fend], [fstep] for the embedding column, [FA],
    [dFA] the analytic embedding function called directly.  The angle of a pair of neighbours
    is the one stored for it (C64); its slot is right in analytic builds (C76).  The
    values f, df, drho, g, dg kept in the neighbour and angle tables are computed where they
    are used.  NaN and MPI are not part of the model. *)
From Coq Require Import Reals ZArith List Bool.
From Verif Require Import Vec NbrModel LoopUtil PairModel SwModel AngModel EamModel.
Import ListNotations.
Local Open Scope R_scope.

(** atom->rho, atom->gradF by atom; [mlim] the entries limit_p, [mdum] the entry
    dummy_p + ntypes of the deviation vector; [mrsum] rho_sum *)
Record mst := mk_mst { mdv : dev; mrho : nat -> R; mgrad : nat -> R; mlim : nat -> R; mrsum : R; mdum : R }.

Section Meam.
Variable bld : ebuild.
Variables phi dphi : nat -> nat -> R -> R.
Variable in0 : nat -> nat -> R -> bool.
Variables dens ddens : nat -> R -> R.
Variable reach : nat -> R -> bool.
Variables f df : nat -> nat -> R -> R.
Variable in2 : nat -> nat -> R -> bool.
Variables g dg : nat -> R -> R.
Variables F dF FA dFA : nat -> R -> R.
Variables fbegin fend fstep : nat -> R.
Variables eweight sweight : R.
Variable limit_0 : nat -> R.     (* force_0[limit_p + config] *)
Variable punish : R.             (* apot_punish, 0 without APOT *)
Variable natoms : nat.

Definition with_mdv (s : mst) (d : dev) : mst := mk_mst d (mrho s) (mgrad s) (mlim s) (mrsum s) (mdum s).
Definition add_rho (i : nat) (x : R) (s : mst) : mst :=
  mk_mst (mdv s) (setf (mrho s) i (mrho s i + x)) (mgrad s) (mlim s) (mrsum s) (mdum s).

(** 284-366: pair part (as in force_ang.c) and density of the neighbour *)
Definition second_neighbor (ci : nat) (c : conf) (i : nat) (s : mst) (e : neigh) : mst :=
  let s := with_mdv s (AngModel.pair_body (base bld) phi dphi in0 ci c i (mdv s) e) in
  if reach (n_type e) (n_r e) then add_rho i (dens (n_type e) (n_r e)) s else s.

(** 372-386: neigh->f and neigh->df, zero outside of the table *)
Definition fv (c : conf) (i : nat) (e : neigh) : R := if in2 (typ c i) (n_type e) (n_r e) then f (typ c i) (n_type e) (n_r e) else 0.
Definition fd (c : conf) (i : nat) (e : neigh) : R := if in2 (typ c i) (n_type e) (n_r e) then df (typ c i) (n_type e) (n_r e) else 0.
(** 413-424 *)
Definition tri_density (c : conf) (i : nat) (ej : neigh) (s : mst) (ek : neigh) : mst :=
  add_rho i (fv c i ej * fv c i ek * g (typ c i) (sprod (n_dist_r ej) (n_dist_r ek))) s.
(** 408-428 *)
Fixpoint density_pairs (c : conf) (i : nat) (l : list neigh) (s : mst) : mst :=
  match l with [] => s | ej :: r => density_pairs c i r (fold_left (tri_density c i ej) r s) end.

(** 433-456 *)
Definition clamp (ci t i : nat) (s : mst) : mst :=
  if Rlt_dec (mrho s i) (fbegin t) then
    mk_mst (mdv s) (setf (mrho s) i (fbegin t)) (mgrad s)
      (setf (mlim s) ci (mlim s ci + DUMMY_WEIGHT * 10 * sq (fbegin t - mrho s i))) (mrsum s) (mdum s)
  else if Rlt_dec (fend t) (mrho s i) then
    mk_mst (mdv s) (setf (mrho s) i (fend t)) (mgrad s)
      (setf (mlim s) ci (mlim s ci + DUMMY_WEIGHT * 10 * sq (mrho s i - fend t))) (mrsum s) (mdum s)
  else s.
(** 459-524; the choice of value and gradient is the text of force_eam.c *)
Definition embed_at (t : nat) (x : R) : R * R :=
  EamModel.embed bld (fun _ => F) (fun _ => dF) (fun _ => FA) (fun _ => dFA) (fun _ => fbegin) (fun _ => fend) (fun _ => fstep) 0 t x.
(** 430-527 *)
Definition embed_atom (ci : nat) (c : conf) (i : nat) (s : mst) : mst :=
  let t := typ c i in
  let s := if RESCALE bld then clamp ci t i s else s in
  let '(v, d) := embed_at t (mrho s i) in
  let D := mdv s in
  mk_mst (mk_dev (frc D) (setf (en D) ci (en D ci + v)) (str D) (err D)) (mrho s) (setf (mgrad s) i d) (mlim s) (mrsum s + mrho s i) (mdum s).

(** 533-573: force of the embedding by the transfer function; gF is atom->gradF *)
Definition trans_body (gF : R) (ci : nat) (c : conf) (i : nat) (s : dev) (e : neigh) : dev :=
  if reach (n_type e) (n_r e) then
    let tmp := vscale (ddens (n_type e) (n_r e) * gF) (n_dist_r e) in
    mk_dev (add_force (add_force (frc s) i tmp) (n_nr e) (vscale (-1) tmp)) (en s)
      (if (STRESS (base bld) && us c)%bool then add_stress ci (str s) (stress_of (n_dist e) tmp) else str s) (err s)
  else s.
(** 590-657: neighbours j and k of atom i *)
Definition tri_body (gF : R) (ci : nat) (c : conf) (i : nat) (ej : neigh) (s : dev) (ek : neigh) : dev :=
  let cos := sprod (n_dist_r ej) (n_dist_r ek) in
  let gv := g (typ c i) cos in
  let dgv := dg (typ c i) cos in
  let dV3j := gv * fd c i ej * fv c i ek in
  let dV3k := gv * fv c i ej * fd c i ek in
  let V3 := fv c i ej * fv c i ek * dgv in
  let vlj := V3 * n_inv_r ej in
  let vlk := V3 * n_inv_r ek in
  let vv3j := dV3j - vlj * cos in
  let vv3k := dV3k - vlk * cos in
  let dfj := vadd (vscale vv3j (n_dist_r ej)) (vscale vlj (n_dist_r ek)) in
  let dfk := vadd (vscale vv3k (n_dist_r ek)) (vscale vlk (n_dist_r ej)) in
  let fr := add_force (frc s) i (vscale gF (vadd dfj dfk)) in
  let fr := add_force fr (n_nr ej) (vscale (-1) (vscale gF dfj)) in
  let fr := add_force fr (n_nr ek) (vscale (-1) (vscale gF dfk)) in
  mk_dev fr (en s)
    (if (STRESS (base bld) && us c)%bool
     then add_stress ci (add_stress ci (str s) (stress_of (n_dist ej) (vscale gF dfj))) (stress_of (n_dist ek) (vscale gF dfk))
     else str s) (err s).
(** 584-662 *)
Fixpoint force_pairs (gF : R) (ci : nat) (c : conf) (i : nat) (l : list neigh) (s : dev) : dev :=
  match l with [] => s | ej :: r => force_pairs gF ci c i r (fold_left (tri_body gF ci c i ej) r s) end.

(** second loop, 273-664 *)
Definition atom_body (ci : nat) (c : conf) (i : nat) (s : mst) : mst :=
  let s := fold_left (second_neighbor ci c i) (nb c i) s in
  let s := density_pairs c i (nb c i) s in
  let s := embed_atom ci c i s in
  if uf c then
    let d := fold_left (trans_body (mgrad s i) ci c i) (nb c i) (mdv s) in
    with_mdv s (force_pairs (mgrad s i) ci c i (nb c i) d)
  else s.

(** first loop, 248-271 *)
Definition reset_rho (c : conf) (i : nat) (s : mst) : mst :=
  mk_mst (reset_atom c i (mdv s)) (setf (mrho s) i 0) (mgrad s) (mlim s) (mrsum s) (mdum s).

(** 228-722: third loop, energy and stress as in force_ang.c; 715-720 the limiting constraint *)
Definition config_body (ci : nat) (c : conf) (s : mst) : mst :=
  let lo := cnfstart c in
  let hi := (cnfstart c + inconf c)%nat in
  let s := mk_mst (reset_conf (base bld) (fun _ => 0) ci c (mdv s)) (mrho s) (mgrad s) (setf (mlim s) ci (- limit_0 ci)) (mrsum s) (mdum s) in
  let s := for_up lo hi (reset_rho c) s in
  let s := for_up lo hi (atom_body ci c) s in
  let d := for_up lo hi (score_atom_all (base bld) c) (mdv s) in
  let d := score_stress_all (base bld) sweight ci c (score_energy eweight ci c d) in
  if RESCALE bld then
    let l := setf (mlim s) ci (mlim s ci * conf_weight c) in
    mk_mst (mk_dev (frc d) (en d) (str d) (err d + sq (l ci))) (mrho s) (mgrad s) l (mrsum s) (mdum s)
  else with_mdv s d.

(** 163-757 *)
Definition madd_err (s : mst) (x : R) : mst :=
  with_mdv s (mk_dev (frc (mdv s)) (en (mdv s)) (str (mdv s)) (err (mdv s) + x)).
Definition mean_density (s : mst) : mst :=
  let x := DUMMY_WEIGHT * (mrsum s / INR natoms - 1) in
  madd_err (mk_mst (mdv s) (mrho s) (mgrad s) (mlim s) (mrsum s) x) (sq x).
Definition calc_forces (cs : nat -> conf) (nconf : nat) (s : mst) : mst :=
  let d := mdv s in
  let s := mk_mst (mk_dev (frc d) (en d) (str d) 0) (mrho s) (mgrad s) (mlim s) 0 (mdum s) in
  let s := for_up 0 nconf (fun ci => config_body ci (cs ci)) s in
  let s := madd_err s punish in
  if RESCALE bld then s else mean_density s.
End Meam.
