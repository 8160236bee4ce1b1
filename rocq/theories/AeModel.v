(** Model of the force routine of the angular potentials with charges,
    src/force_ang_elstat.c:118-640 (one process), from the second derivatives of the splines on.

    The short-range pair part (307-345), the f functions (394-412) and the loops over pairs of
    neighbours (414-533) are the text of force_ang.c: AngModel.  Charges (210-229) and the tail
    functions of the Coulomb interaction are those of force_elstat.c: ElModel ([charges],
    [fel], [gel], [self_factor]).  Neighbour lists are full (THREEBODY). *)
From Coq Require Import Reals ZArith List Bool.
From Verif Require Import Vec NbrModel LoopUtil PairModel SwModel AngModel ElModel.
Import ListNotations.
Local Open Scope R_scope.

Section Ae.
Variable bld : build.
Variables phi dphi : nat -> nat -> R -> R.
Variable in0 : nat -> nat -> R -> bool.
Variables f df : nat -> nat -> R -> R.
Variable in1 : nat -> nat -> R -> bool.
Variables g dg : nat -> R -> R.
Variable charge : nat -> R.
Variables fel gel : R -> R.
Variables dp_cut self_coef : R.
Variables eweight sweight : R.
Variable punish : R.

(** 347-392: half of the energy and of the forces, every bond being visited from both ends *)
Definition ae_monopole (ci : nat) (c : conf) (i : nat) (s : dev) (e : neigh) : dev :=
  if ((if Rlt_dec (n_r e) dp_cut then true else false) && (nz (charge (typ c i)) || nz (charge (n_type e))))%bool then
    let fnval := charge (typ c i) * charge (n_type e) * fel (n_r e) in
    let grad := charge (typ c i) * charge (n_type e) * gel (n_r e) in
    let s := add_en ci (1 / 2 * fnval) s in
    if uf c then push bld ci c i e (vscale (1 / 2 * grad) (n_dist e)) s else s
  else s.
(** 299-413 *)
Definition ae_neighbor (ci : nat) (c : conf) (i : nat) (s : dev) (e : neigh) : dev :=
  ae_monopole ci c i (AngModel.pair_body bld phi dphi in0 ci c i s e) e.
(** 289-535 *)
Definition ae_atom (ci : nat) (c : conf) (i : nat) (s : dev) : dev :=
  let (s, sum) := AngModel.triples bld f df in1 g dg ci c i (nb c i) (fold_left (ae_neighbor ci c i) (nb c i) s, 0) in
  mk_dev (frc s) (setf (en s) ci (en s ci + sum)) (str s) (err s).
(** 551-564 *)
Definition ae_self (ci : nat) (c : conf) (i : nat) (s : dev) : dev :=
  let q := charge (typ c i) in
  if nz q then add_en ci (- (self_coef * (q * q))) s else s.
(** 545-582: forces are scored if they are used *)
Definition ae_third (ci : nat) (c : conf) (i : nat) (s : dev) : dev := score_atom bld c i (ae_self ci c i s).

(** 256-609; stresses (595-606) are scored for all configurations *)
Definition config_body (ci : nat) (c : conf) (s : dev) : dev :=
  let lo := cnfstart c in
  let hi := (cnfstart c + inconf c)%nat in
  let s := reset_conf bld (fun _ => 0) ci c s in
  let s := for_up lo hi (reset_atom c) s in
  let s := for_up lo hi (ae_atom ci c) s in
  let s := for_up lo hi (ae_third ci c) s in
  score_stress_all bld sweight ci c (score_energy eweight ci c s).
Definition calc_forces (cs : nat -> conf) (nconf : nat) (s : dev) : dev :=
  let s := for_up 0 nconf (fun ci => config_body ci (cs ci)) (mk_dev (frc s) (en s) (str s) 0) in
  mk_dev (frc s) (en s) (str s) (err s + punish).
End Ae.
