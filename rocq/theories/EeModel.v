(** Model of the force routine for EAM with electrostatics, src/force_eam_elstat.c:85-1214
    (one process), from the second derivatives of the splines on, with and without DIPOLE.

    Charges, tails and parameters of the dipoles are those of ElModel.v, transfer and
    embedding functions those of EamModel.v (band 0 only).  The routine has no NORESCALE
    variant that could be compiled (it uses names that are not declared: calc_pot, energy_p,
    limit_p), so it is modelled without NORESCALE: RESCALE is true.  FA, dFA, fstep of
    EamModel.v are then not used. *)
From Coq Require Import Reals ZArith List Bool.
From Verif Require Import Vec NbrModel LoopUtil PairModel FuncModel EamModel ElModel.
Import ListNotations.
Local Open Scope R_scope.

Record eest := mk_eest { ees : est; eed : dip }.

Section Ee.
Variable bld : build.
Variable NOPUNISH DIPOLE : bool.
Definition eb : ebuild := mk_ebuild bld true true NOPUNISH false.
Variables phi dphi : nat -> nat -> R -> R.
Variable in_range : nat -> nat -> R -> bool.
Variables dens ddens : nat -> nat -> R -> R.
Variable reach : nat -> nat -> R -> bool.
Variables F dF : nat -> nat -> R -> R.
Variables fbegin fend : nat -> nat -> R.
Variables charge alpha : nat -> R.
Variables dpb dpc : nat -> nat -> R.
Variables fel gel ggel : R -> R.
Variables dp_cut dp_tol dp_mix self_coef : R.
Variables eweight sweight : R.
Variable limit_0 : nat -> R.
Variable dummy_0 : nat -> R.
Variable punish : R.
Variables ntypes natoms : nat.

(** second loop over the neighbours, 363-533: short range, monopoles (fields of the dipoles:
    [dipoles] of ElModel.v), densities *)
Definition second_neighbor (ci : nat) (c : conf) (i : nat) (s : est) (e : neigh) : est :=
  let s := with_dv s (ElModel.second_neighbor bld phi dphi in_range charge fel gel dp_cut ci c i (dv s) e) in
  with_rho s (setf (rho s) 0%nat (add_density dens reach 0 c i e (rho s 0%nat))).
(** second loop, 353-594; the density is cut to the range of the embedding function, 536-555 *)
Definition second_atom (ci : nat) (c : conf) (i : nat) (s : est) : est :=
  embed_body eb F dF F dF fbegin fend fbegin ci c i 0 (fold_left (second_neighbor ci c i) (nb c i) s).

(** fourth loop, 730-930: as in force_elstat.c but for the test in line 821, which has type2
    for type1 *)
Definition fourth_neighbor (p : nat -> vec) (ci : nat) (c : conf) (i : nat) (s : proj) (e : neigh) : proj :=
  let a1 := nz (alpha (typ c i)) in
  let a2 := nz (alpha (n_type e)) in
  let q1 := charge (typ c i) in
  let q2 := charge (n_type e) in
  if (near dp_cut e && (a1 || a2))%bool then
    let g0 := - gel (n_r e) in
    let h0 := - ggel (n_r e) in
    let (sv, sg) := shortrange_term (n_r e) (dpb (typ c i) (n_type e)) (dpc (typ c i) (n_type e)) in
    let g := half i e g0 in
    let h := half i e h0 in
    let G := if has_sr dpb dpc c i e then g + g0 * sv else g in
    let H := if has_sr dpb dpc c i e then h + (g0 * sg + h0 * sv) else h in
    let s := if (nz q1 && a2)%bool then
        let rpj := sprod (p (n_nr e)) (n_dist_r e) in
        mk_proj (charge_dipole bld ci c i e (-1) q1 rpj G H (p (n_nr e)) (pdv s)) (rp_i s) rpj
      else s in
    let s := if (a2 && nz q2)%bool then
        let rpi := sprod (p i) (n_dist_r e) in
        mk_proj (charge_dipole bld ci c i e 1 q2 rpi G H (p i) (pdv s)) rpi (rp_j s)
      else s in
    if (a1 && a2)%bool then
      mk_proj (dipole_dipole bld ci c i e g h (rp_i s) (rp_j s) (p i) (p (n_nr e)) (pdv s)) (rp_i s) (rp_j s)
    else s
  else s.
Definition fourth_atom (p : nat -> vec) (ci : nat) (c : conf) (i : nat) (s : proj) : proj :=
  fold_left (fourth_neighbor p ci c i) (nb c i) s.

(** 306-1090: the fifth loop (933-989) only adds the self energies; the sixth one (991-1070)
    adds the forces of the embedding and scores the forces *)
Definition config_body (ci : nat) (c : conf) (s : eest) : eest :=
  let lo := cnfstart c in
  let hi := (cnfstart c + inconf c)%nat in
  let d := if DIPOLE then dipoles charge alpha dpb dpc gel dp_cut dp_tol dp_mix c (eed s) else eed s in
  let e := with_dv (ees s) (reset_conf bld (fun _ => 0) ci c (dv (ees s))) in
  let e := mk_est (dv e) (rho e) (gradF e) (setf (lim e) ci (- limit_0 ci)) (rsum e) (dum e) in
  let e := for_up lo hi (reset_rho eb c) e in
  let e := for_up lo hi (second_atom ci c) e in
  let v := if DIPOLE then pdv (for_up lo hi (fourth_atom (p_ind d) ci c) (mk_proj (dv e) 0 0)) else dv e in
  let v := for_up lo hi (self_energy DIPOLE charge alpha self_coef (p_ind d) ci c) v in
  let v := if uf c then for_up lo hi (third_atom eb ddens reach (gradF e) ci c) v else v in
  let v := score_stress bld sweight ci c (score_energy eweight ci c v) in
  let v := mk_dev (frc v) (en v) (str v) (err v + conf_weight c * sq (lim e ci)) in
  mk_eest (with_dv e v) d.

(** 159, 1092-1150: dummy constraints as in force_eam.c *)
Definition calc_forces (cs : nat -> conf) (nconf : nat) (s : eest) : eest :=
  let e := ees s in
  let v := dv e in
  let s := mk_eest (mk_est (mk_dev (frc v) (en v) (str v) 0) (rho e) (gradF e) (lim e) (fun _ => 0) (dum e)) (eed s) in
  let s := for_up 0 nconf (fun ci => config_body ci (cs ci)) s in
  mk_eest (dummy eb dF fbegin fend dummy_0 ntypes natoms (add_err (ees s) punish)) (eed s).
End Ee.
