(** Model of the EAM force routine, src/force_eam.c:113-627 (one process), from the second
    derivatives of the splines on.

    As in PairModel the pair function, the transfer functions and their gradients are
    functions of types and distance, the embedding functions are functions of the density:
    [phi], [dphi], [in_range] for the pair function; for band b (0: the usual one, 1: the
    s-band of TBEAM) and type t: [dens b t], [ddens b t] is the transfer function of column
    paircol + t (paircol + 2 ntypes + t), [reach b t r] the test r < end of that column;
    [F b t], [dF b t] are value and gradient of g_splint_comb on the embedding column, with
    [fbegin], [fend], [fstep] of it; [FA], [dFA] the analytic function called directly.
    n_type of a neighbour selects col[1] = paircol + n_type (config.c:1240-1243). *)
From Coq Require Import Reals ZArith List Bool.
From Verif Require Import Vec NbrModel LoopUtil PairModel.
Import ListNotations.
Local Open Scope R_scope.

Record ebuild := mk_ebuild { base : build; RESCALE : bool; APOT : bool; NOPUNISH : bool; TBEAM : bool }.
(** defines.h:48 *)
Definition DUMMY_WEIGHT : R := 100.

(** atom->rho, atom->gradF by band and atom; [lim] the entries limit_p of the deviation
    vector; [rsum] rho_sum and rho_s_sum; [dum] the entries dummy_p *)
Record est := mk_est { dv : dev; rho : nat -> nat -> R; gradF : nat -> nat -> R;
  lim : nat -> R; rsum : nat -> R; dum : nat -> R }.

Section Eam.
Variable bld : ebuild.
Variables phi dphi : nat -> nat -> R -> R.
Variable in_range : nat -> nat -> R -> bool.
Variables dens ddens : nat -> nat -> R -> R.
Variable reach : nat -> nat -> R -> bool.
Variables F dF FA dFA : nat -> nat -> R -> R.
Variables fbegin fend fstep : nat -> nat -> R.
Variables eweight sweight : R.
Variable limit_0 : nat -> R.     (* force_0[limit_p + config] *)
Variable dummy_0 : nat -> R.     (* force_0[dummy_p + k] *)
Variable punish : R.             (* apot_punish, 0 without APOT *)
Variables ntypes natoms : nat.
Definition nbands : nat := if TBEAM bld then 2 else 1.

Definition with_dv (s : est) (d : dev) : est := mk_est d (rho s) (gradF s) (lim s) (rsum s) (dum s).
Definition with_rho (s : est) (r : nat -> nat -> R) : est := mk_est (dv s) r (gradF s) (lim s) (rsum s) (dum s).

(** ** densities of atom i and its neighbour, 287-324, for one band *)
Definition add_density (b : nat) (c : conf) (i : nat) (e : neigh) (f : nat -> R) : nat -> R :=
  if Nat.eqb (typ c i) (n_type e) then
    if reach b (n_type e) (n_r e) then
      let rho_val := dens b (n_type e) (n_r e) in
      let f := setf f i (f i + rho_val) in
      if Nat.eqb (n_nr e) i then f else setf f (n_nr e) (f (n_nr e) + rho_val)
    else f
  else
    let f := if reach b (n_type e) (n_r e) then setf f i (f i + dens b (n_type e) (n_r e)) else f in
    if reach b (typ c i) (n_r e) then setf f (n_nr e) (f (n_nr e) + dens b (typ c i) (n_r e)) else f.

(** 236-324: the pair part is the one of force_pair.c *)
Definition second_neighbor (ci : nat) (c : conf) (i : nat) (s : est) (e : neigh) : est :=
  let s := with_dv s (neighbor_body (base bld) phi dphi in_range ci c i (dv s) e) in
  let r := setf (rho s) 0%nat (add_density 0 c i e (rho s 0%nat)) in
  with_rho s (if TBEAM bld then setf r 1%nat (add_density 1 c i e (r 1%nat)) else r).

(** ** embedding energy of atom i, 326-416, for one band *)
Definition clamp_high (ci : nat) (b t i : nat) (s : est) : est :=
  if Rlt_dec (fend b t) (rho s b i) then
    mk_est (dv s) (setf (rho s) b (setf (rho s b) i (fend b t))) (gradF s)
      (setf (lim s) ci (lim s ci + DUMMY_WEIGHT * 10 * sq (rho s b i - fend b t))) (rsum s) (dum s)
  else s.
Definition clamp_low (ci : nat) (b t i : nat) (s : est) : est :=
  if Rlt_dec (rho s b i) (fbegin b t) then
    mk_est (dv s) (setf (rho s) b (setf (rho s b) i (fbegin b t))) (gradF s)
      (setf (lim s) ci (lim s ci + DUMMY_WEIGHT * 10 * sq (fbegin b t - rho s b i))) (rsum s) (dum s)
  else s.
Definition embed (b t : nat) (x : R) : R * R :=
  if RESCALE bld then (F b t x, dF b t x)
  else if APOT bld then
    if Rlt_dec x (fbegin b t) then (FA b t x, dFA b t x)
    else if Rlt_dec (fend b t) x then (FA b t x, dFA b t x)
    else if Rlt_dec x (1 / 10) then (FA b t x, dFA b t x)
    else (F b t x, dF b t x)
  else
    if Rlt_dec x (fbegin b t) then
      (F b t (fbegin b t) + (x - fbegin b t) * dF b t (fbegin b t), dF b t (fbegin b t))
    else if Rlt_dec (fend b t) x then
      (F b t (fend b t - 1 / 2 * fstep b t) + (x - fend b t) * dF b t (fend b t - 1 / 2 * fstep b t),
       dF b t (fend b t - 1 / 2 * fstep b t))
    else (F b t x, dF b t x).
Definition embed_body (ci : nat) (c : conf) (i b : nat) (s : est) : est :=
  let t := typ c i in
  let s := if RESCALE bld then clamp_low ci b t i (clamp_high ci b t i s) else s in
  let '(v, g) := embed b t (rho s b i) in
  let d := dv s in
  mk_est (mk_dev (frc d) (setf (en d) ci (en d ci + v)) (str d) (err d)) (rho s)
    (setf (gradF s) b (setf (gradF s b) i g)) (lim s) (setf (rsum s) b (rsum s b + rho s b i)) (dum s).

Definition second_atom (ci : nat) (c : conf) (i : nat) (s : est) : est :=
  for_up 0 nbands (embed_body ci c i) (fold_left (second_neighbor ci c i) (nb c i) s).

(** ** third loop: EAM force, 425-494; gF is the final gradF *)
Definition band_force (gF : nat -> nat -> R) (c : conf) (i : nat) (e : neigh) (b : nat) : R :=
  let rho_grad := if reach b (n_type e) (n_r e) then ddens b (n_type e) (n_r e) else 0 in
  let rho_grad_j := if Nat.eqb (typ c i) (n_type e) then rho_grad
                    else if reach b (typ c i) (n_r e) then ddens b (typ c i) (n_r e) else 0 in
  rho_grad * gF b i + rho_grad_j * gF b (n_nr e).
Definition third_neighbor (gF : nat -> nat -> R) (ci : nat) (c : conf) (i : nat) (s : dev) (e : neigh) : dev :=
  if (reach 0 (n_type e) (n_r e) || reach 0 (typ c i) (n_r e))%bool then
    let f := band_force gF c i e 0 in
    let f := if TBEAM bld then
               if (reach 1 (n_type e) (n_r e) || reach 1 (typ c i) (n_r e))%bool then f + band_force gF c i e 1 else f
             else f in
    let f := if Nat.eqb (n_nr e) i then f * (1 / 2) else f in
    let tmp := vscale f (n_dist_r e) in
    mk_dev (scatter i e tmp (frc s)) (en s)
      (if (STRESS (base bld) && us c)%bool
       then setf (str s) ci (fun k => if Nat.ltb k 6 then str s ci k - stress_of (n_dist e) tmp k else str s ci k)
       else str s)
      (err s)
  else s.
Definition third_atom (gF : nat -> nat -> R) (ci : nat) (c : conf) (i : nat) (s : dev) : dev :=
  score_atom (base bld) c i (fold_left (third_neighbor gF ci c i) (nb c i) s).

(** 201-233 *)
Definition reset_rho (c : conf) (i : nat) (s : est) : est :=
  mk_est (reset_atom c i (dv s)) (fun b => if Nat.ltb b nbands then setf (rho s b) i 0 else rho s b) (gradF s) (lim s) (rsum s) (dum s).

Definition config_body (ci : nat) (c : conf) (s : est) : est :=
  let lo := cnfstart c in
  let hi := (cnfstart c + inconf c)%nat in
  let s := with_dv s (reset_conf (base bld) (fun _ => 0) ci c (dv s)) in
  let s := mk_est (dv s) (rho s) (gradF s) (if RESCALE bld then setf (lim s) ci (- limit_0 ci) else lim s) (rsum s) (dum s) in
  let s := for_up lo hi (reset_rho c) s in
  let s := for_up lo hi (second_atom ci c) s in
  let d := if uf c then for_up lo hi (third_atom (gradF s) ci c) (dv s) else dv s in
  let d := score_stress (base bld) sweight ci c (score_energy eweight ci c d) in
  let d := if RESCALE bld then mk_dev (frc d) (en d) (str d) (err d + conf_weight c * sq (lim s ci)) else d in
  with_dv s d.

(** ** dummy constraints, 545-601 *)
Definition set_dum (s : est) (k : nat) (x : R) : est :=
  mk_est (dv s) (rho s) (gradF s) (lim s) (rsum s) (setf (dum s) k x).
Definition add_err (s : est) (x : R) : est :=
  with_dv s (mk_dev (frc (dv s)) (en (dv s)) (str (dv s)) (err (dv s) + x)).
Definition dummy_set (g b : nat) (s : est) : est :=
  let s := set_dum s ((2 * b + 1) * ntypes + g) 0 in
  set_dum s (2 * b * ntypes + g)
    (if RESCALE bld
     then DUMMY_WEIGHT * dF b g (1 / 2 * (fbegin b g + fend b g)) - dummy_0 (2 * b * ntypes + g)
     else DUMMY_WEIGHT * dF b g 1).
Definition dummy_add (g b : nat) (s : est) : est :=
  let s := add_err s (sq (dum s (2 * b * ntypes + g)%nat)) in
  add_err s (sq (dum s ((2 * b + 1) * ntypes + g)%nat)).
Definition dummy_type (g : nat) (s : est) : est :=
  for_up 0 nbands (dummy_add g) (for_up 0 nbands (dummy_set g) s).
Definition dummy_mean (b : nat) (s : est) : est :=
  if Rlt_dec 0 (rsum s b) then
    let s := set_dum s ((2 * b + 1) * ntypes) (DUMMY_WEIGHT * (rsum s b / INR natoms - 1)) in
    add_err s (sq (dum s ((2 * b + 1) * ntypes)%nat))
  else s.
Definition dummy (s : est) : est :=
  if NOPUNISH bld then s
  else
    let s := for_up 0 ntypes dummy_type s in
    if RESCALE bld then s else for_up 0 nbands dummy_mean s.

Definition calc_forces (cs : nat -> conf) (nconf : nat) (s : est) : est :=
  let d := dv s in
  let s := mk_est (mk_dev (frc d) (en d) (str d) 0) (rho s) (gradF s) (lim s) (fun _ => 0) (dum s) in
  let s := for_up 0 nconf (fun ci => config_body ci (cs ci)) s in
  dummy (add_err s punish).
End Eam.
