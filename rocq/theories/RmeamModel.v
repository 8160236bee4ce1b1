(** Model of the rescaling of a tabulated MEAM potential, src/rescale_meam.c:49-478 and 602
    (lines 480-592 are for EAM and never compiled), and of the initialisation of the splines in
    src/force_meam.c:215-230.

    Columns as in RescaleModel.  Neighbour lists are full.  The value f of a neighbour and g of
    an angle are computed where they are used; the angle of a pair of neighbours is the one
    stored for it (C64).  Sums like pos += newstep are closed forms; doubles are real numbers.
    Not modelled: memory, the printed line. *)
From Coq Require Import Reals ZArith List Bool.
From Verif Require Import Vec NbrModel LoopUtil PairModel SplineModel RescaleModel.
Import ListNotations.
Local Open Scope R_scope.

(** pair columns phi and f are addressed by types s <= t, the others by type *)
Record mpot := mk_mpot { mph : nat -> nat -> fn; mtr : nat -> fn; mem : nat -> fn; mff : nat -> nat -> fn; mgg : nat -> fn }.

(** ** densities, 115-208 *)
Section Scan.
Variable dens : nat -> R -> R.
Variable reach : nat -> R -> bool.
Variable f : nat -> nat -> R -> R.
Variable in2 : nat -> nat -> R -> bool.
Variable g : nat -> R -> R.
(** 131-147 *)
Definition m_neighbor (i : nat) (rho : nat -> R) (e : neigh) : nat -> R :=
  if reach (n_type e) (n_r e) then setf rho i (rho i + dens (n_type e) (n_r e)) else rho.
(** 148-166 *)
Definition m_f (c : conf) (i : nat) (e : neigh) : R := if in2 (typ c i) (n_type e) (n_r e) then f (typ c i) (n_type e) (n_r e) else 0.
(** 177-192 *)
Definition m_triple (c : conf) (i : nat) (ej : neigh) (rho : nat -> R) (ek : neigh) : nat -> R :=
  setf rho i (rho i + m_f c i ej * m_f c i ek * g (typ c i) (sprod (n_dist_r ej) (n_dist_r ek))).
Fixpoint m_triples (c : conf) (i : nat) (l : list neigh) (rho : nat -> R) : nat -> R :=
  match l with [] => rho | ej :: r => m_triples c i r (fold_left (m_triple c i ej) r rho) end.
(** 119-120, 123-194, 197-207 *)
Definition m_zero (i : nat) (s : scan) : scan := mk_scan (setf (srho s) i 0) (maxrho s) (minrho s).
Definition m_atom (c : conf) (i : nat) (s : scan) : scan :=
  mk_scan (m_triples c i (nb c i) (fold_left (m_neighbor i) (nb c i) (srho s))) (maxrho s) (minrho s).
Definition m_extrema (c : conf) (i : nat) (s : scan) : scan :=
  let t := typ c i in
  mk_scan (srho s) (setf (maxrho s) t (Rmax (maxrho s t) (srho s i))) (setf (minrho s) t (Rmin (minrho s t) (srho s i))).
Definition m_config (c : conf) (s : scan) : scan :=
  let lo := cnfstart c in
  let hi := (cnfstart c + inconf c)%nat in
  for_up lo hi (m_extrema c) (for_up lo hi (m_atom c) (for_up lo hi m_zero s)).
(** 87-90, 117 *)
Definition m_scan (cs : nat -> conf) (nconf : nat) (rho : nat -> R) : scan :=
  for_up 0 nconf (fun ci => m_config (cs ci)) (mk_scan rho (fun _ => - 10 ^ 100) (fun _ => 10 ^ 100)).
End Scan.

(** ** columns *)
(** 99-113, force_meam.c:220-230: spline_ed and both slopes for every column, whatever the
    format of the table *)
Definition m_init (p : mpot) : mpot :=
  mk_mpot (fun s t => spl true true (mph p s t)) (fun t => spl true true (mtr p t)) (fun t => spl true true (mem p t))
          (fun s t => spl true true (mff p s t)) (fun t => spl true true (mgg p t)).
(** 326-358: column times a *)
Definition m_scaled (a : R) (h : fn) : fn :=
  let c := col h in
  mk_fn c (fun k => if (Nat.leb (first c) k && Nat.leb k (last c))%bool then val h k * a else val h k)
        (if Rlt_dec (sl h) E30 then sl h * a else sl h) (if Rlt_dec (sr h) E30 then sr h * a else sr h).
(** 261-478; resampling and scaling of F are the text of rescale.c:186-285 *)
Definition m_update (p : mpot) (up : bool) (a : R) (lo hi : nat -> R) : mpot :=
  mk_mpot (mph p) (fun t => m_scaled a (mtr p t)) (fun t => scaled_em up a (lo t) (hi t) (resampled (mem p t) (lo t) (hi t)))
          (mff p) (fun t => m_scaled a (mgg p t)).

Section Fmt.
Variable fmt3 : bool.
(** [true]: the slots of the angles are those of their cosines.  In this code they are only
    computed in analytic builds (config.c:635-672); in the builds that have this routine they
    stay 0 (C76), which is [false]. *)
Variable slots : bool.
(** splint_dir at the slot stored for a distance or cosine; an argument left of an equidistant
    table has ended the program when the slot was computed *)
Definition at_slot (h : fn) (r : R) : R :=
  match (if fmt3 then slot_ed (col h) r else Some (slot_ne (col h) r)) with
  | Some (k, b, st) => splint_dir (d2tab (col h)) (val h) k b st
  | None => 0
  end.
(** the functions that the columns stand for *)
Definition mdens (p : mpot) (t : nat) (r : R) : R := at_slot (mtr p t) r.
Definition mreach (p : mpot) (t : nat) (r : R) : bool := below_end (mtr p t) r.
Definition mfv (p : mpot) (s t : nat) (r : R) : R := at_slot (mff p (Nat.min s t) (Nat.max s t)) r.
Definition min2 (p : mpot) (s t : nat) (r : R) : bool := below_end (mff p (Nat.min s t) (Nat.max s t)) r.
(** with slot, shift and step 0 the value is entry 0 of the table, which is the left slope of
    the first column, as first[0] = 2 (potential_input_f3.c:85, potential_input_f4.c:83) *)
Definition mgv (p : mpot) (t : nat) (x : R) : R := if slots then at_slot (mgg p t) x else sl (mph p 0%nat 0%nat).

(** side, bounds, test and factor, 210-259: the text of rescale.c:148-183 *)
Definition m_embed (p : mpot) : pot := mk_pot (mph p) (mtr p) (mem p).
(** the densities found *)
Definition m_found (p : mpot) (cs : nat -> conf) (nconf : nat) (rho : nat -> R) : scan :=
  m_scan (mdens p) (mreach p) (mfv p) (min2 p) (mgv p) cs nconf rho.
(** the returned number and the new potential *)
Definition m_rescale (ntypes : nat) (cs : nat -> conf) (nconf : nat) (rho : nat -> R) (p : mpot) (upper : R) (flag : bool) : R * mpot :=
  let p := m_init p in
  let s := m_found p cs nconf rho in
  if needed ntypes (m_embed p) upper s flag then
    let a := factor ntypes (m_embed p) upper s in
    (a, m_update p (upwards ntypes s) a (left_of (m_embed p) s) (right_of (m_embed p) s))
  else (0, p).
End Fmt.
