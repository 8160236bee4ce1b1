(** Model of the rescaling of a tabulated EAM potential, src/rescale.c:51-400.

    A column of the potential table is a record of its own here: grid and second derivatives
    ([column] of SplineModel), values (indexed as in C from first to last) and the two slopes
    table[first-2], table[first-1].  Pair columns are addressed by their two types s <= t: the
    counter i of lines 320-362 runs through them in the order of the columns (C01).
    Sums like pos += neustep are the closed form left + j * neustep; doubles are real numbers.
    The precomputed slots of a neighbour give the value of the column at its distance (C24).
    [fmt3]: format 3 (equidistant), otherwise format 4.  Not modelled: memory, the printed
    lines, embed_shift (409-438; never called). *)
From Coq Require Import Reals ZArith List Bool.
From Verif Require Import Vec NbrModel LoopUtil PairModel SplineModel.
Import ListNotations.
Local Open Scope R_scope.

Record fn := mk_fn { col : column; val : arr; sl : R; sr : R }.
Record pot := mk_pot { ph : nat -> nat -> fn; tr : nat -> fn; em : nat -> fn }.

(** ** densities, 114-147: [dens t], [reach t] transfer function of column paircol + t and
    the test r < end of it.  Only neighbours with nr > i count. *)
Section Scan.
Variable dens : nat -> R -> R.
Variable reach : nat -> R -> bool.
Definition scan_neighbor (c : conf) (i : nat) (f : nat -> R) (e : neigh) : nat -> R :=
  if Nat.ltb i (n_nr e) then
    if Nat.eqb (n_type e) (typ c i) then
      if reach (n_type e) (n_r e) then
        let v := dens (n_type e) (n_r e) in
        let f := setf f i (f i + v) in
        setf f (n_nr e) (f (n_nr e) + v)
      else f
    else
      let f := if reach (n_type e) (n_r e) then setf f i (f i + dens (n_type e) (n_r e)) else f in
      if reach (typ c i) (n_r e) then setf f (n_nr e) (f (n_nr e) + dens (typ c i) (n_r e)) else f
  else f.
(** state: atom->rho, maxrho, minrho (by type) *)
Record scan := mk_scan { srho : nat -> R; maxrho : nat -> R; minrho : nat -> R }.
Definition scan_atom (c : conf) (i : nat) (s : scan) : scan :=
  let f := fold_left (scan_neighbor c i) (nb c i) (srho s) in
  let t := typ c i in
  mk_scan f (setf (maxrho s) t (Rmax (maxrho s t) (f i))) (setf (minrho s) t (Rmin (minrho s t) (f i))).
Definition zero_atom (i : nat) (s : scan) : scan := mk_scan (setf (srho s) i 0) (maxrho s) (minrho s).
Definition scan_config (c : conf) (s : scan) : scan :=
  let hi := (cnfstart c + inconf c)%nat in
  for_up (cnfstart c) hi (scan_atom c) (for_up (cnfstart c) hi zero_atom s).
Definition scan_all (cs : nat -> conf) (nconf : nat) (f : nat -> R) : scan :=
  for_up 0 nconf (fun ci => scan_config (cs ci)) (mk_scan f (fun _ => - 10 ^ 100) (fun _ => 10 ^ 100)).
End Scan.

(** ** dominant side, bounds and factor, 148-180 *)
(** 148-157: value and type of the largest maximum and smallest minimum *)
Definition find_max (mx : nat -> R) (i : nat) (s : R * nat) : R * nat := if Rlt_dec (fst s) (mx i) then (mx i, i) else s.
Definition find_min (mn : nat -> R) (i : nat) (s : R * nat) : R * nat := if Rlt_dec (mn i) (fst s) then (mn i, i) else s.
Definition top (ntypes : nat) (mx : nat -> R) : R * nat := for_up 0 ntypes (find_max mx) (- 10 ^ 100, 0%nat).
Definition bottom (ntypes : nat) (mn : nat -> R) : R * nat := for_up 0 ntypes (find_min mn) (10 ^ 100, 999%nat).
(** 160; true: sign = 1 *)
Definition upwards (ntypes : nat) (s : scan) : bool :=
  if Rle_dec (- fst (bottom ntypes (minrho s))) (fst (top ntypes (maxrho s))) then true else false.
(** 165-166 *)
Definition left_of (p : pot) (s : scan) (t : nat) : R := minrho s t - 3 / 10 * step (col (em p t)).
Definition right_of (p : pot) (s : scan) (t : nat) : R := maxrho s t + 3 / 10 * step (col (em p t)).
(** 168-172 *)
Definition expand (p : pot) (s : scan) (t : nat) (flag : bool) : bool :=
  let c := col (em p t) in
  if flag then true
  else if Rlt_dec (minrho s t - begin c) 0 then true
  else if Rlt_dec (95 / 100 * step c) (minrho s t - begin c) then true
  else if Rlt_dec 0 (maxrho s t - endr c) then true
  else if Rlt_dec (maxrho s t - endr c) (- (95 / 100) * step c) then true
  else false.
(** 176 *)
Definition factor (ntypes : nat) (p : pot) (upper : R) (s : scan) : R :=
  if upwards ntypes s then upper / right_of p s (snd (top ntypes (maxrho s)))
  else upper / left_of p s (snd (bottom ntypes (minrho s))).
(** 163-183 *)
Definition needed (ntypes : nat) (p : pot) (upper : R) (s : scan) (flag : bool) : bool :=
  if for_up 0 ntypes (expand p s) flag then true
  else if Rlt_dec (105 / 100) (Rabs (factor ntypes p upper s)) then true
  else if Rlt_dec (Rabs (factor ntypes p upper s)) (95 / 100) then true
  else false.

(** ** the columns *)
Section Columns.
Variable fmt3 : bool.
(** spline_ed or spline_ne on a column; [both]: the right slope is used, otherwise 0.
    80-111, 286-309, 380-389, force_common.c:225-252 *)
Definition spl (both : bool) (f : fn) : fn :=
  let c := col f in
  let n := (last c - first c + 1)%nat in
  let shift (a : arr) : arr := fun i => a (first c + i)%nat in
  let right := if both then sr f else 0 in
  let d := if fmt3 then spline_ed (step c) (shift (val f)) n (sl f) right (shift (d2tab c))
           else spline_ne (shift (xcoord c)) (shift (val f)) n (sl f) right (shift (d2tab c)) in
  mk_fn (mk_col (begin c) (endr c) (step c) (invstep c) (first c) (last c) (xcoord c)
           (fun k => if (Nat.leb (first c) k && Nat.leb k (last c))%bool then d (k - first c)%nat else d2tab c k))
        (val f) (sl f) (sr f).
(** g_splint, g_splint_grad; [None]: error(1) *)
Definition ev (f : fn) (r : R) : option R := if fmt3 then splint_ed (col f) (val f) r else Some (splint_ne (col f) (val f) r).
Definition evg (f : fn) (r : R) : option R := if fmt3 then splint_grad_ed (col f) (val f) r else Some (splint_grad_ne (col f) (val f) r).
Definition or0 (o : option R) : R := match o with Some x => x | None => 0 end.

Definition init (p : pot) : pot := mk_pot (fun s t => spl false (ph p s t)) (fun t => spl false (tr p t)) (fun t => spl true (em p t)).
(** test r < end *)
Definition below_end (f : fn) (r : R) : bool := if Rlt_dec r (endr (col f)) then true else false.

(** 1.e30 and 1e29 in tests for a natural spline *)
Definition E30 : R := 10 ^ 30.
Definition E29 : R := 10 ^ 29.

(** ** embedding function on the new interval, 186-217: values and slopes *)
Definition resampled (f : fn) (lo hi : R) : fn :=
  let c := col f in
  let ns := (hi - lo) / INR (last c - first c) in
  let pos k := lo + INR (k - first c) * ns in
  let inside k := (Nat.leb (first c) k && Nat.leb k (last c))%bool in
  mk_fn (mk_col (begin c) (endr c) (step c) (invstep c) (first c) (last c)
           (fun k => if inside k then pos k else xcoord c k) (d2tab c))
        (fun k => if inside k then splint_ne c (val f) (pos k) else val f k)
        (if Rlt_dec (sl f) E30 then splint_grad_ne c (val f) lo else sl f)
        (if Rlt_dec (sr f) E30 then splint_grad_ne c (val f) hi else sr f).
(** ** grid of the embedding function scaled by a, 229-285 *)
Definition scaled_em (up : bool) (a lo hi : R) (f : fn) : fn :=
  let c := col f in
  let ns := (hi - lo) / INR (last c - first c) in
  let inside k := (Nat.leb (first c) k && Nat.leb k (last c))%bool in
  if up then
    mk_fn (mk_col (a * lo) (a * hi) (a * ns) (1 / (a * ns)) (first c) (last c)
             (fun k => if inside k then a * lo + INR (k - first c) * (a * ns) else xcoord c k) (d2tab c))
          (val f)
          (if Rlt_dec (sl f) E30 then sl f / a else sl f)
          (if Rlt_dec (sr f) E30 then sr f / a else sr f)
  else
    mk_fn (mk_col (a * hi) (a * lo) (- a * ns) (1 / (- a * ns)) (first c) (last c)
             (fun k => if inside k then a * hi + INR (k - first c) * (- a * ns) else xcoord c k) (d2tab c))
          (fun k => if inside k then val f (first c + last c - k)%nat else val f k)
          (if Rlt_dec (sr f) E30 then - sr f / a else E30)
          (if Rlt_dec (sl f) E30 then - sl f / a else E30).
(** ** transfer function times a, 219-225 *)
Definition scaled_tr (a : R) (f : fn) : fn :=
  let c := col f in
  mk_fn c (fun k => if (Nat.leb (first c) k && Nat.leb k (last c))%bool then val f k * a else val f k)
        (if Rlt_dec (sl f) E30 then sl f * a else sl f) (sr f).
(** ** gauge, 312-377 *)
Definition part (lam : R) (f : fn) (r : R) (v : R) : R := if Rlt_dec r (endr (col f)) then lam * v else 0.
(** 320-361: pair column of types s <= t; fs, ft transfer functions *)
Definition gauge_ph (ls lt : R) (fs ft : fn) (f : fn) : fn :=
  let c := col f in
  let add r := part ls ft r (splint_ne (col ft) (val ft) r) + part lt fs r (splint_ne (col fs) (val fs) r) in
  let addg r := part ls ft r (or0 (evg ft r)) + part lt fs r (or0 (evg fs r)) in
  mk_fn c (fun k => if (Nat.leb (first c) k && Nat.leb k (last c))%bool then val f k + add (xcoord c k) else val f k)
        (if Rlt_dec (sl f) E29 then sl f + addg (begin c) else sl f)
        (if Rlt_dec (sr f) E29 then sr f + addg (endr c) else sr f).
(** 363-377 *)
Definition gauge_em (l : R) (f : fn) : fn :=
  let c := col f in
  mk_fn c (fun k => if (Nat.leb (first c) k && Nat.leb k (last c))%bool then val f k - xcoord c k * l else val f k)
        (if Rlt_dec (sl f) E29 then sl f - l else sl f) (if Rlt_dec (sr f) E29 then sr f - l else sr f).
(** 313-317 *)
Definition lambda (f : fn) : R := or0 (evg f (1 / 2 * (begin (col f) + endr (col f)))).

(** the update with bounds lo, hi by type, side and factor: 186-389; p has its second
    derivatives *)
Definition update (p : pot) (up : bool) (a : R) (lo hi : nat -> R) : pot :=
  let tr' t := spl false (scaled_tr a (tr p t)) in
  let em' t := spl true (scaled_em up a (lo t) (hi t) (resampled (em p t) (lo t) (hi t))) in
  let lam t := lambda (em' t) in
  mk_pot (fun s t => spl false (gauge_ph (lam s) (lam t) (tr' s) (tr' t) (ph p s t))) tr' (fun t => gauge_em (lam t) (em' t)).

(** rescale: the returned number and the new potential *)
Definition rescale (ntypes : nat) (cs : nat -> conf) (nconf : nat) (rho : nat -> R) (p : pot) (upper : R) (flag : bool) : R * pot :=
  let p := init p in
  let s := scan_all (fun t r => or0 (ev (tr p t) r)) (fun t r => below_end (tr p t) r) cs nconf rho in
  if needed ntypes p upper s flag then
    let a := factor ntypes p upper s in
    (a, update p (upwards ntypes s) a (left_of p s) (right_of p s))
  else (0, p).
End Columns.

(** ** potsync, src/mpi_utils.c:167-208: what a worker holds after a synchronisation.  The
    table with the slopes is sent with every call (force_eam.c:158); begin, end, step,
    invstep, first of the embedding columns are sent here; last and xcoord are not.
    [w]: column of the worker, [m]: column of the root. *)
Definition synced (w m : fn) : fn :=
  mk_fn (mk_col (begin (col m)) (endr (col m)) (step (col m)) (invstep (col m)) (first (col m)) (last (col w)) (xcoord (col w)) (d2tab (col w)))
        (val m) (sl m) (sr m).
