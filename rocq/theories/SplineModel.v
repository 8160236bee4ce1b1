(** Model of the cubic splines, src/splines.c, and of the precomputed table slots of
    neighbours, src/config.c:1301-1362.

    Doubles are real numbers.  An array is a function of its index; a pointer into an array
    (xi + first, d2tab + first) is the shifted function.  The work array u, which is static
    in C, is a local array here: every entry is written before it is read. *)
From Coq Require Import Reals ZArith List.
From Verif Require Import LoopUtil.
Local Open Scope R_scope.

Definition arr := nat -> R.
Definition setr (a : arr) (i : nat) (x : R) : arr := fun k => if Nat.eqb k i then x else a k.

(** splines.c:56, 72: 0.99e30 *)
Definition NATURAL : R := 99 * 10 ^ 28.

(** ** spline_ed, splines.c:43-84 *)
Definition ed_start (xstep : R) (y : arr) (yp1 : R) (y2 u : arr) : arr * arr :=
  if Rlt_dec NATURAL yp1 then (setr y2 0 0, setr u 0 0)
  else (setr y2 0 (- (1/2)), setr u 0 ((3 / xstep) * ((y 1%nat - y 0%nat) / xstep - yp1))).
Definition ed_forward (xstep : R) (y : arr) (i : nat) (s : arr * arr) : arr * arr :=
  let '(y2, u) := s in
  let p := 1/2 * y2 (i - 1)%nat + 2 in
  let y2' := setr y2 i (- (1/2) / p) in
  let u1 := (y (i + 1)%nat - y i) / xstep - (y i - y (i - 1)%nat) / xstep in
  (y2', setr u i ((6 * u1 / (2 * xstep) - 1/2 * u (i - 1)%nat) / p)).
Definition ed_end (xstep : R) (y : arr) (n : nat) (ypn : R) : R * R :=
  if Rlt_dec NATURAL ypn then (0, 0)
  else (1/2, (3 / xstep) * (ypn - (y (n - 1)%nat - y (n - 2)%nat) / xstep)).
Definition back (u : arr) (k : nat) (y2 : arr) : arr := setr y2 k (y2 k * y2 (k + 1)%nat + u k).
Definition finish (n : nat) (qn un : R) (s : arr * arr) : arr :=
  let '(y2, u) := s in
  let y2' := setr y2 (n - 1) ((un - qn * u (n - 2)%nat) / (qn * y2 (n - 2)%nat + 1)) in
  for_down 0 (n - 1) (back u) y2'.
Definition spline_ed (xstep : R) (y : arr) (n : nat) (yp1 ypn : R) (y2 : arr) : arr :=
  let '(qn, un) := ed_end xstep y n ypn in
  finish n qn un (for_up 1 (n - 1) (ed_forward xstep y) (ed_start xstep y yp1 y2 (fun _ => 0))).

(** ** spline_ne, splines.c:264-306 *)
Definition ne_start (x y : arr) (yp1 : R) (y2 u : arr) : arr * arr :=
  if Rlt_dec NATURAL yp1 then (setr y2 0 0, setr u 0 0)
  else (setr y2 0 (- (1/2)),
        setr u 0 ((3 / (x 1%nat - x 0%nat)) * ((y 1%nat - y 0%nat) / (x 1%nat - x 0%nat) - yp1))).
Definition ne_forward (x y : arr) (i : nat) (s : arr * arr) : arr * arr :=
  let '(y2, u) := s in
  let sig := (x i - x (i - 1)%nat) / (x (i + 1)%nat - x (i - 1)%nat) in
  let p := sig * y2 (i - 1)%nat + 2 in
  let y2' := setr y2 i ((sig - 1) / p) in
  let u1 := (y (i + 1)%nat - y i) / (x (i + 1)%nat - x i) - (y i - y (i - 1)%nat) / (x i - x (i - 1)%nat) in
  (y2', setr u i ((6 * u1 / (x (i + 1)%nat - x (i - 1)%nat) - sig * u (i - 1)%nat) / p)).
Definition ne_end (x y : arr) (n : nat) (ypn : R) : R * R :=
  if Rlt_dec NATURAL ypn then (0, 0)
  else (1/2, (3 / (x (n - 1)%nat - x (n - 2)%nat)) *
             (ypn - (y (n - 1)%nat - y (n - 2)%nat) / (x (n - 1)%nat - x (n - 2)%nat))).
Definition spline_ne (x y : arr) (n : nat) (yp1 ypn : R) (y2 : arr) : arr :=
  let '(qn, un) := ne_end x y n ypn in
  finish n qn un (for_up 1 (n - 1) (ne_forward x y) (ne_start x y yp1 y2 (fun _ => 0))).

(** ** Evaluation *)
(** One column of a pot_table_t. *)
Record column := mk_col {
  begin : R; endr : R; step : R; invstep : R; first : nat; last : nat;
  xcoord : arr; d2tab : arr }.

(** splint_dir, splint_comb_dir, splint_grad_dir: splines.c:197-255 *)
Definition splint_dir (d2 xi : arr) (k : nat) (b step : R) : R :=
  let a := 1 - b in
  a * xi k + b * xi (k + 1)%nat +
  ((a * a * a - a) * d2 k + (b * b * b - b) * d2 (k + 1)%nat) * (step * step) / 6.
Definition splint_grad_dir (d2 xi : arr) (k : nat) (b step : R) : R :=
  let a := 1 - b in
  (xi (k + 1)%nat - xi k) / step +
  ((3 * (b * b) - 1) * d2 (k + 1)%nat - (3 * (a * a) - 1) * d2 k) * step / 6.
Definition splint_comb_dir (d2 xi : arr) (k : nat) (b step : R) : R * R :=
  let a := 1 - b in
  (a * xi k + b * xi (k + 1)%nat +
   ((a * a * a - a) * d2 k + (b * b * b - b) * d2 (k + 1)%nat) * (step * step) / 6,
   (xi (k + 1)%nat - xi k) / step +
   ((3 * (b * b) - 1) * d2 (k + 1)%nat - (3 * (a * a) - 1) * d2 k) * step / 6).

(** (int) x of a number that is not negative *)
Definition trunc (x : R) : nat := Z.to_nat (Int_part x).

(** splint_ed, splines.c:93-114; [None]: error(1, "Short distance") *)
Definition ed_slot (c : column) (r : R) : option (nat * R) :=
  let rr := r - begin c in
  if Rlt_dec rr 0 then None else
  let k := trunc (rr * invstep c) in
  Some ((k + first c)%nat, (rr - INR k * step c) * invstep c).
Definition splint_ed (c : column) (xi : arr) (r : R) : option R :=
  match ed_slot c r with
  | None => None
  | Some (k, b) =>
      let a := 1 - b in
      Some (a * xi k + b * xi (k + 1)%nat +
        ((a * a * a - a) * d2tab c k + (b * b * b - b) * d2tab c (k + 1)%nat) /
          (6 * invstep c * invstep c))
  end.
(** splines.c:123-152 *)
Definition splint_comb_ed (c : column) (xi : arr) (r : R) : option (R * R) :=
  match ed_slot c r with
  | None => None
  | Some (k, b) =>
      let a := 1 - b in
      Some (a * xi k + b * xi (k + 1)%nat +
        ((a * a * a - a) * d2tab c k + (b * b * b - b) * d2tab c (k + 1)%nat) /
          (6 * invstep c * invstep c),
        (xi (k + 1)%nat - xi k) * invstep c +
        ((3 * (b * b) - 1) * d2tab c (k + 1)%nat - (3 * (a * a) - 1) * d2tab c k) / (6 * invstep c))
  end.
(** splines.c:161-187, with the correction at the last index (174-177) *)
Definition splint_grad_ed (c : column) (xi : arr) (r : R) : option R :=
  match ed_slot c r with
  | None => None
  | Some (k0, b0) =>
      let '(k, b) := if Nat.leb (last c) k0 then ((k0 - 1)%nat, b0 + 1) else (k0, b0) in
      let a := 1 - b in
      Some ((xi (k + 1)%nat - xi k) * invstep c +
        ((3 * (b * b) - 1) * d2tab c (k + 1)%nat - (3 * (a * a) - 1) * d2tab c k) / (6 * invstep c))
  end.

(** Bisection, splines.c:317-327 and config.c:1329-1339; fuel [khi - klo] is enough. *)
Fixpoint bisect (x : arr) (r : R) (fuel klo khi : nat) : nat * nat :=
  match fuel with
  | O => (klo, khi)
  | S f =>
      if Nat.ltb 1 (khi - klo) then
        let k := Nat.div2 (khi + klo) in
        if Rlt_dec r (x k) then bisect x r f klo k else bisect x r f k khi
      else (klo, khi)
  end.
Definition ne_find (c : column) (r : R) : nat * nat :=
  bisect (xcoord c) r (last c - first c) (first c) (last c).

(** splint_ne, splint_comb_ne, splint_grad_ne: splines.c:315-337, 396-456 *)
Definition splint_ne (c : column) (xi : arr) (r : R) : R :=
  let '(klo, khi) := ne_find c r in
  let h := xcoord c khi - xcoord c klo in
  let b := (r - xcoord c klo) / h in
  let a := 1 - b in
  a * xi klo + b * xi khi + ((a * a * a - a) * d2tab c klo + (b * b * b - b) * d2tab c khi) * (h * h) / 6.
Definition splint_grad_ne (c : column) (xi : arr) (r : R) : R :=
  let '(klo, khi) := ne_find c r in
  let h := xcoord c khi - xcoord c klo in
  let b := (r - xcoord c klo) / h in
  let a := 1 - b in
  (xi khi - xi klo) / h + ((3 * (b * b) - 1) * d2tab c khi - (3 * (a * a) - 1) * d2tab c klo) * h / 6.
Definition splint_comb_ne (c : column) (xi : arr) (r : R) : R * R :=
  let '(klo, khi) := ne_find c r in
  let h := xcoord c khi - xcoord c klo in
  let b := (r - xcoord c klo) / h in
  let a := 1 - b in
  (a * xi klo + b * xi khi + ((a * a * a - a) * d2tab c klo + (b * b * b - b) * d2tab c khi) * (h * h) / 6,
   (xi khi - xi klo) / h + ((3 * (b * b) - 1) * d2tab c khi - (3 * (a * a) - 1) * d2tab c klo) * h / 6).
(** splint_ne_lin, splines.c:346-387 *)
Definition splint_ne_lin (c : column) (xi : arr) (r : R) : R :=
  let '(klo, khi) := ne_find c r in
  let h := xcoord c khi - xcoord c klo in
  let grad a b := (xi khi - xi klo) / h +
      ((3 * (b * b) - 1) * d2tab c khi - (3 * (a * a) - 1) * d2tab c klo) * h / 6 in
  if Rlt_dec r (begin c) then xi klo + grad 1 0 * (r - xcoord c klo)
  else if Rlt_dec (endr c) r then xi khi + grad 0 1 * (r - xcoord c khi)
  else
    let b := (r - xcoord c klo) / h in
    let a := 1 - b in
    a * xi klo + b * xi khi + ((a * a * a - a) * d2tab c klo + (b * b * b - b) * d2tab c khi) * (h * h) / 6.

(** ** set_neighbor_slot, config.c:1301-1362: slot, shift, step *)
Definition left_of_last (c : column) (k : nat) (b : R) : nat * R :=
  if Nat.leb (last c) k then ((k - 1)%nat, b + 1) else (k, b).
Definition slot_ed (c : column) (r : R) : option (nat * R * R) :=
  match ed_slot c r with
  | None => None
  | Some (k, b) => let '(k', b') := left_of_last c k b in Some (k', b', step c)
  end.
Definition slot_ne (c : column) (r : R) : nat * R * R :=
  let '(klo, khi) := ne_find c r in
  let st := xcoord c khi - xcoord c klo in
  let b := (r - xcoord c klo) / st in
  let '(k', b') := left_of_last c klo b in (k', b', st).

(** The right column layout: equidistant or with listed coordinates. *)
Definition equidistant (c : column) : Prop :=
  0 < step c /\ invstep c = 1 / step c /\ (first c < last c)%nat /\
  endr c = begin c + INR (last c - first c) * step c.
Definition listed (c : column) : Prop :=
  (first c < last c)%nat /\ begin c = xcoord c (first c) /\ endr c = xcoord c (last c) /\
  forall i, (first c <= i < last c)%nat -> xcoord c i < xcoord c (S i).
