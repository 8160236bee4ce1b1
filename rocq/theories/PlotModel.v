(** The file for plotting a potential: write_plotpot_pair, src/potential_output.c:544-686.

    Doubles are real numbers.  A block of the file is the list of its lines (r, value); the
    text is left out.  pt is calc_pot, for tables the same as opt_pot: [pt c] describes column
    c, [tab] is pt->table.  Analytic functions are [fv], with the parameters put in; [None] is
    NaN. *)
From Coq Require Import Reals List Bool Arith.
From Verif Require Import TabModel SplineModel FuncModel.
Import ListNotations.
Local Open Scope R_scope.

Definition block := list (R * R).
(** potential_output.c:37 *)
Definition NPLOT : nat := 1000.
Definition BIG : R := 10 * 10 ^ 30.

(** cnt lines from r on; the r after them *)
Fixpoint walk (f : R -> R) (cnt : nat) (r dr : R) : block * R :=
  match cnt with
  | O => ([], r)
  | S k => let '(l, e) := walk f k (r + dr) dr in ((r, f r) :: l, e)
  end.

Section Tables.
Variable N : nat.                            (* NPLOT *)
Variable n : nat.                            (* ntypes *)
Variable pt : nat -> column.
Variable tab : arr.
(** 560-566: N - 1 values and the number 0 *)
Definition closed_block (c : nat) : block :=
  let r := begin (pt c) in
  let r_step := (endr (pt c) - r) / INR (N - 1) in
  let '(l, e) := walk (splint_ne (pt c) tab) (N - 1) r r_step in
  l ++ [(e, 0)].
(** 583-589: N values *)
Definition open_block (c : nat) : block :=
  let r := begin (pt c) in
  let r_step := (endr (pt c) - r) / INR (N - 1) in
  fst (walk (splint_ne (pt c) tab) N r r_step).
(** 558-570: the counter k of the loops over i and j >= i *)
Definition pair_blocks : list block :=
  fst (fold_left (fun (s : list block * nat) (_ : nat * nat) => let '(out, k) := s in (out ++ [closed_block k], S k))
         (flat_map (fun i => map (fun j => (i, j)) (seq i (n - i))) (seq 0 n)) ([], 0%nat)).
Definition blocks (f : nat -> block) (lo hi : nat) : list block := map f (seq lo (hi - lo)).
(** 572-591 *)
Definition eam_blocks : list block :=
  let pc := paircol n in
  blocks closed_block pc (pc + n) ++ blocks open_block (pc + n) (pc + 2 * n).
(** 594-633: the transfer and embedding functions again *)
Definition meam_blocks : list block :=
  let pc := paircol n in
  blocks closed_block pc (pc + n) ++ blocks open_block (pc + n) (pc + 2 * n) ++
  blocks closed_block (pc + 2 * n) (2 * pc + 2 * n) ++ blocks closed_block (2 * pc + 2 * n) (2 * pc + 3 * n).
(** 635-656 *)
Definition adp_blocks : list block :=
  let pc := paircol n in
  blocks closed_block (pc + 2 * n) (2 * (pc + n)) ++ blocks closed_block (2 * (pc + n)) (3 * pc + 2 * n).
Definition plot_tables (b : build) : list block :=
  pair_blocks ++
  match b with
  | Pairs | Ang => []
  | Eam | Tbeam => eam_blocks
  | Adp => eam_blocks ++ adp_blocks
  | Meam => eam_blocks ++ meam_blocks
  end.
End Tables.

Section Analytic.
Variable N : nat.
Variable number : nat.                       (* apot_table.number *)
Variable plotmin : R.
Variable fv : nat -> R -> option R.
Variable smooth : nat -> bool.
Variables aend lastp : nat -> R.
(** 660-682; NaN times a number is NaN *)
Definition apot_value (i : nat) (r : R) : R :=
  match fv i r with
  | Some temp => if smooth i then temp * apot_cutoff r (aend i) (lastp i) else temp
  | None => BIG
  end.
Definition apot_block (i : nat) : block :=
  let r := if Req_EM_T plotmin 0 then 1 / 10 else plotmin in
  fst (walk (apot_value i) N r ((aend i - r) / INR (N - 1))).
Definition plot_analytic : list block := map apot_block (seq 0 number).
End Analytic.
