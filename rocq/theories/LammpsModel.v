(** Model of the LAMMPS export, src/potential_output_lammps.c, and of the Stillinger-Weber
    and Tersoff functions of the fit (force_stiweb.c, force_tersoff.c).

    Doubles are real numbers.  A number that is not finite in C (division by zero) is
    [None]; exp is taken as total.  pow(x, y) of a negative or zero x is left open ([pow0]).
    What printf writes for a number is [pr]; apart from numbers, the text of the files is not
    modelled.  The tables apot_table.values and opt_pot.table hold the same parameters
    (update_apot_table, potential_input.c:600-617, called at the end of the fit,
    powell_lsq.c:375), so one table [V] (column, parameter) stands for both. *)
From Coq Require Import Reals ZArith List Bool.
From Verif Require Import Vec PairIndexModel SplineModel LoopUtil.
Import ListNotations.
Local Open Scope R_scope.

Definition col (n i j : nat) : nat := Z.to_nat (pair_index (Z.of_nat n) (Z.of_nat i) (Z.of_nat j)).
Definition pcol (n : nat) : nat := Z.to_nat (paircol (Z.of_nat n)).

Section Pow.
Variable pow0 : R -> R -> R.
(** C pow; power_1 of utils.c has the same result *)
Definition cpow (x y : R) : R := if Rlt_dec 0 x then Rpower x y else pow0 x y.

(** ** Functions of the fit *)
Section Fit.
Variable V : nat -> nat -> R.
Variable lam : nat -> nat -> nat -> R.
Variable n : nat.

(** force_stiweb.c:165-181 (without the halves for self images and full lists, 190-196);
    parameters A B p q delta a1 *)
Definition sw_v2 (c : nat) (r : R) : R :=
  if Rlt_dec r (V c 5) then
    let phi_r := V c 0 * cpow r (- V c 2) in
    let phi_a := - V c 1 * cpow r (- V c 3) in
    (phi_r + phi_a) * exp (V c 4 * (1 / (r - V c 5)))
  else 0.
(** force_stiweb.c:226-236, parameters gamma a2 of column paircol + c *)
Definition sw_f (c : nat) (r : R) : R :=
  let tmp_r := r - V (pcol n + c)%nat 1%nat in
  if Rlt_dec tmp_r (- (1 / 100) * V (pcol n + c)%nat 0%nat)
  then exp (V (pcol n + c)%nat 0%nat * (1 / tmp_r)) else 0.
(** force_stiweb.c:240-269 *)
Definition sw_v3 (i j k : nat) (rj rk cos : R) : R :=
  let cj := col n i j in
  let ck := col n i k in
  if Rlt_dec rj (V (pcol n + cj)%nat 1%nat) then
    if Req_EM_T 0 (lam i j k) then 0 else
    if Rlt_dec rk (V (pcol n + ck)%nat 1%nat) then
      let tmp := cos + 1 / 3 in
      lam i j k * sw_f cj rj * sw_f ck rk * tmp * tmp
    else 0
  else 0.

(** A neighbour of the central atom: type, distance; [cosjk j k]: cosine of the angle between
    neighbours number j and k of the list (stored angles: C64) *)
Record nbk := mk_nbk { k_typ : nat; k_r : R }.

(** force_tersoff.c:167-177, 221-223; A B lambda mu gamma n c d h S R *)
Definition ts_f (c : nat) (r : R) : R :=
  if Rlt_dec r (V c 9) then
    let cut_tmp := PI / (V c 9 - V c 10) in
    if Rlt_dec r (V c 10) then 1 else 1 / 2 * (1 + cos (cut_tmp * (r - V c 10)))
  else 0.
Variable omega : nat -> R.
(** force_tersoff.c:258-264 *)
Definition ts_g (c : nat) (x : R) : R :=
  let tmp_1 := V c 8 - x in
  let tmp_2 := 1 / (V c 7 * V c 7 + tmp_1 * tmp_1) in
  1 + V c 6 * V c 6 / (V c 7 * V c 7) - V c 6 * V c 6 * tmp_2.
Definition ts_zeta (i j : nat) (l : list nbk) (cosjk : nat -> nat -> R) : R :=
  let cj := col n i (k_typ (nth j l (mk_nbk 0 0))) in
  rsumf (fun k =>
    let e := nth k l (mk_nbk 0 0) in
    let ck := col n i (k_typ e) in
    if Nat.eqb k j then 0
    else if Rlt_dec (k_r e) (V ck 9) then ts_f ck (k_r e) * omega ck * ts_g cj (cosjk j k) else 0)
    (seq 0 (length l)).
(** force_tersoff.c:179-196 and 296-312 for neighbour number j (not a self image): what is
    added to the energy *)
Definition ts_bond (i j : nat) (l : list nbk) (cosjk : nat -> nat -> R) : R :=
  let e := nth j l (mk_nbk 0 0) in
  let c := col n i (k_typ e) in
  if Rlt_dec (k_r e) (V c 9) then
    let rep := 1 / 2 * (ts_f c (k_r e) * V c 0 * exp (- V c 2 * k_r e)) in
    if Req_EM_T (V c 1) 0 then rep else
      let phi_a := 1 / 2 * V c 1 * exp (- V c 3 * k_r e) in
      let tmp_4 := cpow (V c 4 * ts_zeta i j l cosjk) (V c 5) in
      let b_ij := cpow (1 + tmp_4) (-1 / (2 * V c 5)) in
      rep + ts_f c (k_r e) * (- b_ij * phi_a)
  else 0.

(** TERSOFFMOD, force_tersoff.c:506-516, 596-617;
    A B lambda mu eta delta alpha beta c1..c5 h R1 R2 *)
Definition tm_f (c : nat) (r : R) : R :=
  if Rlt_dec r (V c 15) then
    let tmp_1 := PI / (V c 15 - V c 14) in
    let tmp_2 := tmp_1 * (r - V c 14) in
    if Rlt_dec r (V c 14) then 1
    else 1 / 2 * (1 + 9 / 8 * cos tmp_2 - 1 / 8 * cos (3 * tmp_2))
  else 0.
Definition tm_g (c : nat) (x : R) : R :=
  let tmp_1 := V c 13 - x in
  let tmp_2 := 1 / (V c 10 + tmp_1 * tmp_1) in
  let tmp_3 := V c 11 * exp (- V c 12 * tmp_1 * tmp_1) in
  V c 8 + V c 9 * tmp_1 * tmp_1 * tmp_2 * (1 + tmp_3).
Definition tm_zeta (i j : nat) (l : list nbk) (cosjk : nat -> nat -> R) : R :=
  let ej := nth j l (mk_nbk 0 0) in
  let cj := col n i (k_typ ej) in
  rsumf (fun k =>
    let e := nth k l (mk_nbk 0 0) in
    let ck := col n i (k_typ e) in
    if Nat.eqb k j then 0
    else if Rlt_dec (k_r e) (V ck 15)
    then tm_f ck (k_r e) * tm_g cj (cosjk j k) * exp (V cj 6 * cpow (k_r ej - k_r e) (V cj 7)) else 0)
    (seq 0 (length l)).
(** 518-530, 646-660 *)
Definition tm_bond (i j : nat) (l : list nbk) (cosjk : nat -> nat -> R) : R :=
  let e := nth j l (mk_nbk 0 0) in
  let c := col n i (k_typ e) in
  if Rlt_dec (k_r e) (V c 15) then
    let rep := 1 / 2 * (tm_f c (k_r e) * V c 0 * exp (- V c 2 * k_r e)) in
    if Req_EM_T (V c 1) 0 then rep else
      let tmp_1 := cpow (tm_zeta i j l cosjk) (V c 4) in
      let b := cpow (1 + tmp_1) (- V c 5) in
      let tmp_2 := 1 / 2 * b * V c 1 * exp (- V c 3 * k_r e) in
      rep + tm_f c (k_r e) * (- tmp_2)
  else 0.
End Fit.

(** ** Export of Stillinger-Weber and Tersoff, potential_output_lammps.c:44-243 *)
Section Export.
Variable pr : R -> R.                       (* printed with %g *)
Variable V : nat -> nat -> R.
Variable n : nat.

Definition num := option R.
Definition quot (x y : num) : num :=
  match x, y with Some x, Some y => if Req_EM_T y 0 then None else Some (x / y) | _, _ => None end.
Definition prod (x y : num) : num :=
  match x, y with Some x, Some y => Some (x * y) | _, _ => None end.
Definition put (x : num) : num := option_map pr x.
(** a line of the file: three elements and numbers *)
Definition line : Type := (nat * nat * nat) * list num.

(** 137-139 and the end of the loops *)
Definition triples_of {A} (f : nat -> nat -> nat -> A) : list A :=
  flat_map (fun i => flat_map (fun j => map (fun k => f i j k) (seq 0 n)) (seq 0 n)) (seq 0 n).

(** 145-176 *)
Definition sw_line (lam : nat -> nat -> nat -> R) (i j k : nat) : line :=
  let c := col n i j in
  let epsilon := Some 1 in
  let sigma := Some (V c 4) in
  let scale_p := quot (Some 1) (prod epsilon (Some (cpow (V c 4) (V c 2)))) in
  let scale_q := quot (Some 1) (prod epsilon (Some (cpow (V c 4) (V c 3)))) in
  ((i, j, k), map put
    [ epsilon; sigma; quot (Some (V c 5)) sigma; quot (Some (lam i j k)) epsilon;
      quot (Some (V (pcol n + c)%nat 0%nat)) sigma; Some (-1 / 3);
      prod (Some (V c 1)) scale_q;
      quot (quot (prod (Some (V c 0)) scale_p) (Some (V c 1))) scale_q;
      Some (V c 2); Some (V c 3); Some 0 ]).
(** 60-68: no file unless a1 == a2 for the first pair *)
Definition write_sw (lam : nat -> nat -> nat -> R) : option (list line) :=
  if Req_EM_T (V 0 5) (V (pcol n) 1) then Some (triples_of (sw_line lam)) else None.

(** 178-209 *)
Definition ts_line (omega chi : nat -> R) (i j k : nat) : line :=
  let c := col n i j in
  ((i, j, k), map (fun x => put (Some x))
    [ 1; omega c; 0; V c 6; V c 7; V c 8; V c 5; V c 4; V c 3; V c 1 * chi c;
      1 / 2 * (V c 9 + V c 10); 1 / 2 * (V c 9 - V c 10); V c 2; V c 0 ]).
Definition write_ts (omega chi : nat -> R) : list line := triples_of (ts_line omega chi).

(** 210-240 *)
Definition tm_line (i j k : nat) : line :=
  let c := col n i j in
  ((i, j, k), map put
    [ Some (V c 7); Some (V c 6); Some (V c 13); Some (V c 4); Some 1; Some (V c 3); Some (V c 1);
      Some (1 / 2 * (V c 14 + V c 15)); Some (1 / 2 * (V c 15 - V c 14)); Some (V c 2); Some (V c 0);
      quot (Some 1) (Some (2 * V c 5)); Some (V c 8); Some (V c 9); Some (V c 10); Some (V c 11); Some (V c 12) ]).
Definition write_tm : list line := triples_of tm_line.
End Export.
End Pow.

(** ** Pair tables, potential_output_lammps.c:251-328: rows (number, r, energy, fourth column) *)
Record row := mk_row { w_k : nat; w_r : R; w_e : R; w_f : R }.
(** the cutoff factor, functions.c:322-332 *)
Definition apot_cutoff (r r0 h : R) : R :=
  if Rge_dec (r - r0) 0 then 0 else
  let val := (r - r0) / h in let val := val * val in let val := val * val in val / (1 + val).

(** APOT, 293-312, 320; [V] is the analytic function; the test 300-301 is never true *)
Fixpoint apot_rows (V cut : R -> R) (smooth : bool) (dr : R) (cnt k : nat) (r : R) : list row :=
  match cnt with
  | O => []
  | S cnt' =>
      let a := V (r + dr) in
      let fval := V r in
      let b := V (r - dr) in
      let a := if smooth then a * cut (r + dr) else a in
      let fval := if smooth then fval * cut r else fval in
      let b := if smooth then b * cut (r - dr) else b in
      mk_row (k + 1) r fval (- (a - b) / (2 * dr)) :: apot_rows V cut smooth dr cnt' (k + 1) (r + dr)
  end.
(** 286-291; steps > 1 *)
Definition apot_table (V cut : R -> R) (smooth : bool) (plotmin begin endr : R) (steps : nat) : list row :=
  let r := if Req_EM_T plotmin 0 then begin else plotmin in
  apot_rows V cut smooth ((endr - r) / (INR steps - 1)) steps 0 r.

(** tabulated, 313-320; [None]: error(1, ...) of the interpolation *)
Fixpoint tab_rows (comb : R -> option (R * R)) (dr : R) (steps cnt k : nat) (r : R) : option (list row) :=
  match cnt with
  | O => Some []
  | S cnt' =>
      let r := if Nat.eqb k (steps - 1) then r - 1 / 10 ^ 6 else r in
      match comb r, tab_rows comb dr steps cnt' (k + 1) (r + dr) with
      | Some (fval, grad), Some l => Some (mk_row (k + 1) r fval grad :: l)
      | _, _ => None
      end
  end.
Definition tab_table (comb : R -> option (R * R)) (begin endr : R) (steps : nat) : option (list row) :=
  tab_rows comb ((endr - begin) / (INR steps - 1)) steps steps 0 begin.

(** ** setfl files of EAM and ADP, potential_output_lammps.c:373-600: the numbers of one block *)
Definition scale_r (by_r : bool) (r v : R) : R := if by_r then r * v else v.
(** APOT, 443-450, 471-478, 506-513, 540-548, 576-584; [fv r = None]: not a finite number *)
Fixpoint apot_block_loop (fv : R -> num) (cut : R -> R) (smooth by_r : bool) (dr : R) (cnt : nat) (r : R) : list num :=
  match cnt with
  | O => []
  | S cnt' =>
      let temp := fv r in
      let temp := if Req_EM_T r 0 then match temp with None => fv (r + 1 / 1000) | _ => temp end else temp in
      let temp := if smooth then option_map (fun t => t * cut r) temp else temp in
      option_map (scale_r by_r r) temp :: apot_block_loop fv cut smooth by_r dr cnt' (r + dr)
  end.
Definition apot_block (fv : R -> num) (cut : R -> R) (smooth by_r : bool) (dr : R) (steps : nat) : list num :=
  apot_block_loop fv cut smooth by_r dr steps 0.
(** 548, 584: dipole and quadrupole functions of analytic potentials *)
Definition adp_apot_block (fv : R -> num) (cut : R -> R) (smooth : bool) (dr : R) (steps : nat) : list num :=
  apot_block fv cut smooth true dr steps.
(** tabulated, 433-439, 452-456 etc.; the last step is moved by [eps]; [lastj]: number of the
    step that is moved (steps - 1 after the decrement; lammpspotsteps - 1 in the ADP blocks,
    556, 592) *)
Fixpoint tab_block_loop (f : R -> num) (by_r : bool) (eps dr : R) (lastj cnt j : nat) (r : R) : option (list R) :=
  match cnt with
  | O => Some []
  | S cnt' =>
      let r := if Nat.eqb j lastj then r - eps else r in
      match f r, tab_block_loop f by_r eps dr lastj cnt' (j + 1) (r + dr) with
      | Some v, Some l => Some (scale_r by_r r v :: l)
      | _, _ => None
      end
  end.
Definition tab_block (f : R -> num) (x0 : R) (adp by_r : bool) (eps dr : R) (steps : nat) : option (list R) :=
  if Req_EM_T x0 0 then tab_block_loop f by_r eps dr (steps - 1) steps 0 0
  else option_map (cons 0)
    (tab_block_loop f by_r eps dr (if adp then steps - 1 else steps - 2)%nat (steps - 1) 0 (0 + dr)).

(** Order of the blocks of the pair functions (490-494) and of the dipole and quadrupole
    functions (527-532, 563-568): the columns written *)
Definition pair_blocks (n : nat) : list nat :=
  flat_map (fun i => map (fun j => col n i j) (seq 0 (i + 1))) (seq 0 n).
Definition adp_blocks (n off : nat) : list nat :=
  flat_map (fun i => map (fun j => (off + col n i j)%nat) (seq i (n - i))) (seq 0 n).
Definition dipole_blocks (n : nat) : list nat := adp_blocks n (pcol n + 2 * n).
Definition quad_blocks (n : nat) : list nat := adp_blocks n (2 * (pcol n + n)).
