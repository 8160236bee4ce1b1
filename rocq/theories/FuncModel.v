(** Model of src/functions.c:264-481 (normalisation of parameters, smooth cutoff,
    punishments, electrostatic tails), of the electrostatic Morse-stretch and Buckingham
    functions (src/functions_impl.c:91-157) and of src/chempot.c.

    Doubles are real numbers, except in the last part of the first section.  A parameter
    array is a function of its index.  A loop that is not counted takes a bound on the
    number of its passes; [None]: still running after that many. *)
From Coq Require Import Reals ZArith List Bool Floats.SpecFloat.
From Verif Require Import LoopUtil.
Import ListNotations.
Local Open Scope R_scope.

Definition arr := nat -> R.
Definition setp (p : arr) (i : nat) (x : R) : arr := fun k => if Nat.eqb k i then x else p k.

(** ** apot_check_params, functions.c:264-315 *)
(** Kinds of functions that matter here, with the number of parameters
    (functions.itm:31, 67, 81) *)
Inductive fkind := Eopp | Csw2 | TersoffPot | Other (npar : nat).
Definition num_par (k : fkind) : nat :=
  match k with Eopp => 6 | Csw2 => 4 | TersoffPot => 11 | Other n => n end.

(** 273-276, 286-289 *)
Fixpoint angle_down (fuel : nat) (x : R) : option R :=
  if Rlt_dec (2 * PI) x then
    match fuel with O => None | S f => angle_down f (x - 2 * PI) end
  else Some x.
(** 277-280, 290-293 *)
Fixpoint angle_up (fuel : nat) (x : R) : option R :=
  if Rlt_dec x 0 then
    match fuel with O => None | S f => angle_up f (x + 2 * PI) end
  else Some x.
Definition norm_angle (fuel : nat) (x : R) : option R :=
  match angle_down fuel x with None => None | Some y => angle_up fuel y end.

(** one pass of the loop over the potentials, [j]: index of its first parameter *)
Definition check_one (fuel : nat) (tersoff : bool) (k : fkind) (j : nat) (p : arr) : option arr :=
  match k with
  | Eopp => option_map (setp p (j + 5)) (norm_angle fuel (p (j + 5)%nat))
  | Csw2 => option_map (setp p (j + 2)) (norm_angle fuel (p (j + 2)%nat))
  | TersoffPot =>
      Some (if tersoff then
              if Rlt_dec (p (j + 9)%nat) (p (j + 10)%nat)
              then setp (setp p (j + 9) (p (j + 10)%nat)) (j + 10) (p (j + 9)%nat) else p
            else p)
  | Other _ => Some p
  end.
(** [pots]: kind and smooth cutoff flag (one more parameter) of each potential *)
Fixpoint check_loop (fuel : nat) (tersoff : bool) (pots : list (fkind * bool)) (j : nat) (p : arr) : option arr :=
  match pots with
  | [] => Some p
  | (k, smooth) :: rest =>
      match check_one fuel tersoff k j p with
      | None => None
      | Some p' => check_loop fuel tersoff rest (j + (2 + num_par k + (if smooth then 1 else 0))) p'
      end
  end.
Definition apot_check_params (fuel : nat) (tersoff : bool) (pots : list (fkind * bool)) (p : arr) : option arr :=
  check_loop fuel tersoff pots 2 p.

(** The functions concerned, functions_impl.c:64-73, 333-340; [pw x y]: power x y *)
Definition eopp_value (pw : R -> R -> R) (r : R) (p : arr) : R :=
  p 0%nat / pw r (p 1%nat) + (p 2%nat / pw r (p 3%nat)) * cos (p 4%nat * r + p 5%nat).
Definition csw2_value (pw : R -> R -> R) (r : R) (p : arr) : R :=
  (1 + p 0%nat * cos (p 1%nat * r + p 2%nat)) / pw r (p 3%nat).

(** 273-276 with binary64 numbers; 2 * M_PI is 7074237752028440 / 2^50 *)
Definition two_pi64 : spec_float := S754_finite false 7074237752028440 (-50).
Fixpoint angle_down64 (fuel : nat) (x : spec_float) : option spec_float :=
  if SFltb two_pi64 x then
    match fuel with O => None | S f => angle_down64 f (SFsub 53 1024 x two_pi64) end
  else Some x.

(** ** apot_cutoff, functions.c:322-332 *)
Definition apot_cutoff (r r0 h : R) : R :=
  if Rle_dec 0 (r - r0) then 0
  else
    let v := (r - r0) / h in
    let v := v * v in
    let v := v * v in
    v / (1 + v).

(** ** apot_punish, functions.c:356-405 *)
Definition APOT_PUNISH : R := 10 * 10 ^ 6.
Record punished := mk_punished { psum : R; pforces : arr; pinf : bool (* a division by zero *) }.
Section Punish.
Variable ndim : nat.
Variable idx : nat -> nat.
Variables pmin pmax : nat -> R.     (* bounds of the i-th free parameter *)
Variables par_p pot_p : nat.        (* punish_par_p, punish_pot_p *)
Variable pvalue : R.                (* apot_punish_value *)
Variable first : nat -> nat.        (* opt_pot.first *)
Variables eopps universals : list nat.  (* punish_index[0], [1]: potentials with these names *)

Definition punish_bounds (params : arr) (i : nat) (s : punished) : punished :=
  let v := params (idx i) in
  if Rlt_dec v (pmin i) then
    let x := v - pmin i in
    mk_punished (psum s + APOT_PUNISH * x * x) (setp (pforces s) (par_p + i) (APOT_PUNISH * x * x)) (pinf s)
  else if Rlt_dec (pmax i) v then
    let x := v - pmax i in
    mk_punished (psum s + APOT_PUNISH * x * x) (setp (pforces s) (par_p + i) (APOT_PUNISH * x * x)) (pinf s)
  else s.
Definition punish_eopp (params : arr) (s : punished) (k : nat) : punished :=
  let x := params (first k + 1)%nat - params (first k + 3)%nat in
  if Rlt_dec x 0 then
    mk_punished (psum s + pvalue * (1 + x) * (1 + x)) (setp (pforces s) (pot_p + k) (pvalue * (1 + x) * (1 + x))) (pinf s)
  else s.
Definition punish_universal (params : arr) (s : punished) (k : nat) : punished :=
  let x := Rabs (params (first k + 2)%nat - params (first k + 1)%nat) in
  if Rlt_dec x (/ 10 ^ 6) then
    if Req_EM_T x 0 then mk_punished (psum s) (pforces s) true
    else mk_punished (psum s + pvalue / (x * x)) (setp (pforces s) (pot_p + k) (pvalue / (x * x))) (pinf s)
  else s.
Definition apot_punish (params forces : arr) : punished :=
  let s := for_up 0 ndim (punish_bounds params) (mk_punished 0 forces false) in
  let s := fold_left (punish_eopp params) eopps s in
  fold_left (punish_universal params) universals s.
End Punish.

(** ** Electrostatics: functions.c:414-481 *)
(** defines.h:54 *)
Definition DP_EPS : R := 144 / 10.
Section Elstat.
Variable erfc : R -> R.
Definition elstat_value (r kappa : R) : R * R * R :=
  let x0 := r * r in
  let x1 := kappa * kappa in
  let x2 := 2 * DP_EPS * kappa / sqrt PI in
  let x3 := exp (- x0 * x1) in
  let ftail := DP_EPS * erfc (kappa * r) / r in
  let gtail := - (ftail + x2 * x3) / x0 in
  let ggtail := (2 * x1 * x2 * x3 - gtail * 3) / x0 in
  (ftail, gtail, ggtail).
Definition elstat_shift (dipole : bool) (dp_cut r kappa : R) : R * R * R :=
  let x2 := r * r - dp_cut * dp_cut in
  let '(f, g, gg) := elstat_value r kappa in
  let '(fc, gc, ggc) := elstat_value dp_cut kappa in
  let fnval := f - fc - x2 * gc / 2 in
  let grad := g - gc in
  if dipole then (fnval - x2 * x2 * ggc / 8, grad - x2 * ggc / 2, gg - ggc)
  else (fnval, grad, 0).
Definition elstat_dsf (dipole : bool) (dp_cut r kappa : R) : R * R * R :=
  let x2 := r * r - dp_cut * dp_cut in
  let '(f, g, gg) := elstat_value r kappa in
  let '(fc, gc, ggc) := elstat_value dp_cut kappa in
  let fnval := f - fc - (r - dp_cut) * gc * dp_cut in
  let grad := g - gc * dp_cut / r in
  if dipole then (fnval - x2 * x2 * ggc / 8, grad - x2 * ggc / 2, gg - ggc)
  else (fnval, grad, 0).
End Elstat.

(** functions.c:523-557 *)
Definition shortrange_value (r a b c : R) : R :=
  let x := b * r in
  a * c * (1 + x + x * x / 2 + x * x * x / 6 + (x * x) * (x * x) / 24) * exp (- x) / DP_EPS.
Definition shortrange_term (r b c : R) : R * R :=
  let x := b * r in
  (c * (1 + x + x * x / 2 + x * x * x / 6 + (x * x) * (x * x) / 24) * exp (- x) / DP_EPS,
   - c * b * ((x * x) * (x * x)) * exp (- x) / (24 * DP_EPS * r)).

(** functions_impl.c:91-116 *)
Definition ms_init (r : R) (p : arr) : R * R :=
  let x0 := 1 - r / p 2%nat in
  let x1 := exp (p 1%nat * x0) in
  let x2 := exp (p 1%nat * x0 / 2) in
  let x3 := p 0%nat * p 1%nat / (r * p 2%nat) in
  (p 0%nat * (x1 - 2 * x2), x3 * (- x1 + x2)).
Definition ms_value (dp_cut r : R) (p : arr) : R :=
  fst (ms_init r p) - fst (ms_init dp_cut p) - (r - dp_cut) * snd (ms_init dp_cut p).
(** functions_impl.c:132-157 *)
Definition buck_init (r : R) (p : arr) : R * R :=
  let x0 := (p 1%nat * p 1%nat) / (r * r) in
  let x1 := p 2%nat * x0 * x0 * x0 in
  let x2 := p 0%nat * exp (- r / p 1%nat) in
  (x2 - x1, - x2 / p 1%nat + 6 * x1 / r).
Definition buck_value (dp_cut r : R) (p : arr) : R :=
  fst (buck_init r p) - fst (buck_init dp_cut p) - r * (r - dp_cut) * snd (buck_init dp_cut p).

(** ** Chemical potential, src/chempot.c:60-127 *)
(** A composition node with what is moved along when nodes are sorted (chempot.c:37-53):
    composition, value, bounds *)
Record node := mk_node { ncomp : R; nval : R; nmin : R; nmax : R }.
(** one pass of the for-loop, 66-71: [a] is the element at the current position *)
Fixpoint bubble_from (a : node) (l : list node) : list node * bool :=
  match l with
  | [] => ([a], false)
  | b :: rest =>
      if Rlt_dec (ncomp b) (ncomp a)
      then (b :: fst (bubble_from a rest), true)
      else (a :: fst (bubble_from b rest), snd (bubble_from b rest))
  end.
Definition bubble_pass (l : list node) : list node * bool :=
  match l with [] => ([], false) | a :: rest => bubble_from a rest end.
(** sort_chem_pot_2d, 60-77 *)
Fixpoint sort_chem_pot (fuel : nat) (l : list node) : option (list node) :=
  match fuel with
  | O => None
  | S f => let '(m, swapped) := bubble_pass l in if swapped then sort_chem_pot f m else Some m
  end.
(** 103-105: first node that is not left of the composition *)
Fixpoint find_node (x : R) (l : list R) (i : nat) : nat :=
  match l with [] => i | a :: rest => if Rlt_dec a x then find_node x rest (S i) else i end.
(** chemical_potential_2d, 92-127; ntypes = 2; values: the two pure ones, then the nodes *)
Definition chemical_potential_2d (nodes : list R) (values : arr) (n0 n1 : nat) : R :=
  let ntot := INR (n0 + n1) in
  let nfrac := INR n1 / ntot in
  let cn := length nodes in
  if Req_EM_T nfrac 0 then INR n0 * values 0%nat + INR n1 * values 1%nat
  else if Req_EM_T nfrac 1 then INR n0 * values 0%nat + INR n1 * values 1%nat
  else if Nat.eqb cn 0 then INR n0 * values 0%nat + INR n1 * values 1%nat
  else
    let i := find_node nfrac nodes 0 in
    let '(xl, xr, yl, yr) :=
      if Nat.eqb i 0 then (0, nth 0 nodes 0, values 0%nat, values 2%nat)
      else if Nat.eqb i cn then (nth (cn - 1) nodes 0, 1, values (2 + cn - 1)%nat, values 1%nat)
      else (nth (i - 1) nodes 0, nth i nodes 0, values (2 + i - 2)%nat, values (2 + i - 1)%nat) in
    (yl + (nfrac - xl) * (yr - yl) / (xr - xl)) * ntot.
