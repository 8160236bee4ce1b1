(** Search for a perturbation, the rest of src/uq.c:329-476: subsection_pert and the line
    through the two ends in hess_bracketing.  [f] is single_param_pert_cost of one parameter
    (UqModel.v: pert_cost).  Doubles are real numbers; a division by zero gives [Invalid] (it
    would be NaN or infinite).  [None]: not finished within [fuel] calls. *)
From Coq Require Import Reals List Arith Bool.
From Verif Require Import UqModel.
Local Open Scope R_scope.

Inductive pert := Pert (p : R) | Invalid | Failed (* error(1) *).

Section Sections.
Variable f : R -> R.
Variable aim : R.

Definition outside (c0 c10 : R) : bool := ((if Rlt_dec aim c0 then true else false) || (if Rlt_dec c10 aim then true else false))%bool.
(** range[i], 427; range[0] and range[10] are r0 and r10 *)
Definition at_section (r0 r10 : R) (i : nat) : R := r0 + INR i * (1 / 10) * (r10 - r0).
(** 426-459 for i, ..., 10; lb, ub are the values of the pointers; the third result is
    cost_range[10], set in the pass i = 10 *)
Fixpoint scan (r0 r10 : R) (k i : nat) (lb ub c10 : R) : R * R * R :=
  match k with
  | O => (lb, ub, c10)
  | S k =>
      let c := f (at_section r0 r10 i) in
      let c10 := if Nat.eqb i 10 then c else c10 in
      if Rle_dec aim c then (at_section r0 r10 (i - 1), at_section r0 r10 i, c10)
      else if Nat.eqb i 10 then (at_section r0 r10 i, ub, c10)
      else scan r0 r10 k (S i) lb ub c10
  end.
(** 386-476; after a change of signs range[] keeps its old values *)
Fixpoint subsection (fuel : nat) (lb ub : R) : option (option (R * R)) :=
  match fuel with
  | O => None
  | S fuel =>
      let turned := outside (f lb) (f ub) in
      let lb' := if turned then lb * -1 else lb in
      let ub' := if turned then ub * -1 else ub in
      if (turned && outside (f lb') (f ub'))%bool then Some None
      else
        let '(l, u, c10) := scan lb ub 10 1 lb' ub' (f ub') in
        if Rle_dec ((c10 - f lb') / aim) (5 / 100) then Some (Some (l, u)) else subsection fuel l u
  end.
(** 336-377 *)
Definition line_pert (lb ub : R) : pert :=
  if Req_EM_T (ub - lb) 0 then Invalid
  else
    let grad := (f ub - f lb) / (ub - lb) in
    if Req_EM_T grad 0 then Invalid
    else Pert (Rabs (((aim - f lb) / grad + lb) + ((aim - f ub) / grad + ub)) / 2).
Definition refine (fuel : nat) (lb ub : R) : option pert :=
  let '(lb, ub) := if Rlt_dec (Rabs ub) (Rabs lb) then (ub, lb) else (lb, ub) in
  match subsection fuel lb ub with
  | None => None
  | Some None => Some Failed
  | Some (Some (lb, ub)) => Some (line_pert lb ub)
  end.
End Sections.

(** 274-377 *)
Definition hess_bracketing (cost : vec -> R) (x : vec) (index : nat) (aim : R) (neg : bool) (fuel : nat) : option pert :=
  match first_bracket cost x index aim neg fuel with
  | None => None
  | Some (lb, ub) => refine (pert_cost cost x index) aim fuel lb ub
  end.
