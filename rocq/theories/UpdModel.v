(** Second derivatives of all functions at the begin of a force routine: update_splines,
    force_common.c:225-252, its callers, and the loops of the routines that do not use it.
    Real numbers; arrays as in SplineModel. *)
From Coq Require Import Reals List Arith Bool ZArith.
From Verif Require Import LoopUtil SplineModel.
Open Scope R_scope.

(** g_pot.calc_pot without table (argument xi) and d2tab (the state) *)
Record tabs := Tabs { t_begin : nat -> R; t_end : nat -> R; t_step : nat -> R; t_invstep : nat -> R;
  t_first : nat -> nat; t_last : nat -> nat; t_xcoord : arr }.
(** potfit.h: potential_format *)
Inductive format := FUnknown | FAnalytic | FEqDist | FNonEqDist | FKim.

(** pointer a + k *)
Definition from (a : arr) (k : nat) : arr := fun i => a (k + i)%nat.
(** contents of an array after a function that was given the pointer a + k *)
Definition store (k : nat) (f : arr) (a : arr) : arr := fun i => if (i <? k)%nat then a i else f (i - k)%nat.
Definition call_ed (t : tabs) (xi : arr) (col : nat) (gl gr : R) (d2 : arr) : arr :=
  let first := t_first t col in
  store first (spline_ed (t_step t col) (from xi first) (t_last t col - first + 1) gl gr (from d2 first)) d2.
Definition call_ne (t : tabs) (xi : arr) (col : nat) (gl gr : R) (d2 : arr) : arr :=
  let first := t_first t col in
  store first (spline_ne (from (t_xcoord t) first) (from xi first) (t_last t col - first + 1) gl gr (from d2 first)) d2.

(** force_common.c:225-252; [None]: error.  After the warning for KIM the array is unchanged *)
Definition update_splines (fm : format) (t : tabs) (xi : arr) (start num : nat) (grad_flag : Z)
    (s : option arr) : option arr :=
  for_up start (start + num) (fun col s =>
    match s with
    | None => None
    | Some d2 =>
        let first := t_first t col in
        let gl := if Z.testbit grad_flag 0 then xi (first - 2)%nat else 0 in
        let gr := if Z.testbit grad_flag 1 then xi (first - 1)%nat else 0 in
        match fm with
        | FUnknown => None
        | FAnalytic | FEqDist => Some (call_ed t xi col gl gr d2)
        | FNonEqDist => Some (call_ne t xi col gl gr d2)
        | FKim => Some d2
        end
    end) s.
(** force_elstat.c:223-246, force_eam_elstat.c:232-282 ([right]: the loop over F); the case
    NON_EQ_DIST has no break and runs into the error of the next case *)
Definition update_elstat (fm : format) (t : tabs) (xi : arr) (start num : nat) (right : bool)
    (s : option arr) : option arr :=
  for_up start (start + num) (fun col s =>
    match s with
    | None => None
    | Some d2 =>
        let first := t_first t col in
        let gr := if right then xi (first - 1)%nat else 0 in
        match fm with
        | FUnknown => None
        | FAnalytic | FEqDist => Some (call_ed t xi col (xi (first - 2)%nat) gr d2)
        | FNonEqDist | FKim => None
        end
    end) s.
(** force_ang.c:197-214, force_ang_elstat.c:230-246, force_meam.c:214-230 *)
Definition update_angular (t : tabs) (xi : arr) (num : nat) (s : option arr) : option arr :=
  for_up 0 num (fun col s =>
    match s with
    | None => None
    | Some d2 => let first := t_first t col in
        Some (call_ed t xi col (xi (first - 2)%nat) (xi (first - 1)%nat) d2)
    end) s.

Inductive routine := Pairs | Eam | Tbeam | Adp | Elstat | EamElstat | Ang | AngElstat | Meam.
(** [pc]: paircol, [nt]: ntypes; force_pair.c:167, force_eam.c:179-192, force_adp.c:178-188 *)
Definition renew (k : routine) (fm : format) (t : tabs) (pc nt : nat) (xi d2 : arr) : option arr :=
  let s := Some d2 in
  match k with
  | Pairs => update_splines fm t xi 0 pc 1 s
  | Eam => update_splines fm t xi (pc + nt) nt 3 (update_splines fm t xi 0 (pc + nt) 1 s)
  | Tbeam => update_splines fm t xi (pc + 3 * nt) nt 3 (update_splines fm t xi (pc + 2 * nt) nt 1
               (update_splines fm t xi (pc + nt) nt 3 (update_splines fm t xi 0 (pc + nt) 1 s)))
  | Adp => update_splines fm t xi (pc + 2 * nt) (2 * pc) 1
             (update_splines fm t xi (pc + nt) nt 3 (update_splines fm t xi 0 (pc + nt) 1 s))
  | Elstat => update_elstat fm t xi 0 pc false s
  | EamElstat => update_elstat fm t xi (pc + nt) nt true (update_elstat fm t xi 0 (pc + nt) false s)
  | Ang | AngElstat => update_angular t xi (2 * pc + nt) s
  | Meam => update_angular t xi (2 * pc + 3 * nt) s
  end%nat.
