(** Start temperature of the annealing: get_annealing_temperature, src/simann.c:130-181.

    Costs are real numbers.  The trial steps 147-159 start from the same parameters each time
    (148); they enter with their costs, in order.  The other branch (174-177) is atof. *)
From Coq Require Import Reals List Floats.SpecFloat.
Import ListNotations.
Local Open Scope R_scope.

(** 154-158: m1 and dF *)
Definition trial (F : R) (a : nat * R) (F_new : R) : nat * R :=
  if Rle_dec F_new F then (S (fst a), snd a) else (fst a, snd a + (F_new - F)).
(** 138-172; [None]: T is not a number or infinite, 167-168.  A cost that is not a number (left out
    here) would end in the same error.  u is 10 * ndim, the number of trials *)
Definition auto_temperature (F : R) (costs : list R) : option R :=
  let chi := 4 / 5 in
  let '(m1, dF) := fold_left (trial F) costs (0%nat, 0) in
  let u := (length costs - m1)%nat in
  if Nat.eqb u 0 then None                         (* 0.0 / 0 *)
  else
    let dF := dF / INR u in
    let l := ln (INR u / (INR u * chi + (1 - chi) * INR m1)) in
    if Req_EM_T l 0 then None                      (* dF / 0.0 *)
    else let T := dF / l in
    Some (if Rlt_dec T 0 then - T else T).
(** 174-177 with the number read; [None]: error *)
Definition given_temperature (T : R) : option R := if Rlt_dec T 0 then None else Some T.

(** the argument of the logarithm with binary64 numbers, 0.8 = 3602879701896397 / 2^52 *)
Definition f64 (m : positive) (e : Z) : spec_float := S754_finite false m e.
Definition chi64 : spec_float := f64 7205759403792794 (-53).
Definition one64 : spec_float := f64 4503599627370496 (-52).
Definition arg64 (u m1 : spec_float) : spec_float :=
  SFdiv 53 1024 u (SFadd 53 1024 (SFmul 53 1024 u chi64) (SFmul 53 1024 (SFsub 53 1024 one64 chi64) m1)).
