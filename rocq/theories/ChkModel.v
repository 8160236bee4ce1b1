(** Checks of analytic potentials before the fit: check_correct_apot_functions,
    src/functions.c:168-257, called by read_pot_table0 (src/potential_input_f0.c:306).
    [names], [pmin], [pmax], [endr]: names, limits and cutoff of the functions (apot_table).
    Real numbers; [true]: no error.  In other builds the function is empty. *)
From Coq Require Import Reals List Bool String.
From Verif Require Import LammpsModel.
Import ListNotations.
Local Open Scope R_scope.

Section Chk.
Variable n : nat.                     (* ntypes *)
Variable names : nat -> string.
Variables pmin pmax : nat -> nat -> R.
Variable endr : nat -> R.

Definition not_gt (x y : R) : bool := if Rlt_dec y x then false else true.
Definition not_lt (x y : R) : bool := if Rlt_dec x y then false else true.

(** 174-209, STIWEB *)
Definition check_stiweb : bool :=
  (forallb (fun i => String.eqb (names i) "stiweb_2" && String.eqb (names (pcol n + i)%nat) "stiweb_3") (seq 0 (pcol n)) &&
   String.eqb (names (2 * pcol n)%nat) "lambda" &&
   forallb (fun i => not_gt (pmax i 5%nat) (endr i) && not_gt (pmax (pcol n + i)%nat 1%nat) (endr (pcol n + i)%nat)) (seq 0 (pcol n)))%bool%string.
(** 212-238, TERSOFF; ntypes * (ntypes - 1) is even *)
Definition check_tersoff : bool :=
  (forallb (fun i => String.eqb (names i) "tersoff_pot") (seq 0 (pcol n)) &&
   forallb (fun i => String.eqb (names (pcol n + i)%nat) "tersoff_mix") (seq 0 (n * (n - 1) / 2)) &&
   forallb (fun i => not_lt (pmax i 9%nat) (pmin i 10%nat)) (seq 0 (pcol n)))%bool%string.
(** 239-256, TERSOFFMOD *)
Definition check_tersoffmod : bool :=
  (forallb (fun i => String.eqb (names i) "tersoff_mod_pot") (seq 0 (pcol n)) &&
   forallb (fun i => not_lt (pmax i 15%nat) (pmin i 14%nat)) (seq 0 (pcol n)))%bool%string.
End Chk.
