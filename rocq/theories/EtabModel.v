(** The tables of the error report: .force, .energy, .stress and .punish, src/errors.c:273-551.
    Numbers are written exactly; a quotient by zero is [None].  Titles, numbers of atoms and
    names of elements are left out. *)
From Coq Require Import Reals List Arith Bool.
From Verif Require Import Vec PairModel EamModel ErrModel.
Import ListNotations.
Local Open Scope R_scope.

Definition over (a b : R) : option R := if Req_EM_T b 0 then None else Some (a / b).
(** one line: weight of the configuration (missing for forces), weighted square, calculated value,
    reference, deviation (only in the file of the energies), relative deviation *)
Record line := Line { l_weight : option R; l_square : option R; l_value : R; l_ref : R; l_dev : option R; l_rel : option R }.

Section Tables.
Variable bld : build.
Variables eweight sweight : R.
Variables natoms nconf : nat.
Variable cs : nat -> conf.
Variable conf_of : nat -> nat.
Variable d : dev.

(** 297-333 *)
Definition force_line (i : nat) : line :=
  let a := (i / 3)%nat in let k := (i mod 3)%nat in
  let x := comp (frc d a) k in let x0 := comp (force_0 (at_conf cs conf_of a) a) k in
  let sqr := if (CONTRIB bld && negb (contrib (at_conf cs conf_of a) a))%bool then 0 else conf_weight (at_conf cs conf_of a) * sq x in
  Line None (Some sqr) (undone bld cs conf_of a x + x0) x0 None (over x x0).
Definition force_table : list line := map force_line (seq 0 (3 * natoms)).
(** 377-399; [file]: write_output_files *)
Definition energy_line (file : bool) (i : nat) : line :=
  let x := en d i in let x0 := energy_0 (cs i) in
  let sqr := conf_weight (cs i) * eweight * sq x in
  if file then Line (Some (conf_weight (cs i))) (over sqr (conf_weight (cs i))) (x + x0) x0 (Some x) (over x x0)
  else Line (Some (conf_weight (cs i))) (Some sqr) (x + x0) x0 None (over x x0).
(** 351-354: no table without weight *)
Definition energy_table (file : bool) : list line := if Req_EM_T eweight 0 then [] else map (energy_line file) (seq 0 nconf).
(** 452-460 *)
Definition stress_line (i : nat) : line :=
  let x := str d (i / 6) (i mod 6) in let x0 := stress_0 (cs (i / 6)) (i mod 6) in
  Line (Some (conf_weight (cs (i / 6)))) (Some (conf_weight (cs (i / 6)) * sweight * sq x)) (x + x0) x0 None (over x x0).
Definition stress_table : list line := if STRESS bld then if Req_EM_T sweight 0 then [] else map stress_line (seq 0 (6 * nconf)) else [].
End Tables.

(** 500-541 of builds without NOPUNISH, in the file: limits (square, punishment), then
    U^2, U'^2, U, U' of each element, and the additional punishment of builds without RESCALE *)
Record punishments := Punishments { p_limits : list (R * R); p_dummy : list (R * R * R * R); p_added : option R }.
Definition punish_file (bld : ebuild) (nconf ntypes : nat) (limit_0 : nat -> R) (s : est) : punishments :=
  Punishments (map (fun i => (sq (lim s i), lim s i + limit_0 i)) (seq 0 nconf))
    (map (fun i => if RESCALE bld then (sq (dum s (i + ntypes)%nat), sq (dum s i), dum s (i + ntypes)%nat, dum s i)
                   else (0, sq (dum s i), 0, dum s i)) (seq 0 ntypes))
    (if RESCALE bld then None else Some (sq (dum s ntypes))).
