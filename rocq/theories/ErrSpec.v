(** What an error report should say. *)
From Coq Require Import Reals List.
From Verif Require Import Vec.
Import ListNotations.
Open Scope R_scope.

(** the sum of the lines printed *)
Definition shown (x : option R) : R := match x with Some v => v | None => 0 end.
(** [r] is the root of the mean square of [l] *)
Definition root_mean_square (l : list R) (r : R) : Prop :=
  l <> [] /\ 0 <= r /\ r * r * INR (length l) = rsumf (fun x => x * x) l.
(** Units.  An electron volt is 1.602e-19 J, an Angstrom 1e-10 m, a Pascal J/m^3: the number of
    MPa in one eV/A^3 *)
Definition ev : R := 1602 / 1000 * / 10 ^ 19.
Definition angstrom : R := / 10 ^ 10.
Definition MPa_per_eV_A3 : R := ev / (angstrom * angstrom * angstrom) / 10 ^ 6.
