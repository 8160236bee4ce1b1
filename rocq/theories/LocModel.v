(** Model of the report of the local electron densities, src/errors.c:212-269
    (write_local_electron_density; builds with EAM or ADP and without MPI and MEAM).

    [type_of i], [rho i] are atoms[i].type and atoms[i].rho as the last call of the force
    routine left them (with TBEAM: of the first band; rho_s is not written); [na t] is
    na_type[nconf][t].  Numbers are reals, the texts and the file are not modelled.  The
    array totdens has ntypes entries: an atom whose type is not below ntypes would be written
    behind it, [totals] is a function on all types and does not show this. *)
From Coq Require Import Reals List.
From Verif Require Import Vec PairModel EtabModel.
Import ListNotations.
Local Open Scope R_scope.

Section Loc.
Variables ntypes natoms : nat.
Variable type_of : nat -> nat.
Variable rho : nat -> R.
Variable na : nat -> nat.

(** 240-244: number, type and density of every atom *)
Definition lines : list (nat * nat * R) := map (fun i => (i, type_of i, rho i)) (seq 0 natoms).
(** 232-233, 249 *)
Definition totals : nat -> R :=
  fold_left (fun f i => setf f (type_of i) (f (type_of i) + rho i)) (seq 0 natoms) (fun _ => 0).
(** 254-259; [None]: division by zero, printed as nan or inf *)
Definition averages : list (option R) := map (fun t => over (totals t) (INR (na t))) (seq 0 ntypes).
End Loc.
