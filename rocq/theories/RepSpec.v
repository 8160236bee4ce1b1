(** Entries of the deviation vector that the error sum leaves out. *)
From Coq Require Import Reals List Arith Bool.
From Verif Require Import Vec PairModel ErrModel ErrSpec.
Import ListNotations.
Open Scope R_scope.

(** squares of the forces of configurations that do not use forces *)
Definition unscored_forces (bld : build) (cs : nat -> conf) (nconf : nat) (d : dev) : R :=
  rsumf (fun ci => if uf (cs ci) then 0 else
    rsumf (fun a => if (negb (CONTRIB bld) || contrib (cs ci) a)%bool then conf_weight (cs ci) * sqv (frc d a) else 0)
          (seq (cnfstart (cs ci)) (inconf (cs ci)))) (seq 0 nconf).
(** squares of the stresses of configurations that do not use forces or stresses *)
Definition unscored_stresses (bld : build) (sweight : R) (cs : nat -> conf) (nconf : nat) (d : dev) : R :=
  rsumf (fun ci => if (uf (cs ci) && us (cs ci))%bool then 0 else if STRESS bld
    then rsumf (fun k => conf_weight (cs ci) * sweight * sq (str d ci k)) (seq 0 6) else 0) (seq 0 nconf).
(** the lines of the report and [rest] add up to the total, and [rest] is what the line of the
    punishments shows (if it is above 0.01 and a fit was done) *)
Definition adds_up (opt : bool) (r : report) (rest : R) : Prop :=
  r_total r = r_forces r + shown (r_energies r) + shown (r_stresses r) + rest /\
  (r_punish r = if Rlt_dec (1 / 100) rest then if opt then Some rest else None else None).
(** the configurations follow one another and atoms[i].conf is right *)
Definition placed (cs : nat -> conf) (nconf : nat) (conf_of : nat -> nat) : Prop :=
  cnfstart (cs O) = O /\
  forall ci a, (ci < nconf)%nat -> (cnfstart (cs ci) <= a < cnfstart (cs ci) + inconf (cs ci))%nat -> conf_of a = ci.
