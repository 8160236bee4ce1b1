(** Neighbours within reach. *)
From Coq Require Import Reals List.
From Verif Require Import Vec NbrModel PairModel LammpsModel.
Import ListNotations.
Local Open Scope R_scope.

(** the configuration with the neighbours nearer than [reach] of their column only *)
Definition near (n : nat) (reach : nat -> R) (c : conf) : conf :=
  mk_conf (cnfstart c) (inconf c) (uf c) (us c) (conf_weight c) (conf_vol c)
    (fun i => filter (fun e => if Rlt_dec (n_r e) (reach (col n (typ c i) (n_type e))) then true else false) (nb c i))
    (typ c) (contrib c) (absforce c) (force_0 c) (energy_0 c) (stress_0 c).
Definition typed (n : nat) (c : conf) : Prop :=
  forall i, (typ c i < n)%nat /\ forall e, In e (nb c i) -> (n_type e < n)%nat.
