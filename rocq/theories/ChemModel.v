(** Chemical potential for any number of types, chempot.c:83-90, 128-170.  The case of two
    types (92-127) is in FuncModel.  Without CN (potential_input_f0.c:400) there are no
    composition nodes. *)
From Coq Require Import Reals List.
From Verif Require Import FuncModel.
Local Open Scope R_scope.

(** chemical_potential_1d, 83-90 *)
Definition chemical_potential_1d (na : nat -> nat) (values : nat -> R) : R := INR (na 0%nat) * values 0%nat.
(** chemical_potential_multidim, 133-141; [rem]: passes left *)
Fixpoint multidim_from (rem i : nat) (na : nat -> nat) (values : nat -> R) (temp : R) : R :=
  match rem with
  | O => temp
  | S rem => multidim_from rem (S i) na values (temp + INR (na i) * values i)
  end.
Definition chemical_potential_multidim (dim : nat) (na : nat -> nat) (values : nat -> R) : R :=
  multidim_from dim 0 na values 0.
(** chemical_potential, 158-170 *)
Definition chemical_potential (nodes : list R) (dim : nat) (na : nat -> nat) (values : nat -> R) : R :=
  if Nat.eqb dim 1 then chemical_potential_1d na values
  else if Nat.eqb dim 2 then chemical_potential_2d nodes values (na 0%nat) (na 1%nat)
  else if Nat.leb 3 dim then chemical_potential_multidim dim na values
  else 0.
