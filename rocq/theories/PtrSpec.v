(** Where the parameters of a potential are in the array of all parameters: two entries, the
    parameters of column 0, two entries, the parameters of column 1, ...  (opt_pot.first of
    src/potential_input_f0.c); the values of the global parameters start at gidx. *)
From Coq Require Import ZArith List Bool Arith.
From Verif Require Import PairIndexModel.
Import ListNotations.
Local Open Scope Z_scope.

Section Layout.
Variable size : nat -> nat.           (* number of parameters of a column *)
Fixpoint first (col : nat) : Z := match col with O => 2 | S c => first c + Z.of_nat (size c) + 2 end.
Variables (gidx : Z) (g : list (list (nat * nat))).
(** parameter (col, p) is an instance of global parameter j *)
Definition instance (j col p : nat) : Prop := exists l, nth_error g j = Some l /\ In (col, p) l.
(** the place of parameter (col, p) *)
Definition place (col p : nat) (a : Z) : Prop :=
  (forall j, instance j col p -> a = gidx + Z.of_nat j) /\
  ((forall j, ~ instance j col p) -> a = first col + Z.of_nat p).
(** a sensible list of global parameters *)
Definition consistent : Prop :=
  (forall j col p, instance j col p -> (p < size col)%nat) /\
  (forall j j' col p, instance j col p -> instance j' col p -> j = j').
End Layout.

(** Stillinger-Weber with n types: pair columns, three-body columns, the column of the lambdas *)
Definition npair (n : nat) : nat := Z.to_nat (paircol (Z.of_nat n)).
Definition sw_size (n col : nat) : nat :=
  if Nat.ltb col (npair n) then 6%nat else if Nat.ltb col (2 * npair n) then 2%nat
  else if Nat.eqb col (2 * npair n) then (n * npair n)%nat else 0%nat.
Definition lambda_par (n i j k : nat) : nat := (i * npair n + Z.to_nat (pair_index (Z.of_nat n) (Z.of_nat j) (Z.of_nat k)))%nat.
(** Tersoff: pair columns, a column of chi and omega for each pair of different types *)
Definition ter_size (np n col : nat) : nat := if Nat.ltb col (npair n) then np else if Nat.ltb col (n * n) then 2%nat else 0%nat.
(** column of chi and omega of the types a < b: the mixed pairs are numbered without the a + 1 equal pairs before them *)
Definition mix_col (n a b : nat) : nat := (npair n + (Z.to_nat (pair_index (Z.of_nat n) (Z.of_nat a) (Z.of_nat b)) - (a + 1)))%nat.
(** arrays of the parameters do not overlap: equal or at least len apart *)
Definition apart (len : Z) (xs : list Z) : Prop := forall x y, In x xs -> In y xs -> x = y \/ x + len <= y \/ y + len <= x.
