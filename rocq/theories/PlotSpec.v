(** What a file for plotting has to show. *)
From Coq Require Import Reals List.
Import ListNotations.
Local Open Scope R_scope.

(** N points of the graph of f, equidistant, from b to e *)
Definition graph (l : list (R * R)) (N : nat) (b e : R) (f : R -> R) : Prop :=
  length l = N /\
  forall k, (k < N)%nat -> nth_error l k = Some (b + INR k * ((e - b) / INR (N - 1)), f (b + INR k * ((e - b) / INR (N - 1)))).
(** ... with the number 0 at the last *)
Definition graph_zero (l : list (R * R)) (N : nat) (b e : R) (f : R -> R) : Prop :=
  length l = N /\ nth_error l (N - 1) = Some (e, 0) /\
  forall k, (k + 1 < N)%nat -> nth_error l k = Some (b + INR k * ((e - b) / INR (N - 1)), f (b + INR k * ((e - b) / INR (N - 1)))).
