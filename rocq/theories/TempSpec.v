(** Share of accepted steps. *)
From Coq Require Import Reals List.
Import ListNotations.
Local Open Scope R_scope.

(** trial steps that do not raise the cost, and the rises of the others *)
Definition downhill (F : R) (costs : list R) : nat := length (filter (fun x => if Rle_dec x F then true else false) costs).
Definition rises (F : R) (costs : list R) : list R := map (fun x => x - F) (filter (fun x => if Rle_dec x F then false else true) costs).
Definition mean (l : list R) : R := fold_right Rplus 0 l / INR (length l).
(** share of accepted steps at temperature T, the rises replaced by their mean (simann.c:372:
    a rise d is accepted with probability exp(-d/T)) *)
Definition share (F : R) (costs : list R) (T : R) : R :=
  (INR (downhill F costs) + INR (length (rises F costs)) * exp (- mean (rises F costs) / T)) / INR (length costs).
