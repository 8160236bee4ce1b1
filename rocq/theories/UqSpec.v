(** Quadratic functions and points of the difference scheme. *)
From Coq Require Import Reals List Arith.
Open Scope R_scope.

Fixpoint sumr (f : nat -> R) (n : nat) : R :=
  match n with O => 0 | S k => sumr f k + f k end.
(** c + g.y + 1/2 y.A.y *)
Definition quadratic (n : nat) (c : R) (g : nat -> R) (A : nat -> nat -> R) (y : nat -> R) : R :=
  c + sumr (fun k => g k * y k) n + sumr (fun k => y k * sumr (fun l => A k l * y l) n) n / 2.

(** [y] is [x] changed by [s] times [d] in one parameter *)
Definition one_step (n : nat) (d x y : nat -> R) : Prop :=
  exists i s, (i < n)%nat /\ (s = 1 \/ s = -1) /\
    forall k, y k = if (k =? i)%nat then x k + s * d k else x k.
(** changed in two parameters, in opposite directions *)
Definition opposite_steps (n : nat) (d x y : nat -> R) : Prop :=
  exists i j s, (i < n)%nat /\ (j < n)%nat /\ i <> j /\ (s = 1 \/ s = -1) /\
    forall k, y k = if (k =? i)%nat then x k + s * d k else if (k =? j)%nat then x k - s * d k else x k.
(** in the same direction *)
Definition equal_steps (n : nat) (d x y : nat -> R) : Prop :=
  exists i j s, (i < n)%nat /\ (j < n)%nat /\ i <> j /\ (s = 1 \/ s = -1) /\
    forall k, y k = if (k =? i)%nat then x k + s * d k else if (k =? j)%nat then x k + s * d k else x k.

(** ** Monte Carlo *)
(** the move with normal deviates [r] and eigenvalues [W]: along each eigenvector a deviate
    divided by the square root of the eigenvalue *)
Definition trial (n : nat) (resc : R) (v0 : nat -> nat -> R) (W r x : nat -> R) : nat -> R :=
  fun k => if (k <? n)%nat then x k + sumr (fun j => v0 j k * (sqrt resc * r j / sqrt (W j))) n else x k.
(** Metropolis rule at temperature [temp] *)
Definition accepts (n : nat) (temp c0 cb ca u : R) : Prop :=
  ca < cb \/ u <= exp (- (INR n * (ca - cb)) / (2 * c0 * temp)).
