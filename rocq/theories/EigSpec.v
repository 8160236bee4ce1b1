(** What LAPACK promises, eigenvectors, chains of better fits. *)
From Coq Require Import Reals List Arith ZArith.
From Verif Require Import UqSpec.
Open Scope R_scope.

Definition symmetric (n : nat) (h : nat -> nat -> R) : Prop :=
  forall i j, (i < n)%nat -> (j < n)%nat -> h i j = h j i.
(** component i of matrix times vector *)
Definition apply (n : nat) (h : nat -> nat -> R) (v : nat -> R) (i : nat) : R := sumr (fun j => h i j * v j) n.
Definition orthonormal (n : nat) (v : nat -> nat -> R) : Prop :=
  forall a b, (a < n)%nat -> (b < n)%nat ->
    sumr (fun i => v a i * v b i) n = if (a =? b)%nat then 1 else 0.
(** row k of [v] is an eigenvector for [w k] *)
Definition eigenpairs (n : nat) (h v : nat -> nat -> R) (w : nat -> R) : Prop :=
  orthonormal n v /\ forall k i, (k < n)%nat -> (i < n)%nat -> apply n h (v k) i = w k * v k i.
(** row k of [u] is a singular vector for [s k] of a symmetric matrix *)
Definition singular (n : nat) (h u : nat -> nat -> R) (s : nat -> R) : Prop :=
  orthonormal n u /\ (forall k, (k < n)%nat -> 0 <= s k) /\
  forall k i, (k < n)%nat -> (i < n)%nat -> apply n h (apply n h (u k)) i = s k * s k * u k i.

(** the matrix dsyevx works on for UPLO = 'U': in terms of the C array the lower triangle *)
Definition lower (a : nat -> nat -> R) (i j : nat) : R := a (Nat.max i j) (Nat.min i j).
(** dsyevx with RANGE = 'A', matrices of dimension [n]: on success all eigenvalues are found.
    The triangle of A read is destroyed, the rest is kept.  For INFO > 0 some
    vectors did not converge. *)
Definition syevx_contract (n : nat) (a a' z : nat -> nat -> R) (w : nat -> R) (m info : Z) : Prop :=
  (0 <= info)%Z /\ m = Z.of_nat n /\
  (info = 0%Z -> eigenpairs n (lower a) z w) /\
  forall i j, (i < j)%nat -> a' i j = a i j.
(** dgesvd for a symmetric matrix *)
Definition gesvd_contract (n : nat) (a u : nat -> nat -> R) (s : nat -> R) (info : Z) : Prop :=
  info = 0%Z -> symmetric n a -> singular n a u s.

(** [k] better fits one after the other, each at a point of the difference scheme of the one
    before *)
Inductive chain (n : nat) (cost : (nat -> R) -> R) (d : (nat -> R) -> R -> nat -> R) :
    nat -> (nat -> R) -> R -> (nat -> R) -> R -> Prop :=
| chain_0 : forall x c, chain n cost d 0 x c x c
| chain_S : forall k x c y z e,
    one_step n (d x c) x y \/ opposite_steps n (d x c) x y -> cost y < c ->
    (forall y', one_step n (d x c) x y' \/ opposite_steps n (d x c) x y' -> cost y <= cost y') ->
    chain n cost d k y (cost y) z e -> chain n cost d (S k) x c z e.

(** the difference quotients at [x] with steps [d] *)
Definition shift2 (d x : nat -> R) (i j : nat) (s t : R) (k : nat) : R :=
  if (k =? i)%nat then x k + s * d k else if (k =? j)%nat then x k + t * d k else x k.
Definition shift1 (d x : nat -> R) (i : nat) (s : R) (k : nat) : R :=
  if (k =? i)%nat then x k + s * d k else x k.
Definition second_differences (n : nat) (cost : (nat -> R) -> R) (c : R) (d x : nat -> R) (h : nat -> nat -> R) : Prop :=
  (forall i, (i < n)%nat ->
     h i i = (cost (shift1 d x i 1) - 2 * c + cost (shift1 d x i (-1))) / (d i * d i)) /\
  (forall i j, (i < j < n)%nat ->
     h i j = (cost (shift2 d x i j 1 1) + cost (shift2 d x i j (-1) (-1))
              - cost (shift2 d x i j 1 (-1)) - cost (shift2 d x i j (-1) 1)) / (4 * d i * d j) /\
     h j i = h i j).
