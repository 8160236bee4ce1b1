(** Textbook bond-order model of a periodic structure: the bond of atom a with its neighbour v
    has the energy P(r) b(zeta), where zeta sums a function of the two distances and the
    cosine of the angle over all other neighbours of a. *)
From Coq Require Import Reals ZArith List Bool.
From Verif Require Import Vec NbrModel NbrProof PairModel PairSpec ThreeSpec.
Import ListNotations.
Local Open Scope R_scope.

Section Bo.
Variables (c : conf) (pos : nat -> vec) (b : box).
(** functions of the types of the two atoms of the bond *)
Variables P P' : nat -> nat -> R -> R.
Variables bo bo' : nat -> nat -> R -> R.
(** types of a, v, w; distances to v and w, cosine; derivatives *)
Variables q q1 q2 qc : nat -> nat -> nat -> R -> R -> R -> R.
Variable L : nat -> list (nat * image).
Notation d := (dvec pos b).
Notation r := (dist pos b).
Notation at' f a v := (f (typ c a) (typ c (fst v))).
Definition zeta (a : nat) (v : nat * image) : R := rsumf (at_ c pos b q a v) (others L a v).
Definition bo_bond (a : nat) (v : nat * image) : R := at' P a v (r a v) * at' bo a v (zeta a v).
(** gradient of the cosine with respect to the position of v *)
Definition cos_grad (a : nat) (v w : nat * image) : vec :=
  vsub (vscale (1 / (r a v * r a w)) (d a w)) (vscale (cosine pos b a v w / (r a v * r a v)) (d a v)).
(** gradient of the energy of the bond with v with respect to the positions of v and of w *)
Definition grad_own (a : nat) (v : nat * image) : vec :=
  vadd (vscale (at' P' a v (r a v) * at' bo a v (zeta a v) / r a v) (d a v))
       (vscale (at' P a v (r a v) * at' bo' a v (zeta a v))
          (vsum (fun w => vadd (vscale (at_ c pos b q1 a v w / r a v) (d a v)) (vscale (at_ c pos b qc a v w) (cos_grad a v w))) (others L a v))).
Definition grad_other (a : nat) (v w : nat * image) : vec :=
  vscale (at' P a v (r a v) * at' bo' a v (zeta a v))
    (vadd (vscale (at_ c pos b q2 a v w / r a w) (d a w)) (vscale (at_ c pos b qc a v w) (cos_grad a w v))).
(** of all bonds of a, with respect to v *)
Definition bo_grad (a : nat) (v : nat * image) : vec := vadd (grad_own a v) (vsum (fun w => grad_other a w v) (others L a v)).

Definition bo_energy : R := rsumf (fun a => rsumf (bo_bond a) (L a)) (seq (cnfstart c) (inconf c)).
(** as the centre and as a neighbour *)
Definition bo_force (a : nat) : vec :=
  vsub (vsum (bo_grad a) (L a))
       (vsum (fun i => vsum (fun v => if Nat.eqb (fst v) a then bo_grad i v else v0) (L i)) (seq (cnfstart c) (inconf c))).
Definition bo_virial (k : nat) : R :=
  - rsumf (fun a => rsumf (fun v => stress_of (d a v) (bo_grad a v) k) (L a)) (seq (cnfstart c) (inconf c)).
End Bo.
