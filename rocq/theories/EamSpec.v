(** Textbook embedded-atom model of a periodic structure, over the list of all neighbours
    of every atom.  [nbd] bands; [E], [dE] are the embedding functions and their slopes. *)
From Coq Require Import Reals ZArith List Bool.
From Verif Require Import Vec NbrModel PairModel PairSpec.
Import ListNotations.
Local Open Scope R_scope.

Section Spec.
Variables (c : conf) (pos : nat -> vec) (bx : box).
Variable nbd : nat.
Variables dens ddens : nat -> nat -> R -> R.
Variable reach : nat -> nat -> R -> bool.
Variables E dE : nat -> nat -> R -> R.
Variable L : nat -> list (nat * image).
(** density at atom [a]: every neighbour gives the transfer function of its own type *)
Definition density (k a : nat) : R :=
  rsumf (fun v => if reach k (typ c (fst v)) (dist pos bx a v) then dens k (typ c (fst v)) (dist pos bx a v) else 0) (L a).
Definition embed_energy : R :=
  rsumf (fun a => rsumf (fun k => E k (typ c a) (density k a)) (seq 0 nbd)) (seq (cnfstart c) (inconf c)).
Definition slope (k a : nat) : R := dE k (typ c a) (density k a).
Definition dtrans (k t : nat) (r : R) : R := if reach k t r then ddens k t r else 0.
(** force on [a] by the embedding of [a] and of its neighbour *)
Definition embed_bond (a : nat) (v : nat * image) : vec :=
  vscale (rsumf (fun k => dtrans k (typ c (fst v)) (dist pos bx a v) * slope k a +
                          dtrans k (typ c a) (dist pos bx a v) * slope k (fst v)) (seq 0 nbd) / dist pos bx a v) (dvec pos bx a v).
Definition embed_force (a : nat) : vec := vsum (embed_bond a) (L a).
Definition embed_virial (k : nat) : R :=
  - (1/2 * rsumf (fun a => rsumf (fun v => stress_of (dvec pos bx a v) (embed_bond a v) k) (L a)) (seq (cnfstart c) (inconf c))).
End Spec.
