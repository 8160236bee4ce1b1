(** Textbook pair model of a periodic structure, independent of neighbour lists. *)
From Coq Require Import Reals ZArith List Bool.
From Verif Require Import Vec NbrModel NbrProof PairModel.
Import ListNotations.
Local Open Scope R_scope.

(** The configuration [c] has its atoms at [pos] in the box [b]; its neighbour lists are
    the half lists of init_neighbors with a cutoff [rcut] that is symmetric. *)
Record geometry (c : conf) (pos : nat -> vec) (b : box) (rcut : nat -> nat -> R) : Prop := mk_geometry {
  geo_box : exists t rcutmax scale, make_box b = Some (t, conf_vol c) /\ 0 <= rcutmax /\
    init_box_vectors t rcutmax = Some scale /\ (forall s u, rcut s u <= rcutmax) /\
    forall i, (cnfstart c <= i < cnfstart c + inconf c)%nat ->
      init_neighbors (cnfstart c) (inconf c) pos (typ c) b rcut scale false i = Neighbors (nb c i);
  geo_cell : forall i, (cnfstart c <= i < cnfstart c + inconf c)%nat -> in_cell b (pos i);
  geo_sym : forall s u, rcut s u = rcut u s }.

(** [L] lists every atom or image closer to atom [a] than the cutoff, once. *)
Definition all_neighbors (c : conf) (pos : nat -> vec) (b : box) (rcut : nat -> nat -> R) (a : nat) (L : list (nat * image)) : Prop :=
  NoDup L /\ forall j n, In (j, n) L <-> (cnfstart c <= j < cnfstart c + inconf c)%nat /\ bond pos (typ c) b rcut a j n.

Section Spec.
Variables (c : conf) (pos : nat -> vec) (b : box).
Variables phi dphi : nat -> nat -> R -> R.
Variable in_range : nat -> nat -> R -> bool.
Definition dvec (a : nat) (v : nat * image) : vec := displacement pos b a (fst v) (snd v).
Definition dist (a : nat) (v : nat * image) : R := norm (dvec a v).
Definition active (a : nat) (v : nat * image) : bool := in_range (typ c a) (typ c (fst v)) (dist a v).
Definition vsum {A} (f : A -> vec) (l : list A) : vec :=
  V3 (rsumf (fun x => vx (f x)) l) (rsumf (fun x => vy (f x)) l) (rsumf (fun x => vz (f x)) l).
(** energy of a bond; force on [a] by the bond *)
Definition bond_energy (a : nat) (v : nat * image) : R :=
  if active a v then phi (typ c a) (typ c (fst v)) (dist a v) else 0.
Definition bond_force (a : nat) (v : nat * image) : vec :=
  if active a v then vscale (dphi (typ c a) (typ c (fst v)) (dist a v) / dist a v) (dvec a v) else v0.
Definition pair_force (L : nat -> list (nat * image)) (a : nat) : vec := vsum (bond_force a) (L a).
Definition pair_energy (L : nat -> list (nat * image)) : R :=
  1/2 * rsumf (fun a => rsumf (bond_energy a) (L a)) (seq (cnfstart c) (inconf c)).
(** virial, component k = xx yy zz xy yz zx *)
Definition pair_virial (L : nat -> list (nat * image)) (k : nat) : R :=
  - (1/2 * rsumf (fun a => rsumf (fun v => stress_of (dvec a v) (bond_force a v) k) (L a)) (seq (cnfstart c) (inconf c))).
End Spec.
