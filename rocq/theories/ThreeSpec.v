(** Textbook three-body model of a periodic structure: every atom a sums a function h of the
    two distances and the cosine of the angle over the pairs of its neighbours. *)
From Coq Require Import Reals ZArith List Bool.
From Verif Require Import Vec NbrModel NbrProof PairModel PairSpec.
Import ListNotations.
Local Open Scope R_scope.

(** As [geometry], with the full lists of the three-body models. *)
Record full_geometry (c : conf) (pos : nat -> vec) (b : box) (rcut : nat -> nat -> R) : Prop := mk_full_geometry {
  fg_box : exists t rcutmax scale, make_box b = Some (t, conf_vol c) /\ 0 <= rcutmax /\
    init_box_vectors t rcutmax = Some scale /\ (forall s u, rcut s u <= rcutmax) /\
    forall i, (cnfstart c <= i < cnfstart c + inconf c)%nat ->
      init_neighbors (cnfstart c) (inconf c) pos (typ c) b rcut scale true i = Neighbors (nb c i);
  fg_cell : forall i, (cnfstart c <= i < cnfstart c + inconf c)%nat -> in_cell b (pos i);
  fg_sym : forall s u, rcut s u = rcut u s }.

Definition same (v w : nat * image) : bool :=
  let '(j, (x, y, z)) := v in
  let '(j', (x', y', z')) := w in
  (Nat.eqb j j' && Z.eqb x x' && Z.eqb y y' && Z.eqb z z')%bool.

Section Three.
Variables (c : conf) (pos : nat -> vec) (b : box).
(** function of the types of the atom and two neighbours, two distances and the cosine;
    derivatives with respect to the first distance and to the cosine *)
Variables h h1 hc : nat -> nat -> nat -> R -> R -> R -> R.
Notation d := (dvec pos b).
Notation r := (dist pos b).
Definition cosine (a : nat) (v w : nat * image) : R := sprod (d a v) (d a w) / (r a v * r a w).
Definition at_ (f : nat -> nat -> nat -> R -> R -> R -> R) (a : nat) (v w : nat * image) : R :=
  f (typ c a) (typ c (fst v)) (typ c (fst w)) (r a v) (r a w) (cosine a v w).
(** gradient of the term of v and w with respect to the position of v *)
Definition tri_grad (a : nat) (v w : nat * image) : vec :=
  vadd (vscale (at_ h1 a v w / r a v - at_ hc a v w * cosine a v w / (r a v * r a v)) (d a v))
       (vscale (at_ hc a v w / (r a v * r a w)) (d a w)).

Variable L : nat -> list (nat * image).
Definition others (a : nat) (v : nat * image) : list (nat * image) := filter (fun w => negb (same v w)) (L a).
(** every pair of neighbours once *)
Definition three_energy : R :=
  rsumf (fun a => 1/2 * rsumf (fun v => rsumf (at_ h a v) (others a v)) (L a)) (seq (cnfstart c) (inconf c)).
(** force on a: as the centre and as a neighbour *)
Definition three_force (a : nat) : vec :=
  vsub (vsum (fun v => vsum (tri_grad a v) (others a v)) (L a))
       (vsum (fun i => vsum (fun v => if Nat.eqb (fst v) a then vsum (tri_grad i v) (others i v) else v0) (L i)) (seq (cnfstart c) (inconf c))).
Definition three_virial (k : nat) : R :=
  - rsumf (fun a => rsumf (fun v => rsumf (fun w => stress_of (d a v) (tri_grad a v w) k) (others a v)) (L a)) (seq (cnfstart c) (inconf c)).
End Three.
