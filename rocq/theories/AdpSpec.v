(** Textbook angular dependent potential (Mishin, Mehl and Papaconstantopoulos 2005) of a
    periodic structure, over the list of all neighbours of every atom: dipole vectors,
    quadrupole matrices, their energy and the forces of it. *)
From Coq Require Import Reals ZArith List Bool.
From Verif Require Import Vec NbrModel PairModel PairSpec.
Import ListNotations.
Local Open Scope R_scope.

Section Spec.
Variables (c : conf) (pos : nat -> vec) (bx : box).
Variables u du : nat -> nat -> R -> R.
Variable u_range : nat -> nat -> R -> bool.
Variables w dw : nat -> nat -> R -> R.
Variable w_range : nat -> nat -> R -> bool.
Variable L : nat -> list (nat * image).
Definition cut (f : nat -> nat -> R -> R) (rg : nat -> nat -> R -> bool) (a : nat) (v : nat * image) : R :=
  if rg (typ c a) (typ c (fst v)) (dist pos bx a v) then f (typ c a) (typ c (fst v)) (dist pos bx a v) else 0.
(** component 0, 1, 2 of a vector *)
Definition co (v : vec) (k : nat) : R := match k with 0%nat => vx v | 1%nat => vy v | _ => vz v end.
(** sum of u(r) d, sum of w(r) d_k d_l *)
Definition dipole (a : nat) : vec := vsum (fun v => vscale (cut u u_range a v) (dvec pos bx a v)) (L a).
Definition quadrupole (a k l : nat) : R :=
  rsumf (fun v => cut w w_range a v * (co (dvec pos bx a v) k * co (dvec pos bx a v) l)) (L a).
Definition nu_of (a : nat) : R := quadrupole a 0 0 + quadrupole a 1 1 + quadrupole a 2 2.
Definition adp_energy : R :=
  1/2 * rsumf (fun a => sqv (dipole a)) (seq (cnfstart c) (inconf c)) +
  1/2 * rsumf (fun a => rsumf (fun k => rsumf (fun l => sq (quadrupole a k l)) (seq 0 3)) (seq 0 3)) (seq (cnfstart c) (inconf c)) -
  1/6 * rsumf (fun a => sq (nu_of a)) (seq (cnfstart c) (inconf c)).
(** force on [a] by the dipoles of [a] and of its neighbour *)
Definition dipole_bond (a : nat) (v : nat * image) : vec :=
  let d := dvec pos bx a v in
  let m := vsub (dipole a) (dipole (fst v)) in
  vadd (vscale (cut u u_range a v) m) (vscale (cut du u_range a v * sprod m d / dist pos bx a v) d).
(** and by their quadrupoles *)
Definition quad_mul (a : nat) (d : vec) : vec :=
  let q k := quadrupole a k 0 * vx d + quadrupole a k 1 * vy d + quadrupole a k 2 * vz d in V3 (q 0%nat) (q 1%nat) (q 2%nat).
Definition quadrupole_bond (a : nat) (v : nat * image) : vec :=
  let d := dvec pos bx a v in
  let r := dist pos bx a v in
  let m := vadd (quad_mul a d) (quad_mul (fst v) d) in
  let n := (nu_of a + nu_of (fst v)) / 3 in
  vadd (vscale (2 * cut w w_range a v) (vsub m (vscale n d)))
       (vscale (cut dw w_range a v * (sprod m d - n * (r * r)) / r) d).
Definition adp_bond (a : nat) (v : nat * image) : vec := vadd (dipole_bond a v) (quadrupole_bond a v).
Definition adp_force (a : nat) : vec := vsum (adp_bond a) (L a).
Definition adp_virial (k : nat) : R :=
  - (1/2 * rsumf (fun a => rsumf (fun v => stress_of (dvec pos bx a v) (adp_bond a v) k) (L a)) (seq (cnfstart c) (inconf c))).
End Spec.

(** What the stress of the routine has too much: a term for every bond of an atom to an image
    of itself. *)
Section Own.
Variables (c : conf) (pos : nat -> vec) (bx : box).
Variables w dw : nat -> nat -> R -> R.
Variable w_range : nat -> nat -> R -> bool.
Variable L : nat -> list (nat * image).
Definition own_bond (a : nat) (v : nat * image) : vec :=
  let d := dvec pos bx a v in
  let m := quad_mul c pos bx w w_range L a d in
  vadd (vscale (cut c pos bx w w_range a v) m)
       (vscale (1/2 * cut c pos bx dw w_range a v * sprod m d / dist pos bx a v) d).
Definition own_virial (k : nat) : R :=
  rsumf (fun a => rsumf (fun v => if Nat.eqb (fst v) a then stress_of (dvec pos bx a v) (own_bond a v) k else 0) (L a))
    (seq (cnfstart c) (inconf c)).
End Own.
