(** Textbook MEAM of a periodic structure: the density at an atom is the sum of a transfer
    function over its neighbours and of f(r1) f(r2) g(cos) over the pairs of its neighbours. *)
From Coq Require Import Reals ZArith List Bool.
From Verif Require Import Vec NbrModel PairModel PairSpec ThreeSpec AngSpec.
Import ListNotations.
Local Open Scope R_scope.

(** an embedding function and its slope as continued beyond its table; [rescale], [apot] are
    the build options *)
Definition continued (rescale apot : bool) (F dF FA dFA : R -> R) (fbegin fend fstep : R) (x : R) : R * R :=
  if rescale then
    let y := if Rlt_dec x fbegin then fbegin else if Rlt_dec fend x then fend else x in (F y, dF y)
  else if apot then
    if Rle_dec fbegin x then if Rle_dec x fend then if Rle_dec (1 / 10) x then (F x, dF x) else (FA x, dFA x) else (FA x, dFA x) else (FA x, dFA x)
  else
    if Rlt_dec x fbegin then (F fbegin + (x - fbegin) * dF fbegin, dF fbegin)
    else if Rlt_dec fend x then let y := fend - 1 / 2 * fstep in (F y + (x - fend) * dF y, dF y)
    else (F x, dF x).
(** how far outside of the table *)
Definition excess (fbegin fend x : R) : R :=
  if Rlt_dec x fbegin then fbegin - x else if Rlt_dec fend x then x - fend else 0.
Definition clamped (fbegin fend x : R) : R :=
  if Rlt_dec x fbegin then fbegin else if Rlt_dec fend x then fend else x.

Section Spec.
Variables (c : conf) (pos : nat -> vec) (b : box).
Variables dens ddens : nat -> R -> R.
Variable reach : nat -> R -> bool.
Variables f df : nat -> nat -> R -> R.
Variable in2 : nat -> nat -> R -> bool.
Variables g dg : nat -> R -> R.
Variables E dE : nat -> R -> R.
Variable L : nat -> list (nat * image).
Definition meam_density (a : nat) : R :=
  rsumf (fun v => if reach (typ c (fst v)) (dist pos b a v) then dens (typ c (fst v)) (dist pos b a v) else 0) (L a) +
  1/2 * rsumf (fun v => rsumf (at_ c pos b (ang f in2 g) a v) (others L a v)) (L a).
Definition meam_energy : R := rsumf (fun a => E (typ c a) (meam_density a)) (seq (cnfstart c) (inconf c)).
(** gradient of the density of a with respect to the position of its neighbour v *)
Definition density_grad (a : nat) (v : nat * image) : vec :=
  vadd (vscale ((if reach (typ c (fst v)) (dist pos b a v) then ddens (typ c (fst v)) (dist pos b a v) else 0) / dist pos b a v) (dvec pos b a v))
       (vsum (tri_grad c pos b (ang1 f df in2 g) (angc f in2 dg) a v) (others L a v)).
Definition meam_grad (a : nat) (v : nat * image) : vec := vscale (dE (typ c a) (meam_density a)) (density_grad a v).
(** as the centre and as a neighbour *)
Definition meam_force (a : nat) : vec :=
  vsub (vsum (meam_grad a) (L a))
       (vsum (fun i => vsum (fun v => if Nat.eqb (fst v) a then meam_grad i v else v0) (L i)) (seq (cnfstart c) (inconf c))).
Definition meam_virial (k : nat) : R :=
  - rsumf (fun a => rsumf (fun v => stress_of (dvec pos b a v) (meam_grad a v) k) (L a)) (seq (cnfstart c) (inconf c)).
End Spec.
