(** Textbook model of charges and point dipoles in a periodic structure, over the list of all
    neighbours of every atom.  [f] is the interaction of two unit charges at distance r,
    [g] = f'/r and [h] = g'/r; all of them are cut off at [rc].  *)
From Coq Require Import Reals ZArith List Bool.
From Verif Require Import Vec NbrModel PairModel PairSpec FuncModel.
Import ListNotations.
Local Open Scope R_scope.

Section Spec.
Variables (c : conf) (pos : nat -> vec) (bx : box).
Variable charge : nat -> R.       (* by type *)
Variables f g h : R -> R.
Variable rc : R.
Variable L : nat -> list (nat * image).
Notation q a := (charge (typ c a)).
Notation d a v := (dvec pos bx a v).
Notation r a v := (dist pos bx a v).
Definition within (a : nat) (v : nat * image) : bool := if Rlt_dec (r a v) rc then true else false.
Definition coulomb_pair (a : nat) (v : nat * image) : R := if within a v then q a * q (fst v) * f (r a v) else 0.
Definition coulomb_bond (a : nat) (v : nat * image) : vec := if within a v then vscale (q a * q (fst v) * g (r a v)) (d a v) else v0.
Definition coulomb_energy : R := 1/2 * rsumf (fun a => rsumf (coulomb_pair a) (L a)) (seq (cnfstart c) (inconf c)).
Definition coulomb_force (a : nat) : vec := vsum (coulomb_bond a) (L a).
Definition coulomb_virial (k : nat) : R :=
  - (1/2 * rsumf (fun a => rsumf (fun v => stress_of (d a v) (coulomb_bond a v) k) (L a)) (seq (cnfstart c) (inconf c))).
(** self energy of the charges, with factor [k] *)
Definition charge_self (k : R) : R := rsumf (fun a => k * (q a * q a)) (seq (cnfstart c) (inconf c)).

(** ** dipoles: [p] by atom, only those of types with [alpha] <> 0 exist *)
Variable alpha : nat -> R.
Variables dpb dpc : nat -> nat -> R.
Variable p : nat -> vec.
Definition zero (x : R) : bool := if Req_EM_T x 0 then true else false.
Definition mom (a : nat) : vec := if zero (alpha (typ c a)) then v0 else p a.
(** short-range damping of the charge-dipole interaction (Tang and Toennies), and 1/r times its derivative *)
Definition damped (a : nat) (v : nat * image) : bool := (negb (zero (dpb (typ c a) (typ c (fst v)))) && negb (zero (dpc (typ c a) (typ c (fst v)))))%bool.
Definition damp (a : nat) (v : nat * image) : R := if damped a v then fst (shortrange_term (r a v) (dpb (typ c a) (typ c (fst v))) (dpc (typ c a) (typ c (fst v)))) else 0.
Definition ddamp (a : nat) (v : nat * image) : R := if damped a v then snd (shortrange_term (r a v) (dpb (typ c a) (typ c (fst v))) (dpc (typ c a) (typ c (fst v)))) else 0.
(** charge of one atom and dipole of the other *)
Definition lever (a : nat) (v : nat * image) : vec := vsub (vscale (q a) (mom (fst v))) (vscale (q (fst v)) (mom a)).
Definition mixed_pair (a : nat) (v : nat * image) : R :=
  if within a v then g (r a v) * (1 + damp a v) * sprod (lever a v) (d a v) else 0.
Definition mixed_bond (a : nat) (v : nat * image) : vec :=
  if within a v then
    vadd (vscale (g (r a v) * (1 + damp a v)) (lever a v))
         (vscale ((h (r a v) * (1 + damp a v) + g (r a v) * ddamp a v) * sprod (lever a v) (d a v)) (d a v))
  else v0.
(** two dipoles *)
Definition dipole_pair (a : nat) (v : nat * image) : R :=
  if within a v then
    g (r a v) * (3 * sprod (mom a) (d a v) * sprod (mom (fst v)) (d a v) / (r a v * r a v) - sprod (mom a) (mom (fst v)))
  else 0.
Definition dipole_bond (a : nat) (v : nat * image) : vec :=
  if within a v then
    let r2 := r a v * r a v in
    let s := sprod (mom a) (d a v) in
    let t := sprod (mom (fst v)) (d a v) in
    vadd (vscale (h (r a v) * (3 * s * t / r2 - sprod (mom a) (mom (fst v))) - 6 * g (r a v) * s * t / (r2 * r2)) (d a v))
         (vscale (3 * g (r a v) / r2) (vadd (vscale t (mom a)) (vscale s (mom (fst v)))))
  else v0.
Definition dip_pair (a : nat) (v : nat * image) : R := mixed_pair a v + dipole_pair a v.
Definition dip_bond (a : nat) (v : nat * image) : vec := vadd (mixed_bond a v) (dipole_bond a v).
Definition dip_energy : R := 1/2 * rsumf (fun a => rsumf (dip_pair a) (L a)) (seq (cnfstart c) (inconf c)).
Definition dip_force (a : nat) : vec := vsum (dip_bond a) (L a).
Definition dip_virial (k : nat) : R :=
  - (1/2 * rsumf (fun a => rsumf (fun v => stress_of (d a v) (dip_bond a v) k) (L a)) (seq (cnfstart c) (inconf c))).
(** energy needed to polarise the atoms *)
Definition dip_self : R :=
  rsumf (fun a => if zero (alpha (typ c a)) then 0 else sprod (p a) (p a) / (2 * alpha (typ c a))) (seq (cnfstart c) (inconf c)).

(** ** Fields: of the charges; damping part of the dipole they induce; of the dipoles, with
    the sign the routine gives it *)
Definition static_field (a : nat) : vec := vsum (fun v => if within a v then vscale (q (fst v) * g (r a v)) (d a v) else v0) (L a).
Definition damped_moment (a : nat) : vec :=
  vsum (fun v => if within a v then vscale (alpha (typ c a) * damp a v * (q (fst v) * g (r a v))) (d a v) else v0) (L a).
Definition dipole_field (a : nat) : vec :=
  vsum (fun v => if within a v then
     vscale (g (r a v)) (vsub (vscale (3 * sprod (mom (fst v)) (d a v) / (r a v * r a v)) (d a v)) (mom (fst v))) else v0) (L a).
End Spec.

(** ** The iteration for the induced dipoles, [e0] being the fields before the first step *)
Section Iteration.
Variables (c : conf) (pos : nat -> vec) (bx : box).
Variable charge : nat -> R.
Variable g : R -> R.
Variable rc : R.
Variable L : nat -> list (nat * image).
Variable alpha : nat -> R.
Variables dpb dpc : nat -> nat -> R.
Variables tol mix : R.
Variable e0 : nat -> vec.
(** field that polarises atom a in step k, given the last two fields of the dipoles *)
Definition mixed (k : nat) (e : (nat -> vec) * (nat -> vec)) (a : nat) : vec :=
  match k with O => fst e a | S _ => vadd (vscale (1 - mix) (fst e a)) (vscale mix (snd e a)) end.
Definition moment_of (field : nat -> vec) (a : nat) : vec :=
  vadd (vscale (alpha (typ c a)) (vadd (field a) (static_field c pos bx charge g rc L a))) (damped_moment c pos bx charge g rc L alpha dpb dpc a).
Fixpoint iterate (k : nat) : (nat -> vec) * (nat -> vec) :=
  match k with
  | O => (e0, e0)
  | S k => (dipole_field c pos bx g rc L alpha (moment_of (mixed k (iterate k))), fst (iterate k))
  end.
Definition step_moment (k : nat) : nat -> vec := moment_of (mixed k (iterate k)).
(** root mean square of the change of alpha times the field in step k *)
Definition step_change (k : nat) : R :=
  sqrt (rsumf (fun a => if zero (alpha (typ c a)) then 0 else sqv (vscale (alpha (typ c a)) (vsub (fst (iterate k) a) (fst (iterate (S k)) a)))) (seq (cnfstart c) (inconf c))
        / (3 * INR (inconf c))).
Definition given_up (k : nat) : Prop := (0 < k)%nat /\ (10 < step_change k \/ (50 < k)%nat).
Definition stops (k : nat) : Prop := given_up k \/ step_change k < tol.
End Iteration.
