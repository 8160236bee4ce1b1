(** What C34, C36 and C40 ask for. *)
From Coq Require Import Reals List Bool.
From Verif Require Import FuncModel.
Import ListNotations.
Local Open Scope R_scope.

(** index of the first parameter of potential i *)
Fixpoint offset (j : nat) (pots : list (fkind * bool)) (i : nat) : nat :=
  match i, pots with
  | S i', (k, s) :: rest => offset (j + (2 + num_par k + (if s then 1 else 0))) rest i'
  | _, _ => j
  end.
Definition at_ (p : arr) (o : nat) : arr := fun m => p (o + m)%nat.

(** what a parameter array has to be after normalisation, for one potential *)
Definition normal_form (tersoff : bool) (k : fkind) (q q' : arr) : Prop :=
  match k with
  | Eopp => 0 <= q' 5%nat <= 2 * PI /\ (forall pw r, eopp_value pw r q' = eopp_value pw r q) /\
            (0 <= q 5%nat <= 2 * PI -> q' 5%nat = q 5%nat) /\ (forall m, m <> 5%nat -> (m <= 6)%nat -> q' m = q m)
  | Csw2 => 0 <= q' 2%nat <= 2 * PI /\ (forall pw r, csw2_value pw r q' = csw2_value pw r q) /\
            (0 <= q 2%nat <= 2 * PI -> q' 2%nat = q 2%nat) /\ (forall m, m <> 2%nat -> (m <= 4)%nat -> q' m = q m)
  | TersoffPot => (if tersoff then q' 9%nat = Rmax (q 9%nat) (q 10%nat) /\ q' 10%nat = Rmin (q 9%nat) (q 10%nat)
                   else q' 9%nat = q 9%nat /\ q' 10%nat = q 10%nat) /\
                  (forall m, m <> 9%nat -> m <> 10%nat -> (m <= 11)%nat -> q' m = q m)
  | Other n => forall m, (m <= n)%nat -> q' m = q m
  end.

(** distance of a value from an interval *)
Definition outside (v lo hi : R) : R := Rmax 0 (Rmax (lo - v) (v - hi)).
Definition eopp_pen (pvalue : R) (x : R) : R := if Rlt_dec x 0 then pvalue * (1 + x) * (1 + x) else 0.

Definition universal_pen (pvalue x : R) : R := if Rlt_dec x (/ 10 ^ 6) then pvalue / (x * x) else 0.
(** order of composition nodes *)
Definition le_comp (a b : node) : Prop := ncomp a <= ncomp b.

(** value at x of the line through two points *)
Definition line (x0 y0 x1 y1 x : R) : R := y0 + (x - x0) * (y1 - y0) / (x1 - x0).

