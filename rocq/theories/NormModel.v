(** Model of normdist, /repo/src/random.c 80-107, in real arithmetic.

    The numbers of eqdist are a sequence [u : nat -> R]; the state holds the
    place in the sequence and the two static variables.  The loop at 90-94 has
    no bound in C, it runs here with fuel and gives [None] when the fuel is used
    up.  Rounding is not modelled. *)
From Coq Require Import Reals.
Local Open Scope R_scope.

Record nstate : Type := { pos : nat; have_number : bool; nd2 : R }.

(** The loop, 90-94: the two numbers and the sum of the squares. *)
Fixpoint polar (u : nat -> R) (fuel p : nat) : option (R * R * R * nat) :=
  match fuel with
  | O => None
  | S fuel' =>
      let x1 := 2 * u p - 1 in
      let x2 := 2 * u (S p) - 1 in
      let sqr := x1 * x1 + x2 * x2 in
      if Rle_dec 1 sqr then polar u fuel' (S (S p))
      else if Req_EM_T sqr 0 then polar u fuel' (S (S p))
      else Some (x1, x2, sqr, S (S p))
  end.

Definition normdist (u : nat -> R) (fuel : nat) (st : nstate) :
    option (R * nstate) :=
  if have_number st then
    Some (nd2 st, {| pos := pos st; have_number := false; nd2 := nd2 st |})
  else
    match polar u fuel (pos st) with
    | None => None
    | Some (x1, x2, sqr, p) =>
        let cnst := sqrt (-2 * ln sqr / sqr) in
        Some (x1 * cnst, {| pos := p; have_number := true; nd2 := x2 * cnst |})
    end.
