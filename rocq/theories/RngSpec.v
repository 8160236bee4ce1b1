(** What is demanded of the random numbers, written without the model. *)
From Coq Require Import ZArith List Bool QArith.
From Coq.Floats Require Import SpecFloat.
Import ListNotations.
Local Open Scope Z_scope.

(** The value of a finite double. *)
Definition value (x : spec_float) : option Q :=
  match x with
  | S754_zero _ => Some 0%Q
  | S754_finite s m e =>
      Some (inject_Z (if s then Zneg m else Zpos m) * Qpower (2 # 1) e)%Q
  | _ => None
  end.

(** A number of the grid of step 2^-52 on [0, 1). *)
Definition on_grid (x : spec_float) (k : Z) : Prop :=
  0 <= k < 2 ^ 52 /\
  exists q, value x = Some q /\ (q == inject_Z k / inject_Z (2 ^ 52))%Q.
Definition in_unit (x : spec_float) : Prop :=
  exists q, value x = Some q /\ (0 <= q)%Q /\ (q < 1)%Q.

(** The inner product over GF(2) of two vectors of 128 bits, each given as two
    words of 64 bits. *)
Definition dot64 (x y : Z) : bool :=
  fold_right (fun i acc => xorb (Z.testbit x (Z.of_nat i) &&
                                 Z.testbit y (Z.of_nat i)) acc)
    false (seq 0 64).
Definition dot128 (x0 x1 y0 y1 : Z) : bool := xorb (dot64 x0 y0) (dot64 x1 y1).

(** Every entry of the state is a pair of words of 64 bits. *)
Definition word64 (x : Z) : Prop := 0 <= x < 2 ^ 64.
Definition state_ok (s : list (Z * Z)) : Prop :=
  length s = 192%nat /\ Forall (fun w => word64 (fst w) /\ word64 (snd w)) s.
(** A word of 64 bits that represents a double of [1, 2). *)
Definition in_1_2 (x : Z) : Prop := x / 2 ^ 52 = 1023.
Definition key_ok (key : list Z) : Prop :=
  Forall (fun k => 0 <= k < 2 ^ 32) key.

(** The recursion of the generator, bit by bit.  [a] is the old entry, [b] the
    one picked up, [l] and [l'] the lung before and after, [r] the new entry. *)
Definition half_rec (mask a b l r l' : Z) : Prop :=
  forall j, 0 <= j < 64 ->
    Z.testbit l' j =
      xorb (xorb (Z.testbit a (j - 19)) (Z.testbit l ((j + 32) mod 64)))
           (Z.testbit b j) /\
    Z.testbit r j =
      xorb (xorb (Z.testbit l' (j + 12)) (Z.testbit l' j && Z.testbit mask j))
           (Z.testbit a j).
Definition rec_spec (a b l r l' : Z * Z) : Prop :=
  half_rec 0x000ffafffffffb3f (fst a) (fst b) (snd l) (fst r) (fst l') /\
  half_rec 0x000ffdfffc90fffd (snd a) (snd b) (fst l) (snd r) (snd l').

(** A block: entry [i] is made from the old one and the one 117 places ahead,
    which already is a new one past the end of the array. *)
Definition block_spec (s s' : list (Z * Z)) : Prop :=
  exists L : nat -> Z * Z,
    nth_error s 191 = Some (L 0%nat) /\ nth_error s' 191 = Some (L 191%nat) /\
    forall i, (i < 191)%nat -> exists a b r,
      nth_error s i = Some a /\ nth_error s' i = Some r /\
      (if (i + 117 <? 191)%nat then nth_error s (i + 117)
       else nth_error s' (i + 117 - 191)) = Some b /\
      rec_spec a b (L i) r (L (S i)).
