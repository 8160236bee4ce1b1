(** Two descriptions of one periodic structure. *)
From Coq Require Import Reals ZArith List.
From Verif Require Import Vec NbrModel NbrProof PairModel.
Import ListNotations.
Local Open Scope R_scope.

(** place of the image n of atom j *)
Definition place (pos : nat -> vec) (b : box) (v : nat * image) : vec :=
  let '(j, (x, y, z)) := v in vadd (pos j) (comb b (V3 (IZR x) (IZR y) (IZR z))).
Definition zsub (m n : image) : image := let '(x, y, z) := m in let '(u, v, w) := n in (x - u, y - v, z - w)%Z.

(** The configuration c2 describes the same crystal as c1: [tau] maps every atom or image
    of c2 to the atom or image of c1 at the same place, one to one, with the same type;
    every atom of c1 is represented by [m] atoms of c2, whose cell is [m] times as large. *)
Record same_crystal (c1 c2 : conf) (pos1 pos2 : nat -> vec) (b1 b2 : box) (m : nat) (tau : nat * image -> nat * image) : Prop := mk_same {
  sc_m : (0 < m)%nat;
  sc_range : forall A N, (cnfstart c2 <= A < cnfstart c2 + inconf c2)%nat ->
    (cnfstart c1 <= fst (tau (A, N)) < cnfstart c1 + inconf c1)%nat;
  sc_place : forall A N, (cnfstart c2 <= A < cnfstart c2 + inconf c2)%nat -> place pos1 b1 (tau (A, N)) = place pos2 b2 (A, N);
  sc_type : forall A N, (cnfstart c2 <= A < cnfstart c2 + inconf c2)%nat -> typ c1 (fst (tau (A, N))) = typ c2 A;
  sc_inj : forall A N B M, (cnfstart c2 <= A < cnfstart c2 + inconf c2)%nat -> (cnfstart c2 <= B < cnfstart c2 + inconf c2)%nat ->
    tau (A, N) = tau (B, M) -> (A, N) = (B, M);
  sc_onto : forall i n, (cnfstart c1 <= i < cnfstart c1 + inconf c1)%nat ->
    exists A N, (cnfstart c2 <= A < cnfstart c2 + inconf c2)%nat /\ tau (A, N) = (i, n);
  sc_count : forall i, (cnfstart c1 <= i < cnfstart c1 + inconf c1)%nat ->
    count_occ Nat.eq_dec (map (fun A => fst (tau (A, (0, 0, 0)%Z))) (seq (cnfstart c2) (inconf c2))) i = m;
  sc_number : inconf c2 = (m * inconf c1)%nat;
  sc_volume : conf_vol c2 = INR m * conf_vol c1 }.
