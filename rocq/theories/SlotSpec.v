(** Functions of the potential kinds, in the order of the potential file, and which of them
    depend on the distance of a neighbour.  Columns by counting, not by formulas. *)
From Coq Require Import Reals ZArith List.
From Verif Require Import PairIndexModel SlotModel.
Import ListNotations.
Local Open Scope Z_scope.

Inductive fn := Phi | Rho | Emb | RhoS | EmbS | U | W | Fr | G.
Definition blocks (k : build_kind) : list fn :=
  match k with
  | BPair => [Phi]
  | BEam => [Phi; Rho; Emb]
  | BTbeam => [Phi; Rho; Emb; RhoS; EmbS]
  | BAdp => [Phi; Rho; Emb; U; W]
  | BMeam => [Phi; Rho; Emb; Fr; G]
  | BAng => [Phi; Fr; G]
  end.
(** one function per pair of types, or one per type *)
Definition per_pair (f : fn) : bool := match f with Phi | U | W | Fr => true | _ => false end.
Definition of_distance (f : fn) : bool := match f with Emb | EmbS | G => false | _ => true end.
Definition size (n : Z) (f : fn) : Z := if per_pair f then n * (n + 1) / 2 else n.
Fixpoint before (n : Z) (l : list fn) (j : nat) : Z :=
  match l, j with
  | f :: l', S j' => size n f + before n l' j'
  | _, _ => 0
  end.
(** the function of block j for the pair of types t1, t2: column *)
Definition column_of (n : Z) (k : build_kind) (j : nat) (f : fn) (t1 t2 : Z) : Z :=
  before n (blocks k) j + (if per_pair f then pair_index n t1 t2 else t2).
(** number of the slot of block j: distance functions before it *)
Definition slot_of (k : build_kind) (j : nat) : nat := length (filter of_distance (firstn j (blocks k))).
