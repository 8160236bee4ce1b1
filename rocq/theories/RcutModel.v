(** Cutoff radii: potential_input.c:491-560, and the columns looked up for a neighbour,
    config.c:1225-1290.  Arrays are functions from the index; numbers are real. *)
From Coq Require Import List Arith Reals.
From Verif Require Import LoopUtil.
Import ListNotations.

(** executables (the preprocessor symbols of the build) *)
Inductive build := Pairs | Eam | Tbeam | Adp | Meam | Ang | Stiweb.
Definition dens (b : build) : bool := match b with Eam | Tbeam | Adp | Meam => true | _ => false end.

Definition upd (a : nat -> R) (k : nat) (v : R) : nat -> R := fun m => if m =? k then v else a m.
(** for i < n, for j < n: a[i*n+j] = g(i, j, a[i*n+j]) *)
Definition sweep (n : nat) (g : nat -> nat -> R -> R) (a : nat -> R) : nat -> R :=
  for_up 0 n (fun i a => for_up 0 n (fun j a => upd a (i * n + j) (g i j (a (i * n + j)))) a) a.

(** config.c:1225-1227, potential_input.c:522-523 *)
Definition col0 (n i j : nat) : nat :=
  if i <=? j then i * n + j - (i * (i + 1)) / 2 else j * n + i - (j * (j + 1)) / 2.
Definition paircol (n : nat) : nat := (n * (n + 1)) / 2.

(** MAX and MIN of potfit.h *)
Definition MAX (a b : R) : R := if Rlt_dec b a then a else b.
Definition MIN (a b : R) : R := if Rlt_dec a b then a else b.

Section Cut.
Variable bld : build.
Variable n : nat.                   (* ntypes *)
Variable begin_ end_ : nat -> R.    (* of opt_pot *)
Variable dp_cut : option R.         (* with COULOMB *)

(** potential_input.c:520-527 *)
Definition from_pairs (src : nat -> R) (a : nat -> R) : nat -> R :=
  sweep n (fun i j _ => src (col0 n i j)) a.
(** potential_input.c:529-542 *)
Definition with_dens (src : nat -> R) (a : nat -> R) : nat -> R :=
  if dens bld then sweep n (fun i j v => MAX (MAX v (src (paircol n + i))) (src (paircol n + j))) a else a.
(** potential_input.c:544-551 *)
Definition with_coulomb (a : nat -> R) : nat -> R :=
  match dp_cut with Some c => sweep n (fun _ _ v => MAX v c) a | None => a end.
(** [a] is what Malloc returned *)
Definition rcut (a : nat -> R) : nat -> R := with_coulomb (with_dens end_ (from_pairs end_ a)).
Definition rmin (a : nat -> R) : nat -> R := with_dens begin_ (from_pairs begin_ a).
(** potential_input.c:553-558; start values: memory.c:145 and the zeroed structure *)
Definition rcutmin (rc : nat -> R) : R :=
  for_up 0 n (fun i v => for_up 0 n (fun j v => MIN v (rc (i + n * j))) v) (9999 / 10)%R.
Definition rcutmax (rc : nat -> R) : R :=
  for_up 0 n (fun i v => for_up 0 n (fun j v => MAX v (rc (i + n * j))) v) 0%R.
End Cut.

(** config.c:1225-1290: the columns in which a neighbour of type [t2] of an atom of type [t1]
    is looked up at its distance *)
Definition slots (b : build) (n t1 t2 : nat) : list nat :=
  let k := col0 n t1 t2 in
  k :: match b with
       | Pairs => []
       | Eam => [paircol n + t2]
       | Tbeam => [paircol n + t2; paircol n + 2 * n + t2]
       | Meam => [paircol n + t2; paircol n + 2 * n + k]
       | Adp => [paircol n + t2; paircol n + 2 * n + k; 2 * paircol n + 2 * n + k]
       | Ang | Stiweb => [paircol n + k]
       end.
