(** The functions of a potential and how their ends are treated. *)
From Coq Require Import Reals List Arith.
From Verif Require Import SplineModel SplineSpec UpdModel.
Import ListNotations.
Open Scope R_scope.

(** numbers of functions, in the order of the file; true: both ends are given by the table,
    false: the function is flat at its right end (cutoff) *)
Definition classes (k : routine) (pc nt : nat) : list (nat * bool) :=
  match k with
  | Pairs | Elstat => [(pc, false)]                                        (* phi *)
  | Eam | EamElstat => [(pc, false); (nt, false); (nt, true)]              (* phi, rho, F *)
  | Tbeam => [(pc, false); (nt, false); (nt, true); (nt, false); (nt, true)]
  | Adp => [(pc, false); (nt, false); (nt, true); (pc, false); (pc, false)] (* phi, rho, F, u, w *)
  | Ang | AngElstat => [(pc, true); (pc, true); (nt, true)]                (* phi, f, g *)
  | Meam => [(pc, true); (nt, true); (nt, true); (pc, true); (nt, true)]   (* phi, rho, F, f, g *)
  end.
(** number of functions *)
Definition total (k : routine) (pc nt : nat) : nat := fold_right (fun p n => fst p + n)%nat 0%nat (classes k pc nt).
(** treatment of function number [c], [None]: no such function *)
Fixpoint class_of (l : list (nat * bool)) (c : nat) : option bool :=
  match l with
  | [] => None
  | (n, b) :: l' => if (c <? n)%nat then Some b else class_of l' (c - n)
  end.
(** the column as the evaluation of functions sees it *)
Definition col_of (t : tabs) (d2 : arr) (c : nat) : column :=
  mk_col (t_begin t c) (t_end t c) (t_step t c) (t_invstep t c) (t_first t c) (t_last t c) (t_xcoord t) d2.
(** columns do not overlap and have room for two slopes in front *)
Definition laid_out (t : tabs) (n : nat) : Prop :=
  (forall c, (c < n)%nat -> (2 <= t_first t c)%nat /\ (t_first t c < t_last t c)%nat) /\
  forall c c', (c < c' < n)%nat -> (t_last t c < t_first t c')%nat.
Definition in_column (t : tabs) (n p : nat) : Prop := exists c, (c < n)%nat /\ (t_first t c <= p <= t_last t c)%nat.
