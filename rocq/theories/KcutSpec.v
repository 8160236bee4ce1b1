(** Names without blanks. *)
From Coq Require Import Ascii String.
From Verif Require Import KcutModel.

Fixpoint solid (s : string) : Prop :=
  match s with String c r => space c = false /\ solid r | EmptyString => True end.
