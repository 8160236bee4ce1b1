(** Tables of the embedding functions and of all others. *)
From Coq Require Import Reals List Arith.
From Verif Require Import AnnealModel.
Import ListNotations.
Local Open Scope R_scope.

Definition embedding (paircol ntypes i : nat) : Prop := (paircol + ntypes <= i < paircol + 2 * ntypes)%nat.
Definition embedding_point (paircol ntypes : nat) (first last : nat -> nat) (j : nat) : Prop :=
  exists i, embedding paircol ntypes i /\ (first i <= j <= last i)%nat.
(** equal arrays on columns [P] and elements [Q] *)
Definition agree (P Q : nat -> Prop) (g h : grid) : Prop :=
  (forall i, P i -> g_begin g i = g_begin h i /\ g_end g i = g_end h i /\ g_step g i = g_step h i /\ g_invstep g i = g_invstep h i) /\
  (forall j, Q j -> g_x g j = g_x h j).
(** the cost depends on nothing but the contents of the tables *)
Definition reads_tables (cost : grid -> vec -> R) : Prop :=
  forall g h x, agree (fun _ => True) (fun _ => True) g h -> cost g x = cost h x.
(** rescale() leaves the tables of the other functions as they were *)
Definition keeps_others (paircol ntypes : nat) (first last : nat -> nat) (g : grid) (l : list event) : Prop :=
  forall h x, In (Rescaled h x) l ->
    agree (fun i => ~ embedding paircol ntypes i) (fun j => ~ embedding_point paircol ntypes first last j) h g.
(** parameters evaluated before a break flagfile is found *)
Definition tried (l : list event) (xn : vec) : Prop := exists a b c, l = a ++ Try xn b :: c /\ ~ In Flagged a.
(** no rescaling *)
Definition calm (l : list event) : Prop := forall h x, ~ In (Rescaled h x) l.
