(** Histogram of the arguments of the functions. *)
From Coq Require Import Reals List Bool Arith.
From Verif Require Import HistModel.
Import ListNotations.
Local Open Scope R_scope.

(** a table of potfit: points with equal (format 3) or any positive distances (format 4) *)
Record sound (eqdist : bool) (t : table) : Prop := {
  s_size : (t_first t < t_last t)%nat;
  s_begin : t_x t (t_first t) = t_begin t;
  s_end : t_x t (t_last t) = t_end t;
  s_up : forall i, (t_first t <= i < t_last t)%nat -> t_x t i < t_x t (S i);
  s_step : eqdist = true -> 0 < t_invstep t /\
    forall i, (t_first t <= i <= t_last t)%nat -> t_x t i = t_begin t + INR (i - t_first t) * / t_invstep t }.
(** arguments: column of the function and value *)
Definition arguments (eam : bool) (ntypes : nat) (a : atom) : list (nat * R) :=
  flat_map (fun n => (pair_column ntypes (a_type a) (fst n), snd n) ::
                     (if eam then [((paircol ntypes + fst n)%nat, snd n)] else [])) (a_neigh a) ++
  (if eam then [((paircol ntypes + ntypes + a_type a)%nat, a_rho a)] else []).
(** arguments of column [c] between the points i and i + 1 *)
Definition hit (tab : nat -> table) (c i : nat) (cv : nat * R) : bool :=
  ((fst cv =? c)%nat && (if Rle_dec (t_x (tab c) i) (snd cv) then true else false) &&
   (if Rlt_dec (snd cv) (t_x (tab c) (S i)) then true else false))%bool.
Definition hits (tab : nat -> table) (c i : nat) (l : list (nat * R)) : nat := length (filter (hit tab c i) l).
(** the arguments of an atom belong to columns of the table and lie above their begin, the
    density in the table *)
Definition placed (eam : bool) (ntypes : nat) (tab : nat -> table) (ncols : nat) (a : atom) : Prop :=
  (forall typ r, In (typ, r) (a_neigh a) ->
     (pair_column ntypes (a_type a) typ < ncols)%nat /\ t_begin (tab (pair_column ntypes (a_type a) typ)) <= r /\
     (eam = true -> (paircol ntypes + typ < ncols)%nat /\ t_begin (tab (paircol ntypes + typ)%nat) <= r)) /\
  (eam = true -> (paircol ntypes + ntypes + a_type a < ncols)%nat /\
     let t := tab (paircol ntypes + ntypes + a_type a)%nat in t_begin t <= a_rho a < t_end t).
