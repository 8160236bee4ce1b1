(** Potential tables during simulated annealing, simann.c:204-256 (store_pot_data,
    restore_pot_data: MEAM with tabulated potentials) and the course of
    run_simulated_annealing, 269-483, as far as it concerns them.

    Simplifications: the decisions that depend on temperature, random numbers, counters and
    files are events given from outside, so every run of the code is a run of the model, not
    every run of the model one of the code; results of rescale() are given, too.  Numbers are
    real.  The scalars loop_counter, T, v, naccept are in SimannModel. *)
From Coq Require Import Reals List Arith Bool.
Import ListNotations.
Local Open Scope R_scope.

Definition vec := nat -> R.
(** the arrays begin, end, step, invstep (by column) and xcoord (by element) of opt_pot *)
Record grid := Grid { g_begin : vec; g_end : vec; g_step : vec; g_invstep : vec; g_x : vec }.
Definition set (i : nat) (r : R) (v : vec) : vec := fun j => if (j =? i)%nat then r else v j.

Section Tables.
Variables paircol ntypes : nat.
Variables first last : nat -> nat.

(** elements first .. last of a column *)
Definition elements (i : nat) : list nat := seq (first i) (S (last i) - first i).
(** 214-227, pass k: column [i] is paircol + ntypes + k *)
Definition store_column (g : grid) (d : grid) (k : nat) : grid :=
  let i := (paircol + ntypes + k)%nat in
  Grid (set k (g_begin g i) (g_begin d)) (set k (g_end g i) (g_end d))
       (set k (g_step g i) (g_step d)) (set k (g_invstep g i) (g_invstep d))
       (fold_left (fun x j => set j (g_x g j) x) (elements i) (g_x d)).
Definition store_pot_data (g d : grid) : grid := fold_left (store_column g) (seq 0 ntypes) d.
(** 241-254 *)
Definition restore_column (d : grid) (g : grid) (k : nat) : grid :=
  let i := (paircol + ntypes + k)%nat in
  Grid (set i (g_begin d k) (g_begin g)) (set i (g_end d k) (g_end g))
       (set i (g_step d k) (g_step g)) (set i (g_invstep d k) (g_invstep g))
       (fold_left (fun x j => set j (g_x d j) x) (elements i) (g_x g)).
Definition restore_pot_data (d g : grid) : grid := fold_left (restore_column d) (seq 0 ntypes) g.

(** [Try]: one parameter, 336-376, with the answer of line 372; [Rescaled]: 411-422, potential
    and parameters after a rescale() that was necessary; [Home]: 443-462; [Flagged]: 392-409 *)
Inductive event := Try (xn : vec) (taken : bool) | Rescaled (g : grid) (x : vec) | Home | Flagged.
Record state := State { s_grid : grid; s_xi : vec; s_F : R; s_opt : vec; s_Fopt : R; s_data : grid; s_rescale : bool }.

Variable meam : bool.      (* MEAM with tabulated potentials *)
Variable cost : grid -> vec -> R.      (* calc_forces *)
Definition step (s : state) (e : event) : state :=
  match e with
  | Try xn taken =>
      let Fn := cost (s_grid s) xn in
      if Rle_dec Fn (s_F s)
      then if Rlt_dec Fn (s_Fopt s)
           then State (s_grid s) xn Fn xn Fn (if meam then store_pot_data (s_grid s) (s_data s) else s_data s) (s_rescale s)
           else State (s_grid s) xn Fn (s_opt s) (s_Fopt s) (s_data s) (s_rescale s)
      else if taken then State (s_grid s) xn Fn (s_opt s) (s_Fopt s) (s_data s) (s_rescale s) else s
  | Rescaled g x =>
      if s_rescale s then State g x (cost g x) (s_opt s) (s_Fopt s) (s_data s) (s_rescale s) else s
  | Home =>
      if meam
      then let g := restore_pot_data (s_data s) (s_grid s) in
           State g (s_opt s) (cost g (s_opt s)) (s_opt s) (s_Fopt s) (s_data s) false
      else State (s_grid s) (s_opt s) (s_Fopt s) (s_opt s) (s_Fopt s) (s_data s) (s_rescale s)
  | Flagged => State (s_grid s) (s_opt s) (s_Fopt s) (s_opt s) (s_Fopt s) (s_data s) (s_rescale s)
  end.
(** 392-409: the break flagfile ends the loop *)
Fixpoint loop (s : state) (l : list event) : state :=
  match l with
  | [] => s
  | Flagged :: _ => step s Flagged
  | e :: l => loop (step s e) l
  end.
(** 306-322; [d] is the content of pot_data before the first store *)
Definition start (g : grid) (x : vec) (d : grid) : state :=
  State g x (cost g x) x (cost g x) (if meam then store_pot_data g d else d) true.
(** 466-472: potential and parameters after the annealing *)
Definition finish (s : state) : grid * vec :=
  (if meam then restore_pot_data (s_data s) (s_grid s) else s_grid s, s_opt s).
Definition anneal (g : grid) (x : vec) (d : grid) (l : list event) : grid * vec := finish (loop (start g x d) l).
End Tables.
