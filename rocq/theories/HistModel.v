(** write_bindist_file, potential_output.c:694-769 (builds with BINDIST, without MPI) for
    tabulated potentials, with the slots of set_neighbor_slot, config.c:1301-1345.  For these
    the tables of opt_pot and calc_pot have the same points.  Numbers are real; the text of
    the file is not modelled. *)
From Coq Require Import Reals ZArith List Bool Arith.
Import ListNotations.
Local Open Scope R_scope.

(** one column of the potential table *)
Record table := Table { t_first : nat; t_last : nat; t_begin : R; t_end : R; t_invstep : R; t_x : nat -> R }.
(** type, density, neighbours (type, distance) *)
Record atom := Atom { a_type : nat; a_rho : R; a_neigh : list (nat * R) }.
(** end of the routine: counted, error(1, ...), or an index outside of the array freq *)
Inductive outcome := Counted (freq : nat -> nat) | Fail | Undefined.

Definition trunc (x : R) : nat := Z.to_nat (Int_part x).     (* (int)x of x >= 0 *)

Section Bindist.
Variable eqdist : bool.      (* format 3; otherwise 4 *)
Variables rescale eam : bool.
Variable ntypes : nat.
Variable tab : nat -> table.
Variable ndimtot : nat.      (* size of freq, 702 *)

(** config.c:1332-1341, potential_output.c:743-752; [fuel] bounds the passes *)
Fixpoint bisect (fuel : nat) (x : nat -> R) (v : R) (k l : nat) : nat :=
  match fuel with
  | O => k
  | S fuel =>
      if (l - k <=? 1)%nat then k
      else let j := ((k + l) / 2)%nat in
           if Rlt_dec v (x j) then bisect fuel x v k j else bisect fuel x v j l
  end.
Definition bisection (t : table) (v : R) : nat := bisect (t_last t) (t_x t) v (t_first t) (t_last t).
(** config.c:1309-1345 *)
Definition slot (t : table) (r : R) : option nat :=
  if eqdist
  then let rr := r - t_begin t in
       if Rlt_dec rr 0 then None else Some (trunc (rr * t_invstep t) + t_first t)%nat
  else Some (bisection t r).
(** 731-753 *)
Definition embed_slot (t : table) (rho : R) : option nat :=
  if eqdist
  then let rr := rho - t_begin t in
       if rescale
       then if Rlt_dec rr 0 then None else Some (trunc (rr * t_invstep t) + t_first t)%nat
       else let rr := if Rlt_dec rr 0 then 0 else rr in
            Some (Nat.min (trunc (rr * t_invstep t) + t_first t) (t_last t))
  else Some (bisection t rho).

(** 714-716 *)
Definition pair_column (a b : nat) : nat :=
  if (a <=? b)%nat then (a * ntypes + b - a * (a + 1) / 2)%nat else (b * ntypes + a - b * (b + 1) / 2)%nat.
Definition paircol : nat := (ntypes * (ntypes + 1) / 2)%nat.
Definition if_inside (t : table) (r : R) : list (option nat) := if Rlt_dec r (t_end t) then [slot t r] else [].
(** 711-726 *)
Definition of_neighbor (typ1 : nat) (n : nat * R) : list (option nat) :=
  if_inside (tab (pair_column typ1 (fst n))) (snd n) ++
  (if eam then if_inside (tab (paircol + fst n)) (snd n) else []).
(** 706-756: the elements of freq to be counted up, in order *)
Definition of_atom (a : atom) : list (option nat) :=
  flat_map (of_neighbor (a_type a)) (a_neigh a) ++
  (if eam then [embed_slot (tab (paircol + ntypes + a_type a)) (a_rho a)] else []).
Fixpoint count (l : list (option nat)) (freq : nat -> nat) : outcome :=
  match l with
  | [] => Counted freq
  | None :: _ => Fail
  | Some k :: l =>
      if (k <? ndimtot)%nat then count l (fun i => if (i =? k)%nat then S (freq i) else freq i) else Undefined
  end.
Definition bindist (atoms : list atom) : outcome := count (flat_map of_atom atoms) (fun _ => 0%nat).
(** 761-764: lines of a column *)
Definition lines (freq : nat -> nat) (t : table) : list (R * nat) :=
  map (fun i => (1 / 2 * (t_x t i + t_x t (S i)), freq i)) (seq (t_first t) (t_last t - t_first t)).
End Bindist.
