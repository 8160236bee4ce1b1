(** Evaluation of a KIM model: scoring of energies and stresses and the error sum
    (force_kim.c:200-290), cutoffs that change with the parameters (force_kim.c:73-108,
    potential_input_f5.c:372-397) and neighbour lists (force_kim.c:311-330).

    What the KIM model computes is an argument.  Not modelled: failing calls of the library,
    gather_forces (topic Mpi), NaN.  The gathering of the forces is in KimModel. *)
From Coq Require Import Reals ZArith List Bool.
Import ListNotations.
Local Open Scope R_scope.

(** ** One configuration, 200-267 *)
Record conf := Conf {
  c_atoms : nat;                 (* inconf *)
  c_weight : R;
  c_uf : bool; c_us : bool;
  c_vol : R;
  c_f0 : nat -> nat -> R;        (* reference forces: atom, component *)
  c_e0 : R;                      (* reference energy (config.c:442) *)
  c_s0 : nat -> R;               (* reference stresses *)
  c_abs : nat -> R;              (* absforce *)
  c_contrib : nat -> bool        (* true without CONTRIB *)
}.
(** results of the model: gathered forces, energy, virial *)
Record result := Result { r_f : nat -> nat -> R; r_e : R; r_v : nat -> R }.
Section Score.
Variables stress fweight : bool.      (* builds *)
Variables eweight sweight : R.
Definition FORCE_EPS : R := / 10.     (* defines.h:51 *)
(** 213-233 *)
Definition force_entry (c : conf) (r : result) (i k : nat) : R :=
  let x := if c_uf c then sqrt (c_weight c) * (r_f r i k - c_f0 c i k) else 0 in
  if fweight then x / (FORCE_EPS + c_abs c i) else x.
(** 213-240: error sum of the forces *)
Fixpoint force_errors (c : conf) (r : result) (todo i : nat) (sum : R) : R :=
  match todo with
  | O => sum
  | S todo =>
      force_errors c r todo (S i)
        (if c_contrib c i
         then sum + (Rsqr (force_entry c r i 0) + Rsqr (force_entry c r i 1) + Rsqr (force_entry c r i 2))
         else sum)
  end.
(** 250-253 *)
Definition energy_entry (c : conf) (r : result) : R :=
  let w := sqrt (c_weight c * eweight) in w * r_e r - w * c_e0 c.
(** 243-248, 256-266 *)
Definition stress_entry (c : conf) (r : result) (k : nat) : R :=
  if (stress && c_uf c && c_us c)%bool
  then let w := sqrt (c_weight c * sweight) in w * r_v r k / c_vol c - w * c_s0 c k
  else 0.
Fixpoint stress_errors (c : conf) (r : result) (todo k : nat) (sum : R) : R :=
  match todo with
  | O => sum
  | S todo => stress_errors c r todo (S k) (sum + Rsqr (stress_entry c r k))
  end.
Definition conf_errors (c : conf) (r : result) (sum : R) : R :=
  let sum := force_errors c r (c_atoms c) 0 sum + Rsqr (energy_entry c r) in
  if (stress && c_uf c && c_us c)%bool then stress_errors c r 6 0 sum else sum.
Fixpoint all_errors (cs : list (conf * result)) (sum : R) : R :=
  match cs with [] => sum | (c, r) :: cs => all_errors cs (conf_errors c r sum) end.

(** 271-288: parameters beyond their limits; the entries of the vector are in topic DevVec *)
Definition APOT_PUNISH : R := 10 ^ 7.    (* 10e6, defines.h:44 *)
Fixpoint punish (ps : list (R * R * R)) (sum : R) : R :=
  match ps with
  | [] => sum
  | (x, mn, mx) :: ps =>
      punish ps
        (if Rlt_dec x mn then sum + APOT_PUNISH * (x - mn) * (x - mn)
         else if Rlt_dec mx x then sum + APOT_PUNISH * (x - mx) * (x - mx)
         else sum)
  end.
Definition kim_error (cs : list (conf * result)) (ps : list (R * R * R)) : R := punish ps (all_errors cs 0).
End Score.

(** ** Cutoffs *)
(** cutoffs of the lists, influence distance, flag of each list that neighbours of padding
    atoms are not requested *)
Record cuts := Cuts { k_lists : list R; k_infl : R }.
(** read_max_cutoff, potential_input_f5.c:372-397; [None]: error(1) *)
Fixpoint max_from (m : R) (l : list R) : R :=
  match l with [] => m | a :: l => max_from (if Rlt_dec m a then a else m) l end.
Definition read_max_cutoff (flags : list bool) (k : cuts) : option R :=
  if forallb (fun b => b) flags then Some (max_from (k_infl k) (k_lists k)) else None.
(** 84-90, 95-106: one cutoff, old and new *)
Definition one_cutoff (old new : R) : option R :=
  if Req_EM_T old new then Some old else if Rlt_dec new old then Some new else None.
Fixpoint list_cutoffs (flag0 : bool) (old new : list R) : option (list R) :=
  match old, new with
  | o :: old, n :: new =>
      if flag0 then
        match one_cutoff o n, list_cutoffs flag0 old new with
        | Some c, Some cs => Some (c :: cs)
        | _, _ => None
        end
      else None
  | [], [] => Some []
  | _, _ => None    (* the number of lists does not change *)
  end.
(** 73-108 *)
Definition check_cutoffs (flag0 : bool) (old new : cuts) : option cuts :=
  match one_cutoff (k_infl old) (k_infl new) with
  | None => None
  | Some i => option_map (fun l => Cuts l i) (list_cutoffs flag0 (k_lists old) (k_lists new))
  end.
(** a history of evaluations: cutoffs of the model at each *)
Fixpoint history (flag0 : bool) (st : cuts) (ks : list cuts) : option cuts :=
  match ks with
  | [] => Some st
  | k :: ks => match check_cutoffs flag0 st k with None => None | Some st => history flag0 st ks end
  end.

(** ** get_neigh, 311-330 *)
Inductive neighbours := Stop | Of (atom : Z).
Definition get_neigh (inconf cnfstart particle : Z) : neighbours :=
  if (inconf <? particle)%Z then Stop else Of (cnfstart + particle).
