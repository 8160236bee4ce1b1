(** What a run with a KIM model needs. *)
From Coq Require Import List Bool.
From Verif Require Import KsupModel.

(** results: the energy always, forces and virial if some configuration (useforce, usestress)
    asks for them *)
Definition needed (stress : bool) (confs : list (bool * bool)) (a : argument) : Prop :=
  a = Energy \/ (a = Forces /\ exists us, In (true, us) confs) \/
  (a = Virial /\ stress = true /\ exists uf, In (uf, true) confs).
(** callbacks of potfit that get a pointer *)
Definition wanted (c : callback) (s : status) : bool :=
  match c, s with
  | NeighborList, _ => true
  | (DEDr | D2EDr2), (Required | Optional) => true
  | _, _ => false
  end.
