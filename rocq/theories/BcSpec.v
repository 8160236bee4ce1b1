(** What a process should hold after the start. *)
From Coq Require Import String List Arith Bool.
From Verif Require Import BcModel.
Import ListNotations.
Open Scope string_scope.

(** equal bytes in all members except some *)
Definition agree (byte : Type) (fs : list field) (skip : list string) (m m' : mem byte) : Prop :=
  forall f, In f fs -> ~ In (f_name f) skip -> forall k, (k < f_bytes f)%nat -> m (f_name f) k = m' (f_name f) k.

(** a datatype moves a whole structure except the members [skip], which it leaves alone *)
Definition transfers (byte : Type) (fs : list field) (dt : datatype) (skip : list string) : Prop :=
  forall src dst, exists m, bcast byte fs dt src dst = Some m /\ agree byte fs skip m src /\ (forall n, In n skip -> forall k, m n k = dst n k).

(** pointers, and two results of an evaluation *)
Definition not_sent : list string := ["neigh"; "angle_part"; "rho_s"; "gradF_s"].

Definition received (byte : Type) (b : build) (c : catom byte) (a : atom byte) : Prop :=
  agree byte (atom_t b) not_sent (c_mem byte c) (a_mem byte a) /\
  (a_neigh byte a <> [] -> exists arr, c_neigh byte c = Some arr /\ Forall2 (agree byte (neigh_t b) []) arr (a_neigh byte a)) /\
  (dTHREEBODY b = true -> a_angle byte a <> [] -> exists arr, c_angle byte c = Some arr /\ Forall2 (agree byte (angle_t b) []) arr (a_angle byte a)).
