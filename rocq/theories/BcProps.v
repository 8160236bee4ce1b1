(** C145-C147: data of the processes of a parallel run. *)
From Coq Require Import String List Arith Bool ZArith Reals Lia.
From Verif Require Import BcModel BcSpec BcProof BcProof2 MpiModel MpiProps.
Import ListNotations.
Local Open Scope string_scope.

(** C145.  The datatypes move every member of a neighbour, of an angle and of an atom, except
    the pointers and two members that are results of an evaluation. *)
Theorem C145_types : forall (byte : Type) b,
  (exists dt, create (neigh_items b) (neigh_addr b) = Ok dt /\ transfers byte (neigh_t b) dt []) /\
  (exists dt, create (angle_items b) (angle_addr b) = Ok dt /\ transfers byte (angle_t b) dt []) /\
  (exists dt, create (atom_items b) (atom_addr b) = Ok dt /\ transfers byte (atom_t b) dt ["neigh"; "angle_part"; "rho_s"; "gradF_s"]).
Proof. exact types_sound. Qed.
Print Assumptions C145_types.
Example C145_ex : create (angle_items (mk_build IMeam false false true)) (angle_addr (mk_build IMeam false false true)) =
  Ok [("cos", 8); ("slot", 4); ("shift", 8); ("step", 8); ("g", 8); ("dg", 8)]%nat.
Proof. vm_compute. reflexivity. Qed.

(** C146.  After the start every process holds the atoms of its configurations, with their
    neighbours and angles. *)
Theorem C146_atoms : forall (byte : Type) (b : build) (zero : byte) ncpu inconf shares (l : list (atom byte)),
  (1 <= ncpu)%Z -> (forall n, In n inconf -> (0 <= n)%Z) -> distribute ncpu inconf = MpiOk shares -> Z.of_nat (length l) = fold_right Z.add 0%Z inconf ->
  (dTHREEBODY b = true -> dANG b = false -> forall a, In a l -> a_angle byte a <> []) ->
  forall p s, nth_error shares p = Some s -> forall loc, exists conf,
    local_atoms byte b (p =? 0)%nat (Z.to_nat (first_atom s)) (Z.to_nat (my_atoms s)) zero l loc = Ok conf /\
    forall c a at_, computes s c -> atom_of inconf c a -> nth_error l (Z.to_nat a) = Some at_ ->
      exists ca, nth_error conf (Z.to_nat (a - first_atom s)) = Some ca /\ received byte b ca at_.
Proof. exact parallel_atoms. Qed.
Print Assumptions C146_atoms.
(** An atom without angles (MEAM, Stillinger-Weber and Tersoff) ends the parallel run. *)
Theorem C146_no_angles : forall (byte : Type) (b : build) (root : bool) (first my : nat) (zero : byte) (l : list (atom byte)) loc,
  (first + my <= length l)%nat -> dTHREEBODY b = true -> dANG b = false ->
  (local_atoms byte b root first my zero l loc = Exit <-> exists j a, (j < my)%nat /\ nth_error l (first + j) = Some a /\ a_angle byte a = []).
Proof. exact local_angles. Qed.
Print Assumptions C146_no_angles.
Theorem C146_refuted : exists (l : list (atom nat)) loc, length l = 2%nat /\
  local_atoms nat (mk_build IMeam true false false) false 1 1 0%nat l loc = Exit.
Proof. exact (ex_intro _ (repeat (mk_atom nat (fun _ _ => 1%nat) [fun _ _ => 2%nat] []) 2) (ex_intro _ (fun _ _ => 3%nat) (conj eq_refl eq_refl))). Qed.
Print Assumptions C146_refuted.
Example C146_ex : let a := mk_atom nat (fun _ k => k) [fun _ _ => 5%nat] [] in
  match local_atoms nat (mk_build IEam true false false) false 1 1 0%nat [a; a] (fun _ _ => 9%nat) with
  | Ok [c] => c_mem nat c "rho" 3%nat = 3%nat /\ c_mem nat c "neigh" 3%nat = 9%nat /\ match c_neigh nat c with Some [n] => n "r" 2%nat = 5%nat | _ => False end
  | _ => False end.
Proof. vm_compute. repeat split. Qed.

(** C147.  A worker finds the values of the root process in every global variable it reads,
    except the flag of a fixed kappa, and the tails of the electrostatic functions are those of
    the present kappa on every process. *)
Theorem C147_globals : forall (val : Type) (init rootg : string -> val) b cp gl, rootg "compnodes" = init "compnodes" ->
  forall n, In n (read_by_worker b cp gl) -> n <> "apot_table.sw_kappa" -> worker_globals val init b cp gl rootg n = rootg n.
Proof. exact globals_ok. Qed.
Print Assumptions C147_globals.
Theorem C147_tails : forall tail is_root sw kappa0 kappa r old, (sw = true -> kappa = kappa0) ->
  process_tail tail is_root sw kappa0 kappa r old = tail r kappa /\ init_force_defined is_root sw = true.
Proof. exact tails_ok. Qed.
Print Assumptions C147_tails.
Theorem C147_scattered : forall (A : Type) ncpu inconf shares, (1 <= ncpu)%Z -> (forall n, In n inconf -> (0 <= n)%Z) -> distribute ncpu inconf = MpiOk shares ->
  forall p s, nth_error shares p = Some s -> forall (l : list A) c, length l = length inconf -> computes s c ->
  (0 <= first_conf s)%Z /\ nth_error (scatterv (Z.to_nat (first_conf s)) (Z.to_nat (my_conf s)) l) (c - Z.to_nat (first_conf s)) = nth_error l c.
Proof. exact scatter_ok. Qed.
Print Assumptions C147_scattered.
Example C147_ex : worker_globals nat (fun _ => 0%nat) (mk_build IDipole true false true) false true (fun _ => 7%nat) "dp_tol" = 7%nat /\
  worker_globals nat (fun _ => 0%nat) (mk_build IDipole true false true) false true (fun _ => 7%nat) "apot_table.sw_kappa" = 0%nat.
Proof. vm_compute. split; reflexivity. Qed.
