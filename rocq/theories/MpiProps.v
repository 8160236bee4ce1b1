(** C02, C03: distribution of configurations over MPI processes. *)
From Coq Require Import ZArith List Lia Reals Bool.
From Verif Require Import MpiModel MpiProof MpiProof2.
Import ListNotations.
Open Scope Z_scope.

(** Configuration [c] is computed by the process with share [s]. *)
Definition computes (s : share) (c : nat) : Prop :=
  first_conf s <= Z.of_nat c < first_conf s + my_conf s.
(** Atom [a] is stored by the process with share [s]. *)
Definition stores (s : share) (a : Z) : Prop :=
  first_atom s <= a < first_atom s + my_atoms s.
(** Atom [a] is one of the atoms of configuration [c]. *)
Definition atom_of (inconf : list Z) (c : nat) (a : Z) : Prop :=
  let before := fold_right Z.add 0 (firstn c inconf) in
  before <= a < before + nth c inconf 0.

(** The program starts exactly with 2 .. nconf processes. *)
Theorem C02_accepted : forall ncpu inconf, 1 <= ncpu ->
  ((exists l, distribute ncpu inconf = MpiOk l) <-> 2 <= ncpu <= Z.of_nat (length inconf)).
Proof. exact distribute_accepts. Qed.
Print Assumptions C02_accepted.

Theorem C02_partition : forall ncpu inconf l, 1 <= ncpu ->
  (forall n, In n inconf -> 0 <= n) ->
  distribute ncpu inconf = MpiOk l ->
  length l = Z.to_nat ncpu /\
  (forall c, (c < length inconf)%nat ->
     exists p s, nth_error l p = Some s /\ computes s c /\
       forall q t, nth_error l q = Some t -> computes t c -> q = p) /\
  (forall p s c, nth_error l p = Some s -> computes s c -> (c < length inconf)%nat) /\
  (forall p q s t, nth_error l p = Some s -> nth_error l q = Some t ->
     1 <= my_conf s /\ my_conf s - my_conf t <= 1) /\
  (forall p s c a, nth_error l p = Some s -> (c < length inconf)%nat -> atom_of inconf c a ->
     (stores s a <-> computes s c)).
Proof. exact distribute_partition. Qed.
Print Assumptions C02_partition.

Example C02_ex :
  distribute 3 [4; 1; 2; 5; 3] =
  MpiOk [{| first_conf := 0; my_conf := 1; first_atom := 0; my_atoms := 4 |};
         {| first_conf := 1; my_conf := 2; first_atom := 4; my_atoms := 3 |};
         {| first_conf := 3; my_conf := 2; first_atom := 7; my_atoms := 8 |}].
Proof. reflexivity. Qed.

(** Number of entries of the deviation vector that hold forces, energies and stresses. *)
Definition data_len (stress : bool) (inconf : list Z) : Z :=
  3 * fold_right Z.add 0 inconf + Z.of_nat (length inconf)
  + (if stress then 6 * Z.of_nat (length inconf) else 0).

(** Whatever the vectors contained before ([old], [v]), the gathered vector is the serial one. *)
Theorem C03_parallel_vector : forall (stress : bool) ncpu inconf val l old v k, 1 <= ncpu ->
  (forall n, In n inconf -> 0 <= n) ->
  distribute ncpu inconf = MpiOk l ->
  0 <= k < data_len stress inconf ->
  parallel_vec stress inconf val l old k = serial_vec stress inconf val v k.
Proof. exact parallel_vector_eq. Qed.
Print Assumptions C03_parallel_vector.

Theorem C03_parallel_error_sum : forall ncpu inconf err extra l, 1 <= ncpu ->
  distribute ncpu inconf = MpiOk l ->
  parallel_err err extra l = serial_err inconf err extra.
Proof. exact (fun ncpu inconf err extra l H => parallel_err_eq inconf err extra ncpu H l). Qed.
Print Assumptions C03_parallel_error_sum.

(** The serial vector is the per-configuration result on each configuration's entries:
    force components of its atoms, its energy and its six stresses. *)
Theorem C03_serial_entries : forall stress inconf val v c k,
  (forall n, In n inconf -> 0 <= n) -> (c < length inconf)%nat ->
  ((exists a j, atom_of inconf c a /\ 0 <= j < 3 /\ k = 3 * a + j) \/
   k = 3 * fold_right Z.add 0 inconf + Z.of_nat c \/
   (stress = true /\ exists j, 0 <= j < 6 /\
      k = 3 * fold_right Z.add 0 inconf + Z.of_nat (length inconf) + 6 * Z.of_nat c + j)) ->
  serial_vec stress inconf val v k = val c k.
Proof. exact serial_entries. Qed.
Print Assumptions C03_serial_entries.

Example C03_ex : exists l, distribute 2 [1; 2] = MpiOk l /\
  0 <= 20 < data_len true [1; 2] /\
  parallel_vec true [1; 2] (fun c k => IZR (100 * Z.of_nat c + k)) l (fun _ _ => 0%R) 20 = 120%R.
Proof.
  eexists. split; [reflexivity|]. split; [vm_compute; split; congruence|].
  vm_compute. reflexivity.
Qed.
