(** Distribution of configurations over MPI processes and collection of results. *)
From Coq Require Import ZArith List Reals Bool.
Import ListNotations.
Open Scope Z_scope.

(** Start of configuration [c] in the atom list: number of atoms of earlier
    configurations (src/config.c:read_config, cnfstart is set to the running number of
    atoms natoms when a configuration header is read, config.c:165-166). *)
Fixpoint cnfstart (inconf : list Z) (c : nat) : Z :=
  match c, inconf with
  | S c', n :: rest => n + cnfstart rest c'
  | _, _ => 0
  end.

Definition natoms (inconf : list Z) : Z := fold_right Z.add 0 inconf.

(** src/mpi_utils.c:711-712  each, odd (C division and remainder). *)
Definition each (ncpu nconf : Z) : Z := Z.quot nconf ncpu.
Definition odd (ncpu nconf : Z) : Z := Z.rem nconf ncpu - ncpu.

(** src/mpi_utils.c:718-719  conf_dist[i]. *)
Definition conf_dist (ncpu nconf i : Z) : Z :=
  i * each ncpu nconf + (if i + odd ncpu nconf >? 0 then i + odd ncpu nconf else 0).

(** src/mpi_utils.c:720-723  conf_len[i]. *)
Definition conf_len (ncpu nconf i : Z) : Z :=
  if i <? ncpu - 1 then conf_dist ncpu nconf (i + 1) - conf_dist ncpu nconf i
  else nconf - conf_dist ncpu nconf (ncpu - 1).

(** src/mpi_utils.c:724-726  atom_dist[i]; cnfstart is read at index conf_dist[i]. *)
Definition atom_dist (ncpu : Z) (inconf : list Z) (i : Z) : Z :=
  cnfstart inconf (Z.to_nat (conf_dist ncpu (Z.of_nat (length inconf)) i)).

(** src/mpi_utils.c:727-730  atom_len[i]. *)
Definition atom_len (ncpu : Z) (inconf : list Z) (i : Z) : Z :=
  if i <? ncpu - 1 then atom_dist ncpu inconf (i + 1) - atom_dist ncpu inconf i
  else natoms inconf - atom_dist ncpu inconf (ncpu - 1).

Inductive mpi_result (A : Type) : Type :=
| MpiOk (a : A)
| MpiError.
Arguments MpiOk {A} _.
Arguments MpiError {A}.

Record share := { first_conf : Z; my_conf : Z; first_atom : Z; my_atoms : Z }.

(** src/mpi_utils.c:692-742  broadcast_configurations: refuses one process and more
    processes than configurations, otherwise scatters the four tables. *)
Definition distribute (ncpu : Z) (inconf : list Z) : mpi_result (list share) :=
  let nconf := Z.of_nat (length inconf) in
  if ncpu =? 1 then MpiError
  else if ncpu >? nconf then MpiError
  else MpiOk (map (fun p => let i := Z.of_nat p in
                 {| first_conf := conf_dist ncpu nconf i;
                    my_conf := conf_len ncpu nconf i;
                    first_atom := atom_dist ncpu inconf i;
                    my_atoms := atom_len ncpu inconf i |})
               (seq 0 (Z.to_nat ncpu))).

(** * Evaluation and gathering *)

(** The deviation vector; entries outside the regions considered are not restricted. *)
Definition vec := Z -> R.

Section Gather.
  Variable stress : bool.        (* compiled with STRESS *)
  Variable inconf : list Z.
  (** [val c k]: the number that the evaluation of configuration [c] stores at index [k]
      of the deviation vector. It depends on configuration [c] and the potential only:
      src/force_pair.c:176-283 (body of the loop over configurations). *)
  Variable val : nat -> Z -> R.
  (** [err c]: contribution of configuration [c] to error_sum. *)
  Variable err : nat -> R.
  (** contribution to error_sum made by the root process only (punishments),
      src/force_pair.c:290-293. *)
  Variable root_extra : R.

  Definition nconf : Z := Z.of_nat (length inconf).
  (** src/force_common.c:101-105 *)
  Definition energy_p : Z := 3 * natoms inconf.
  Definition stress_p : Z := energy_p + nconf.

  (** indices of the deviation vector owned by configuration [c] *)
  Definition owns (c : nat) (k : Z) : bool :=
    ((3 * cnfstart inconf c <=? k) && (k <? 3 * (cnfstart inconf c + nth c inconf 0)))
    || (k =? energy_p + Z.of_nat c)
    || (stress && (stress_p + 6 * Z.of_nat c <=? k) && (k <? stress_p + 6 * Z.of_nat c + 6)).

  (** evaluating one configuration overwrites exactly its entries *)
  Definition eval_conf (v : vec) (c : nat) : vec :=
    fun k => if owns c k then val c k else v k.

  (** loop over the configurations of one process: src/force_pair.c:176
      [for (config_idx = firstconf; config_idx < firstconf + myconf; ...)]. *)
  Definition eval_range (v : vec) (start len : Z) : vec :=
    fold_left eval_conf (seq (Z.to_nat start) (Z.to_nat len)) v.

  Definition err_range (start len : Z) : R :=
    fold_left (fun s c => (s + err c)%R) (seq (Z.to_nat start) (Z.to_nat len)) 0%R.

  (** serial run: firstconf = 0, myconf = nconf *)
  Definition serial_vec (v : vec) : vec := eval_range v 0 nconf.
  Definition serial_err : R := (err_range 0 nconf + root_extra)%R.

  (** MPI_Gatherv of [len] consecutive entries at offset [off] *)
  Definition copy_slice (dst src : vec) (off len : Z) : vec :=
    fun k => if (off <=? k) && (k <? off + len) then src k else dst k.

  (** src/force_common.c:171-213  gather_forces: slices of one worker copied to root *)
  Definition gather_one (dst : vec) (sw : share * vec) : vec :=
    let (s, w) := sw in
    let d1 := copy_slice dst w (3 * first_atom s) (3 * my_atoms s) in
    let d2 := copy_slice d1 w (energy_p + first_conf s) (my_conf s) in
    if stress then copy_slice d2 w (stress_p + 6 * first_conf s) (6 * my_conf s) else d2.

  (** [shares]: all processes, head = root. [old p]: what process [p]'s vector contained
      before this evaluation (arbitrary). *)
  Definition parallel_vec (shares : list share) (old : nat -> vec) : vec :=
    match shares with
    | [] => old 0%nat
    | root :: workers =>
        let v0 := eval_range (old 0%nat) (first_conf root) (my_conf root) in
        fold_left gather_one
          (map (fun ps => (snd ps, eval_range (old (fst ps)) (first_conf (snd ps)) (my_conf (snd ps))))
               (combine (seq 1 (length workers)) workers)) v0
    end.

  (** src/force_common.c:169  MPI_Reduce(error_sum, MPI_SUM) *)
  Definition parallel_err (shares : list share) : R :=
    match shares with
    | [] => root_extra
    | root :: workers =>
        fold_left (fun s w => (s + err_range (first_conf w) (my_conf w))%R) workers
          (err_range (first_conf root) (my_conf root) + root_extra)%R
    end.
End Gather.
