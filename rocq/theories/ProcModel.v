(** Root and worker processes of an MPI run: src/potfit.c main 70-211, start_mpi_worker
    246-259, error 287-314, src/mpi_utils.c shutdown_mpi 104-113 and broadcast_params_mpi
    119-159, potsync 167-191, the communication of calc_forces (src/force_pair.c 106-318,
    src/force_eam.c 113-625 and the other routines with the same calls) and
    src/force_common.c gather_variable, gather_forces 147-219.

    A process is a state machine that stops at collective operations.  Simplifications:
    a collective operation completes when every process has called it (a broadcast may in
    fact return earlier on the root; the order of calls is the same); what the collectives
    of the initial distribution transport is not modelled, only that all processes call the
    same ones (the list [setup], which depends on broadcast data only); MPI errors do not
    occur. *)
From Coq Require Import ZArith List Bool Lia.
Import ListNotations.
Local Open Scope Z_scope.

(** Collective operations as far as MPI matches them: kind, element type and count. *)
Inductive coll := BcastInt (n : Z) | BcastDouble (n : Z) | ReduceSum | GatherVector | GatherDouble | GatherStress | Other (k : nat) | Finalize.
Definition coll_eq_dec : forall a b : coll, {a = b} + {a <> b}.
Proof. decide equality; try apply Z.eq_dec. apply Nat.eq_dec. Defined.

(** What the root is asked to do: calc_forces with flag and table. *)
Notation request T := (Z * T)%type.

Section Run.
  Variable T : Type.    (* contents of a potential table *)

  Record build := mk_build { apot : bool; stress : bool; limits : bool; nvars : nat; len : Z; ndimtot : Z; ntypes : Z; nvals : Z }.

  (** within an evaluation: collectives and the local calculation *)
  Inductive act := Coll (c : coll) | Work.

  (** src/mpi_utils.c:167-191 potsync *)
  Definition potsync (b : build) : list act :=
    [Coll (BcastDouble (ntypes b)); Coll (BcastDouble (ntypes b)); Coll (BcastDouble (ntypes b)); Coll (BcastDouble (ntypes b));
     Coll (BcastInt (ntypes b)); Coll (BcastDouble (nvals b))].
  (** src/force_common.c:164-219 gather_forces *)
  Definition gather_forces (b : build) : list act :=
    [Coll ReduceSum; Coll GatherVector; Coll GatherDouble]
      ++ (if stress b then [Coll GatherStress] else []) ++ (if limits b then [Coll GatherDouble] else []).
  (** src/force_pair.c:143-300 after the broadcast of the flag (force_eam.c:153-609, ...);
      [nvars]: number of calls of gather_variable *)
  Definition table_coll (b : build) : coll := BcastDouble (if apot b then ndimtot b else len b).
  Definition after_table (b : build) (flag : Z) : list act :=
    (if negb (apot b) && (flag =? 2) then potsync b else []) ++ [Work] ++ repeat (Coll ReduceSum) (nvars b) ++ gather_forces b.

  (** How its program ends: main reaches its end, or error(1, ...) is called between two
      evaluations. *)
  Inductive ending := Reached | Failed.

  Inductive where_ :=
  | AtInit                       (* MPI_Bcast(&g_mpi.init_done), mpi_utils.c:128 *)
  | InSetup (rest : list coll)   (* rest of broadcast_params_mpi *)
  | AtOpt                        (* MPI_Bcast(g_pot.opt_pot.table), potfit.c:107 *)
  | AtFlag                       (* MPI_Bcast(&flag), force_pair.c:143 *)
  | AtTable (flag : Z)           (* MPI_Bcast(xi) *)
  | InEval (rest : list act)     (* rest of the evaluation *)
  | AtAbort                      (* calc_forces(NULL, NULL, 1) of error(), potfit.c:304 *)
  | AtFinal (ok : bool)          (* MPI_Finalize *)
  | Exited (ok : bool)
  | Crashed.                     (* broadcast into a null pointer *)

  Record proc := mk_proc { place : where_; xi : option T; done : list T }.

  (** one message: what the root's buffer contains *)
  Inductive msg := MInt (z : Z) | MTable (t : T) | MNone.

  Variable b : build.
  Variable setup : list coll.
  (** [bad p k]: process p calls error(1, ...) in its evaluation number k (from 0), e.g.
      splines.c:99, 130, 167. *)
  Variable bad : nat -> nat -> bool.

  Definition enter_setup (l : list coll) : where_ := match l with [] => if apot b then AtOpt else AtFlag | _ => InSetup l end.

  (** local calculation up to the next collective; the table used is recorded.  A process
      that fails calls error(), i.e. calc_forces(NULL, NULL, 1). *)
  Definition settle (p : nat) (q : proc) : proc :=
    match place q with
    | InEval (Work :: l) =>
      match xi q with
      | Some t => if bad p (length (done q)) then mk_proc AtAbort (xi q) (done q) else mk_proc (InEval l) (xi q) (done q ++ [t])
      | None => q
      end
    | _ => q
    end.

  (** the collective a process waits in; None after its end *)
  Definition wants (q : proc) : option coll :=
    match place q with
    | AtInit => Some (BcastInt 1)
    | InSetup (c :: _) => Some c
    | InSetup [] => None
    | AtOpt => Some (BcastDouble (ndimtot b))
    | AtFlag => Some (BcastInt 1)
    | AtTable _ => Some (table_coll b)
    | InEval (Coll c :: _) => Some c
    | InEval _ => None
    | AtAbort => Some (BcastInt 1)
    | AtFinal _ => Some Finalize
    | Exited _ => None
    | Crashed => None
    end.

  (** A worker when the collective completes, with the root's message:
      potfit.c:81-114, 251-257, force_pair.c:131-318.  A worker in error() takes part in the
      broadcast of the flag; if it is not 1 the table is received into NULL. *)
  Definition worker_next (q : proc) (m : msg) : proc :=
    match place q with
    | AtInit => match m with
                | MInt z => if z =? -1 then mk_proc (AtFinal true) (xi q) (done q) else mk_proc (enter_setup setup) (xi q) (done q)
                | _ => mk_proc Crashed (xi q) (done q)
                end
    | InSetup (_ :: l) => mk_proc (enter_setup l) (xi q) (done q)
    | AtOpt => match m with MTable t => mk_proc AtFlag (Some t) (done q) | _ => mk_proc Crashed (xi q) (done q) end
    | AtFlag => match m with
                | MInt z => if z =? 1 then mk_proc (AtFinal true) (xi q) (done q) else mk_proc (AtTable z) (xi q) (done q)
                | _ => mk_proc Crashed (xi q) (done q)
                end
    | AtTable f => match m with MTable t => mk_proc (InEval (after_table b f)) (Some t) (done q) | _ => mk_proc Crashed (xi q) (done q) end
    | InEval (_ :: l) => match l with [] => mk_proc AtFlag (xi q) (done q) | _ => mk_proc (InEval l) (xi q) (done q) end
    | AtAbort => match m with
                 | MInt z => if z =? 1 then mk_proc (AtFinal false) (xi q) (done q) else mk_proc Crashed (xi q) (done q)
                 | _ => mk_proc Crashed (xi q) (done q)
                 end
    | AtFinal ok => mk_proc (Exited ok) (xi q) (done q)
    | _ => q
    end.

  (** The root: state and what is still asked of it. *)
  Record root := mk_root { rproc : proc; todo : list (request T); ends : ending }.
  (** what its buffer contains at the collective *)
  Definition sends (start : T) (r : root) : msg :=
    match place (rproc r) with
    | AtInit => MInt 1
    | AtOpt => MTable start
    | AtFlag => match todo r with (f, _) :: _ => MInt f | [] => MInt 1 end
    | AtTable _ => match todo r with (_, t) :: _ => MTable t | [] => MNone end
    | AtAbort => MInt 1
    | _ => MNone
    end.
  (** potfit.c:105-206 and calc_forces on the root, which returns after gather_forces;
      at the end calc_forces(NULL, NULL, 1) from main (206) or error (304). *)
  Definition root_next (r : root) : root :=
    let q := rproc r in
    let go w := mk_root (mk_proc w (xi q) (done q)) (todo r) (ends r) in
    match place q with
    | AtInit => go (enter_setup setup)
    | InSetup (_ :: l) => go (enter_setup l)
    | AtOpt => go AtFlag
    | AtFlag => match todo r with
                | (f, _) :: _ => if f =? 1 then go (AtFinal true) else go (AtTable f)
                | [] => go (AtFinal (match ends r with Reached => true | Failed => false end))
                end
    | AtTable f => match todo r with
                   | (_, t) :: l => mk_root (mk_proc (InEval (after_table b f)) (Some t) (done q)) l (ends r)
                   | [] => r
                   end
    | InEval (_ :: l) => match l with [] => go AtFlag | _ => go (InEval l) end
    | AtAbort => go (AtFinal false)
    | AtFinal ok => go (Exited ok)
    | _ => r
    end.
  Definition settle_root (r : root) : root := mk_root (settle 0 (rproc r)) (todo r) (ends r).

  Record system := mk_sys { rt : root; workers : list proc }.
  Definition number (l : list proc) : list (nat * proc) := combine (seq 1 (length l)) l.

  (** One collective: completes if all processes are in the same one. *)
  Definition all_in (c : coll) (s : system) : bool :=
    forallb (fun q => match wants q with Some c' => if coll_eq_dec c' c then true else false | None => false end) (rproc (rt s) :: workers s).
  Definition step (start : T) (s : system) : option system :=
    match wants (rproc (rt s)) with
    | Some c => if all_in c s
                then Some (mk_sys (settle_root (root_next (rt s)))
                       (map (fun pq => settle (fst pq) (worker_next (snd pq) (sends start (rt s)))) (number (workers s))))
                else None
    | None => None
    end.
  Fixpoint steps (start : T) (n : nat) (s : system) : option system :=
    match n with O => Some s | S n' => match step start s with Some s' => steps start n' s' | None => None end end.

  (** Begin: the root reads its input; the workers wait at once (potfit.c:79, 217-240). If
      reading fails, error(1, ...) finds init_done = 0 and leaves without any MPI call
      (potfit.c:300-312). *)
  Definition begin_ (input_ok : bool) (n : nat) (rs : list (request T)) (e : ending) : system :=
    mk_sys (mk_root (mk_proc (if input_ok then AtInit else Exited false) None []) rs e)
           (repeat (mk_proc AtInit None []) n).
End Run.
Arguments mk_proc {T}. Arguments place {T}. Arguments xi {T}. Arguments done {T}.
Arguments mk_root {T}. Arguments rproc {T}. Arguments todo {T}. Arguments ends {T}.
Arguments mk_sys {T}. Arguments rt {T}. Arguments workers {T}.
Arguments step {T}. Arguments steps {T}. Arguments begin_ {T}. Arguments wants {T}. Arguments settle {T}.
Arguments worker_next {T}. Arguments root_next {T}. Arguments sends {T}. Arguments settle_root {T}. Arguments all_in {T}. Arguments number {T}.
Arguments MInt {T}. Arguments MTable {T}. Arguments MNone {T}.
