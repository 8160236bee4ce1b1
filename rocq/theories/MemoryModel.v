(** The allocator of src/memory.c as a state machine over the blocks the C library has
    handed out.  Addresses are integers, 0 is NULL.  Block contents are not modelled. *)
From Coq Require Import ZArith List Bool.
Import ListNotations.
Open Scope Z_scope.

Definition addr := Z.

(** [live]: blocks currently allocated by the C library, in any order.
    [reg], [ptrs]: g_memory.pointers (the array block itself) and the addresses stored in
    it; g_memory.num_pointers is [length ptrs] (src/memory.c:54-59). *)
Record mem := { live : list addr; reg : addr; ptrs : list addr }.

(** src/memory.c:194-195, initialize_global_variables; [others] are blocks owned by other
    parts of the program (stdio, MPI, ...). *)
Definition init_mem (others : list addr) : mem := {| live := others; reg := 0; ptrs := [] |}.

Definition memb (p : addr) (l : list addr) : bool := existsb (Z.eqb p) l.
Definition del (p : addr) (l : list addr) : list addr := filter (fun q => negb (Z.eqb p q)) l.

(** free(3): [None] is undefined behaviour (double free or free of a dangling pointer). *)
Definition sys_free (p : addr) (l : list addr) : option (list addr) :=
  if p =? 0 then Some l else if memb p l then Some (del p l) else None.

(** realloc(3) with answer [r]: 0 is failure and keeps the block; otherwise the block now
    lives at [r].  realloc(NULL, n) is malloc(n).  [None]: undefined behaviour. *)
Definition sys_realloc (p r : addr) (l : list addr) : option (list addr) :=
  if p =? 0 then Some (if r =? 0 then l else r :: l)
  else if memb p l then Some (if r =? 0 then l else r :: del p l)
  else None.

(** src/memory.c:252-258 free_allocated_memory; [None] is undefined behaviour: an invalid
    free or reading the array of pointers when it is NULL. *)
Fixpoint free_all (ps : list addr) (l : list addr) : option (list addr) :=
  match ps with
  | [] => Some l
  | p :: ps' => match sys_free p l with None => None | Some l' => free_all ps' l' end
  end.

Definition free_allocated_memory (m : mem) : option (list addr) :=
  match ptrs m with
  | [] => sys_free (reg m) (live m)
  | _ => if reg m =? 0 then None
         else match free_all (ptrs m) (live m) with
              | None => None
              | Some l => sys_free (reg m) l
              end
  end.

(** Outcome of a request: the program goes on with a pointer, has stopped through
    error(1, ...) (src/potfit.c:289-315, which calls free_allocated_memory and exits)
    leaving [left] allocated, or has undefined behaviour. *)
Inductive outcome :=
| Returns (p : addr) (m : mem)
| Stopped (left : list addr)
| Undefined.

Definition stop (m : mem) : outcome :=
  match free_allocated_memory m with Some l => Stopped l | None => Undefined end.

(** src/memory.c:68-98 Malloc; [r1]: answer of malloc, [r2]: answer of the realloc that
    enlarges the registry. *)
Definition Malloc (size : Z) (r1 r2 : addr) (m : mem) : outcome :=
  if size =? 0 then stop m
  else if r1 =? 0 then stop m
  else
    let l1 := r1 :: live m in
    match sys_realloc (reg m) r2 l1 with
    | None => Undefined
    | Some l2 =>
        if r2 =? 0 then stop {| live := l2; reg := 0; ptrs := ptrs m |}
        else Returns r1 {| live := l2; reg := r2; ptrs := ptrs m ++ [r1] |}
    end.

(** src/memory.c:107-127 Realloc *)
Definition Realloc (p : addr) (size : Z) (r1 r2 : addr) (m : mem) : outcome :=
  if size =? 0 then stop m
  else if p =? 0 then Malloc size r1 r2 m
  else match sys_realloc p r1 (live m) with
       | None => Undefined
       | Some l =>
           if r1 =? 0 then stop {| live := l; reg := reg m; ptrs := ptrs m |}
           else Returns r1 {| live := l; reg := reg m;
                              ptrs := map (fun q => if p =? q then r1 else q) (ptrs m) |}
       end.

(** A program run: requests to the allocator interleaved with direct use of the C library
    by other code (e.g. src/utils.c:132,146). *)
Inductive request :=
| RMalloc (size : Z) (r1 r2 : addr)
| RRealloc (p : addr) (size : Z) (r1 r2 : addr)
| RSysMalloc (r : addr)
| RSysFree (p : addr).

Definition step (q : request) (m : mem) : outcome :=
  match q with
  | RMalloc s r1 r2 => Malloc s r1 r2 m
  | RRealloc p s r1 r2 => Realloc p s r1 r2 m
  | RSysMalloc r => Returns r {| live := if r =? 0 then live m else r :: live m;
                                 reg := reg m; ptrs := ptrs m |}
  | RSysFree p => match sys_free p (live m) with
                  | Some l => Returns 0 {| live := l; reg := reg m; ptrs := ptrs m |}
                  | None => Undefined
                  end
  end.

Fixpoint run (qs : list request) (m : mem) : outcome :=
  match qs with
  | [] => stop m     (* src/potfit.c:278 exit_potfit *)
  | q :: qs' => match step q m with
                | Returns _ m' => run qs' m'
                | o => o
                end
  end.
