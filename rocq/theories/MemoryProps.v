(** C04: allocated memory is released exactly once. *)
From Coq Require Import ZArith List Lia.
From Verif Require Import MemoryModel MemoryProof.
Import ListNotations.
Open Scope Z_scope.

(** [good qs m] (MemoryProof.v): the C library answers malloc/realloc with NULL or an unused
    block, callers of Realloc pass NULL or a pointer obtained from this allocator, other
    code frees only its own blocks, and enlarging the registry array itself succeeds
    (failure of malloc/realloc for the requested block itself is allowed).

    Then the run ends through the clean-up (normal exit or error exit) without an invalid
    free, and what is left allocated are exactly the blocks of other code. *)
Theorem C04_no_leak_no_double_free : forall qs l,
  NoDup l -> ~ In 0 l -> good qs (init_mem l) ->
  exists left, run qs (init_mem l) = Stopped left /\ NoDup left /\
    forall p, In p left <-> others qs l (init_mem l) p.
Proof. exact run_ok_init. Qed.
Print Assumptions C04_no_leak_no_double_free.

Theorem C04_all_blocks_released : forall qs l,
  NoDup l -> ~ In 0 l -> good qs (init_mem l) ->
  (forall q, In q qs -> match q with RSysMalloc _ | RSysFree _ => False | _ => True end) ->
  exists left, run qs (init_mem l) = Stopped left /\ NoDup left /\ forall p, In p left <-> In p l.
Proof. exact run_no_leak. Qed.
Print Assumptions C04_all_blocks_released.

(** moving realloc, a failing request, foreign block 7 untouched *)
Example C04_ex :
  let qs := [RMalloc 8 100 200; RRealloc 0 16 110 210; RSysMalloc 8; RRealloc 100 24 120 0;
             RSysFree 8; RRealloc 120 24 0 0] in
  good qs (init_mem [7]) /\ run qs (init_mem [7]) = Stopped [7].
Proof.
  cbn. unfold fresh. cbn. split; [|reflexivity].
  repeat split; try (right; intros H; cbn in H; lia); try lia; try (left; lia); try (right; split; lia);
  try (right; cbn; tauto); try tauto.
  all: try (right; right; cbn; lia).
Qed.

(** If enlarging the registry fails, the error exit reads the registry through NULL. *)
Theorem C04_registry_failure_refuted : exists qs,
  (forall q, In q qs -> match q with
     | RMalloc s r1 r2 => s <> 0 /\ r1 <> 0 | _ => False end) /\
  run qs (init_mem []) = Undefined.
Proof. exact registry_failure. Qed.
Print Assumptions C04_registry_failure_refuted.
