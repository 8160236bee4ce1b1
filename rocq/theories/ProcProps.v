(** C62: root and workers stay together. *)
From Coq Require Import ZArith List Bool Lia.
From Verif Require Import ProcModel ProcProof.
Import ListNotations.
Local Open Scope Z_scope.

(** Unless error(1, ...) is called while reading input or during an evaluation: every run
    ends, with every process finished, and every worker has evaluated exactly the tables
    requested, in order (any number of workers, any requests, any build, also if the root
    stops with an error between evaluations). *)
Theorem C62_all_finish : forall (T : Type) b setup bad (start : T) rs e n, Forall (fun q : request T => fst q <> 1) rs ->
  (forall p k, (p <= n)%nat -> (k < length rs)%nat -> bad p k = false) ->
  exists k s, steps b setup bad start k (begin_ true n rs e) = Some s /\ length (workers s) = n /\
    place (rproc (rt s)) = Exited (match e with Reached => true | Failed => false end) /\ done (rproc (rt s)) = map snd rs /\
    forall w, In w (workers s) -> place w = Exited true /\ done w = map snd rs.
Proof. exact all_finish. Qed.
Print Assumptions C62_all_finish.
(** At every time all workers have done what the root has done, and they are out of the
    evaluation loop exactly when the root has sent the stop request. *)
Theorem C62_lockstep : forall (T : Type) b setup bad (start : T) rs e n, Forall (fun q : request T => fst q <> 1) rs ->
  (forall p k, (p <= n)%nat -> (k < length rs)%nat -> bad p k = false) ->
  forall k s, steps b setup bad start k (begin_ true n rs e) = Some s -> forall w, In w (workers s) ->
    done w = done (rproc (rt s)) /\ (left_loop T w <-> left_loop T (rproc (rt s))) /\ (left_loop T w -> done w = map snd rs) /\
    exists more, map snd rs = done w ++ more.
Proof. exact lockstep. Qed.
Print Assumptions C62_lockstep.
(** An error in the input: the root leaves without telling the workers. *)
Theorem C62_input_refuted : forall (T : Type) b setup bad (start : T) rs e n, step b setup bad start (begin_ false n rs e) = None /\
  forall w, In w (workers (begin_ false n rs e)) -> place w = AtInit.
Proof. exact input_error. Qed.
Print Assumptions C62_input_refuted.
(** An error in an evaluation, on the root (0) or on a worker (1): no process gets further. *)
Theorem C62_refuted : forall who, (who <= 1)%nat -> exists k s, steps (T := Z) pair_build [] (fun p _ => Nat.eqb p who) 7 k (begin_ true 1 [(0, 7)] Reached) = Some s /\
  step pair_build [] (fun p _ => Nat.eqb p who) 7 s = None /\
  (exists w, workers s = [w] /\ place w <> Exited true /\ wants pair_build w <> wants pair_build (rproc (rt s)) /\ wants pair_build w <> None) /\
  place (rproc (rt s)) <> Exited false.
Proof. exact eval_error. Qed.
Print Assumptions C62_refuted.
Example C62_ex : option_map (fun s => map (fun w => (place w, done w)) (workers s))
    (steps (T := Z) (mk_build false true true 1 10 10 2 4) [Other 0; Other 1] (fun _ _ => false) 0 27 (begin_ true 3 [(0, 5); (2, 6)] Reached))
  = Some (repeat (Exited true, [5; 6]) 3).
Proof. vm_compute. reflexivity. Qed.
