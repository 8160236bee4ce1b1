(** Search for a perturbation: examples. *)
From Coq Require Import Reals List Arith Bool Lia Lra Ranalysis.
From Verif Require Import LoopUtil UqModel UqSpec UqProof3 PertModel PertProof.
Local Open Scope R_scope.

Definition ones : vec := fun _ => 1.
Definition parabola (y : vec) : R := 1 + (y 0%nat - 1) * (y 0%nat - 1).
Lemma parabola_pert : forall p, pert_cost parabola ones 0 p = 1 + p * p.
Proof. intros p. unfold pert_cost, parabola, ones, upd. cbn [Nat.eqb]. ring. Qed.
Lemma ex_parabola : 0 < 3 / 2 /\ pert_cost parabola ones 0 0 < 3 / 2 /\ (forall p, continuity_pt (pert_cost parabola ones 0) p) /\ (forall t, 1 < t -> 3 / 2 <= pert_cost parabola ones 0 t).
Proof.
  split; [lra|]. split; [rewrite parabola_pert; lra|]. split.
  - intros p. assert (H : continuity_pt (fun q => 1 + q * q) p) by reg. intros e E. destruct (H e E) as (d & D & K). exists d. split; auto. intros q Q. rewrite !parabola_pert. apply K. auto.
  - intros t T. rewrite parabola_pert. nra.
Qed.
Lemma ex_result : exists fuel r, hess_bracketing parabola ones 0 (3 / 2) false fuel = Some r.
Proof.
  destruct ex_parabola as (A & Z & C & G). destruct (bracketing_ends parabola ones 0 (3 / 2) false 1 A Z C G) as (fu & F). destruct (F fu (le_n _)) as (r & E). exists fu, r. auto.
Qed.
Definition step_cost (y : vec) : R := if Rlt_dec (y 0%nat) 2 then 1 else 100.
Theorem jump_refuted : exists cost x index aim, 0 < aim /\ pert_cost cost x index 0 < aim /\ (forall t, 1 < t -> aim <= pert_cost cost x index t) /\
  forall fuel, hess_bracketing cost x index aim false fuel = None.
Proof.
  exists step_cost, ones, 0%nat, 2. split; [lra|]. split; [|split].
  - unfold pert_cost, step_cost, ones, upd. cbn [Nat.eqb]. destruct (Rlt_dec _ _); lra.
  - intros t T. unfold pert_cost, step_cost, ones, upd. cbn [Nat.eqb]. destruct (Rlt_dec _ _); lra.
  - intros fuel. apply bracketing_jump; [lra|]. intros p. unfold pert_cost, step_cost, ones, upd. cbn [Nat.eqb]. destruct (Rlt_dec _ _); lra.
Qed.
