(** The error report of the other routines. *)
From Coq Require Import Reals List Arith Bool Lra Lia.
From Verif Require Import Vec LoopUtil NbrModel PairModel PairProof PairProof2 ErrModel ErrSpec ErrProof RepSpec.
Import ListNotations.
Open Scope R_scope.

Section Rep.
Variable bld : build.
Variables eweight sweight : R.
Variables nconf mdim : nat.
Variable cs : nat -> conf.
Variable conf_of : nat -> nat.
Variable opt : bool.
Variable d : dev.
Notation lo ci := (cnfstart (cs ci)).
Notation hi ci := (cnfstart (cs ci) + inconf (cs ci))%nat.
Hypothesis FIRST : cnfstart (cs O) = O.
Hypothesis CONT : forall ci, cnfstart (cs (S ci)) = (cnfstart (cs ci) + inconf (cs ci))%nat.
Hypothesis OF : forall ci a, (ci < nconf)%nat -> (lo ci <= a < hi ci)%nat -> conf_of a = ci.

Definition tells (rest : R) (tot : R) : Prop :=
  adds_up opt (write_errors bld eweight sweight (cnfstart (cs nconf)) nconf mdim cs conf_of opt d tot) rest.
(** every entry is scored *)
Lemma all_parts :
  force_sum bld (natoms nconf cs) cs conf_of d + energy_sum eweight nconf cs d + stress_sum bld sweight nconf cs d =
  rsumf (fun ci =>
     rsumf (fun a => if (negb (CONTRIB bld) || contrib (cs ci) a)%bool
                     then conf_weight (cs ci) * sqv (frc d a) else 0) (seq (lo ci) (inconf (cs ci))) +
     conf_weight (cs ci) * eweight * sq (en d ci) +
     (if STRESS bld then rsumf (fun k => conf_weight (cs ci) * sweight * sq (str d ci k)) (seq 0 6) else 0)) (seq 0 nconf).
Proof.
  rewrite (force_sum_spec bld nconf cs conf_of d FIRST CONT OF), energy_sum_spec, stress_sum_spec, <- !rsumf_plus by eassumption. reflexivity.
Qed.
Lemma all_scored : forall tot rest, tot = rsumf (fun ci =>
     rsumf (fun a => if (negb (CONTRIB bld) || contrib (cs ci) a)%bool
                     then conf_weight (cs ci) * sqv (frc d a) else 0) (seq (lo ci) (inconf (cs ci))) +
     conf_weight (cs ci) * eweight * sq (en d ci) +
     (if STRESS bld then rsumf (fun k => conf_weight (cs ci) * sweight * sq (str d ci k)) (seq 0 6) else 0)) (seq 0 nconf) + rest ->
  tells rest tot.
Proof. intros tot rest E. apply (report_adds_up bld eweight sweight nconf mdim cs conf_of opt d). rewrite all_parts. exact E. Qed.
Lemma forces_scored : forall tot rest, tot = rsumf (fun ci =>
     rsumf (fun a => if (uf (cs ci) && (negb (CONTRIB bld) || contrib (cs ci) a))%bool
                     then conf_weight (cs ci) * sqv (frc d a) else 0) (seq (lo ci) (inconf (cs ci))) +
     conf_weight (cs ci) * eweight * sq (en d ci) +
     (if STRESS bld then rsumf (fun k => conf_weight (cs ci) * sweight * sq (str d ci k)) (seq 0 6) else 0)) (seq 0 nconf) + rest ->
  tells (rest - unscored_forces bld cs nconf d) tot.
Proof.
  intros tot rest E. apply all_scored. rewrite E. clear E. unfold unscored_forces.
  match goal with |- ?A + _ = ?B + (_ - ?C) => assert (X : B = A + C); [|lra] end.
  rewrite <- rsumf_plus. apply rsumf_ext. intros ci _. destruct (uf (cs ci)); cbn [andb]; [ring|].
  rewrite (rsumf_zero (fun a : nat => 0)) by auto. ring.
Qed.
Lemma both_scored : forall tot rest, tot = rsumf (fun ci =>
     rsumf (fun a => if (uf (cs ci) && (negb (CONTRIB bld) || contrib (cs ci) a))%bool
                     then conf_weight (cs ci) * sqv (frc d a) else 0) (seq (lo ci) (inconf (cs ci))) +
     conf_weight (cs ci) * eweight * sq (en d ci) +
     (if (STRESS bld && uf (cs ci) && us (cs ci))%bool
      then rsumf (fun k => conf_weight (cs ci) * sweight * sq (str d ci k)) (seq 0 6) else 0)) (seq 0 nconf) + rest ->
  tells (rest - unscored_forces bld cs nconf d - unscored_stresses bld sweight cs nconf d) tot.
Proof.
  intros tot rest E.
  replace (rest - unscored_forces bld cs nconf d - unscored_stresses bld sweight cs nconf d) with
    (rest - unscored_stresses bld sweight cs nconf d - unscored_forces bld cs nconf d) by ring.
  apply forces_scored. rewrite E. clear E. unfold unscored_stresses.
  match goal with |- ?A + _ = ?B + (_ - ?C) => assert (X : B = A + C); [|lra] end.
  rewrite <- rsumf_plus. apply rsumf_ext. intros ci _.
  destruct (STRESS bld); cbn [andb]; destruct (uf (cs ci)), (us (cs ci)); cbn [andb]; ring.
Qed.
(** nothing is left out if all forces and stresses are used *)
Lemma unscored_forces_used : (forall ci, (ci < nconf)%nat -> uf (cs ci) = true) -> unscored_forces bld cs nconf d = 0.
Proof. clear FIRST CONT OF. intro U. apply rsumf_zero. intros ci C. apply in_seq in C. rewrite U by lia. reflexivity. Qed.
Lemma unscored_stresses_used : (forall ci, (ci < nconf)%nat -> (uf (cs ci) && us (cs ci))%bool = true) -> unscored_stresses bld sweight cs nconf d = 0.
Proof. clear FIRST CONT OF. intro U. apply rsumf_zero. intros ci C. apply in_seq in C. rewrite U by lia. reflexivity. Qed.
Lemma unscored_forces_quiet :
  (forall ci a, (ci < nconf)%nat -> (lo ci <= a < hi ci)%nat -> uf (cs ci) = false -> frc d a = v0) -> unscored_forces bld cs nconf d = 0.
Proof.
  clear FIRST CONT OF. intro Q. apply rsumf_zero. intros ci C. apply in_seq in C. destruct (uf (cs ci)) eqn:U; [reflexivity|].
  apply rsumf_zero. intros a A. apply in_seq in A. rewrite (Q ci a) by (auto; lia). destruct (_ || _)%bool; auto. unfold sqv, sq; simpl. ring.
Qed.
Lemma unscored_stresses_quiet :
  (forall ci k, (ci < nconf)%nat -> (k < 6)%nat -> (uf (cs ci) && us (cs ci))%bool = false -> STRESS bld = true -> str d ci k = 0) ->
  unscored_stresses bld sweight cs nconf d = 0.
Proof.
  clear FIRST CONT OF. intro Q. apply rsumf_zero. intros ci C. apply in_seq in C. destruct (uf (cs ci) && us (cs ci))%bool eqn:U; [reflexivity|].
  destruct (STRESS bld) eqn:T; [|reflexivity]. apply rsumf_zero. intros k K. change (In k (seq 0 6)) in K. apply in_seq in K. rewrite (Q ci k) by (auto; lia). unfold sq. ring.
Qed.
End Rep.
