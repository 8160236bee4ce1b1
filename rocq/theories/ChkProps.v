(** C132, C133: checks of Stillinger-Weber and Tersoff potentials before the fit. *)
From Coq Require Import Reals ZArith List Bool String Lia Lra.
From Verif Require Import Vec NbrModel LoopUtil PairModel LammpsModel SwModel TersModel FuncModel ChkModel ChkSpec ChkProof.
Import ListNotations.
Local Open Scope R_scope.

(** ** C132: neighbours beyond the cutoff of the file do not matter *)
Theorem C132_stiweb_accepts : forall n names pmax endr, check_stiweb n names pmax endr = true <->
  (forall i, (i < pcol n)%nat -> names i = "stiweb_2"%string /\ names (pcol n + i)%nat = "stiweb_3"%string /\
     pmax i 5%nat <= endr i /\ pmax (pcol n + i)%nat 1%nat <= endr (pcol n + i)%nat) /\
  names (2 * pcol n)%nat = "lambda"%string.
Proof. exact stiweb_accepts. Qed.
Theorem C132_stiweb : forall bld pow0 V n eweight sweight punish reach lam names pmax endr,
  check_stiweb n names pmax endr = true ->
  (forall k j, (k < 2 * pcol n)%nat -> V k j <= pmax k j) ->
  (forall k, (k < pcol n)%nat -> endr k <= reach k /\ endr (pcol n + k)%nat <= reach k) ->
  forall cs nconf s, (forall ci, (ci < nconf)%nat -> typed n (cs ci)) ->
  SwModel.calc_forces bld pow0 V lam n eweight sweight punish (fun ci => near n reach (cs ci)) nconf s =
  SwModel.calc_forces bld pow0 V lam n eweight sweight punish cs nconf s.
Proof. exact stiweb_near. Qed.
(** Tersoff: only if S (R2) is bounded by the cutoff, which is not checked *)
Theorem C132_tersoff_partial : forall bld pow0 V n eweight sweight punish reach omega,
  (forall k, (k < pcol n)%nat -> V k 9%nat <= reach k) ->
  forall cs nconf s, (forall ci, (ci < nconf)%nat -> typed n (cs ci)) ->
  TersModel.calc_forces bld pow0 V n eweight sweight punish omega (fun ci => near n reach (cs ci)) nconf s =
  TersModel.calc_forces bld pow0 V n eweight sweight punish omega cs nconf s.
Proof. exact ters_near. Qed.
Theorem C132_tersoffmod_partial : forall bld pow0 V n eweight sweight punish reach,
  (forall k, (k < pcol n)%nat -> V k 15%nat <= reach k) ->
  forall cs nconf s, (forall ci, (ci < nconf)%nat -> typed n (cs ci)) ->
  TersModel.mod_calc_forces bld pow0 V n eweight sweight punish (fun ci => near n reach (cs ci)) nconf s =
  TersModel.mod_calc_forces bld pow0 V n eweight sweight punish cs nconf s.
Proof. exact mod_near. Qed.

Theorem C132_tersoff_refuted : exists n names pmin pmax endr V c,
  check_tersoff n names pmin pmax = true /\ (forall k j, pmin k j <= V k j <= pmax k j) /\ typed n c /\
  forall bld pow0 omega s,
    en (TersModel.atom_body bld pow0 V n omega 0 (near n endr c) 0 s) 0 <> en (TersModel.atom_body bld pow0 V n omega 0 c 0 s) 0.
Proof. exact ters_cutoff. Qed.

(** ** C133: the cutoffs of a Tersoff potential can be ordered *)
Theorem C133_tersoff_accepts : forall n names pmin pmax, check_tersoff n names pmin pmax = true <->
  (forall i, (i < pcol n)%nat -> names i = "tersoff_pot"%string /\ pmin i 10%nat <= pmax i 9%nat) /\
  (forall i, (i < n * (n - 1) / 2)%nat -> names (pcol n + i)%nat = "tersoff_mix"%string).
Proof. exact tersoff_accepts. Qed.
Theorem C133_tersoffmod_accepts : forall n names pmin pmax, check_tersoffmod n names pmin pmax = true <->
  forall i, (i < pcol n)%nat -> names i = "tersoff_mod_pot"%string /\ pmin i 14%nat <= pmax i 15%nat.
Proof. exact tersoffmod_accepts. Qed.
(** refused: R < S is impossible, whatever the parameters *)
Theorem C133_refused_partial : forall n names pmin pmax,
  (forall i, (i < pcol n)%nat -> names i = "tersoff_pot"%string) ->
  (forall i, (i < n * (n - 1) / 2)%nat -> names (pcol n + i)%nat = "tersoff_mix"%string) ->
  check_tersoff n names pmin pmax = false ->
  exists i, (i < pcol n)%nat /\ forall V : nat -> nat -> R, (forall k j, pmin k j <= V k j <= pmax k j) -> V i 9%nat < V i 10%nat.
Proof. exact refused_order. Qed.
(** accepted, but R < S is impossible *)
Theorem C133_order_refuted : exists n names pmin pmax, check_tersoff n names pmin pmax = true /\
  forall V : nat -> nat -> R, (forall k j, pmin k j <= V k j <= pmax k j) -> ~ V 0%nat 10%nat < V 0%nat 9%nat.
Proof. exact no_order. Qed.
(** the exchange of S and R takes them out of their bounds *)
Theorem C133_exchange_refuted : exists n names pmin pmax p p', check_tersoff n names pmin pmax = true /\
  (forall j, (j < 11)%nat -> pmin 0%nat j <= p (2 + j)%nat <= pmax 0%nat j) /\
  apot_check_params 0 true [(TersoffPot, false)] p = Some p' /\ pmax 0%nat 9%nat < p' 11%nat.
Proof. exact exchange. Qed.
(** in the modified form R1 and R2 are never exchanged: the function then ends inside R1 *)
Theorem C133_mod_refuted : exists n names pmin pmax V, check_tersoffmod n names pmin pmax = true /\
  (forall k j, pmin k j <= V k j <= pmax k j) /\ V 0%nat 15%nat < V 0%nat 14%nat /\
  (forall r, r < V 0%nat 15%nat -> mod_f V 0 r = 1) /\ mod_f V 0 (V 0%nat 15%nat) = 0.
Proof. exact mod_order. Qed.

(** C132_stiweb: a file with cutoffs 4, a1 and a2 up to 4 *)
Example C132_ex : let names := fun i => nth i ["stiweb_2"; "stiweb_3"; "lambda"]%string ""%string in
  check_stiweb 1 names (fun _ _ => 4) (fun _ => 4) = true /\ check_stiweb 1 names (fun _ _ => 5) (fun _ => 4) = false /\
  typed 1 (one_atom 3).
Proof.
  cbv zeta. split; [|split].
  - apply stiweb_accepts. split; [|reflexivity]. intros i I. change (i < 1)%nat in I. assert (i = 0%nat) by lia. subst i. repeat split; lra.
  - destruct (check_stiweb _ _ _ _) eqn:E; [|reflexivity]. exfalso. apply stiweb_accepts in E. destruct E as [E _].
    destruct (E 0%nat) as (_ & _ & A & _); [cbn; lia|lra].
  - intro i. split; [cbn; lia|]. intros e [<-|[]]. cbn. lia.
Qed.
(** C133: limits that are refused *)
Example C133_ex : check_tersoff 1 (fun _ => "tersoff_pot"%string) (fun _ _ => 3) (fun _ j => if Nat.eqb j 9 then 2 else 4) = false.
Proof.
  destruct (check_tersoff _ _ _ _) eqn:E; [|reflexivity]. exfalso. apply tersoff_accepts in E. destruct E as [E _].
  destruct (E 0%nat) as (_ & A); [cbn; lia|]. cbn in A. lra.
Qed.

Print Assumptions C132_stiweb_accepts.
Print Assumptions C132_stiweb.
Print Assumptions C132_tersoff_partial.
Print Assumptions C132_tersoffmod_partial.
Print Assumptions C132_tersoff_refuted.
Print Assumptions C133_tersoff_accepts.
Print Assumptions C133_tersoffmod_accepts.
Print Assumptions C133_refused_partial.
Print Assumptions C133_order_refuted.
Print Assumptions C133_exchange_refuted.
Print Assumptions C133_mod_refuted.
