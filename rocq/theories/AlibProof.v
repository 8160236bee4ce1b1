(** The library of analytic functions: table, parameters, relations between the functions. *)
From Coq Require Import Reals List Arith ZArith Bool String Lia Lra.
From Verif Require Import AlibModel.
Import ListNotations.
Local Open Scope R_scope.

(** ** table *)
Definition names (t : list entry) : list string := map (fun e => fst (fst e)) t.
Lemma names_nodup : forall b, NoDup (names (function_list b)).
Proof.
  intros [c s t m n]. assert (D : forall l : list string, (fix nd l := match l with [] => true | x :: l => negb (existsb (String.eqb x) l) && nd l end)%bool l = true -> NoDup l).
  { clear. induction l as [|x l IH]; intros H; [constructor|]. apply andb_prop in H. destruct H as [A B]. constructor; [|auto].
    intros I. apply negb_true_iff in A. assert (existsb (String.eqb x) l = true) by (apply existsb_exists; exists x; split; [auto|apply String.eqb_refl]). congruence. }
  apply D. destruct c, s, t, m; vm_compute; reflexivity.
Qed.
Lemma add_all_nodup : forall l t, NoDup (names (t ++ l)) -> add_all l t = Some (t ++ l)%list.
Proof.
  induction l as [|e l IH]; intros t H; cbn [add_all]; [rewrite app_nil_r; auto|].
  unfold add_potential. match goal with |- context [existsb ?f t] => destruct (existsb f t) eqn:E end.
  - exfalso. apply existsb_exists in E. destruct E as (x & I & Q). apply String.eqb_eq in Q. unfold names in H. rewrite map_app in H. cbn [map] in H.
    apply NoDup_remove_2 in H. apply H. apply in_or_app. left. rewrite <- Q. apply in_map_iff. exists x. auto.
  - rewrite IH; rewrite <- app_assoc; auto.
Qed.
Theorem table_made : forall b, initialize_analytic_potentials b = Some (function_list b).
Proof. intros b. apply add_all_nodup. apply names_nodup. Qed.

Lemma lookup : forall t name k f, NoDup (names t) -> In (name, k, f) t ->
  apot_get_num_parameters t name = Z.of_nat k /\ function_pointer t name = Some f.
Proof.
  induction t as [|[[n k'] f'] t IH]; intros name k f N I; [contradiction|]. cbn [apot_get_num_parameters function_pointer].
  inversion N as [|? ? A B]; subst. destruct I as [E|I].
  - injection E as -> -> ->. rewrite String.eqb_refl. auto.
  - destruct (String.eqb_spec n name) as [->|]; [exfalso; apply A; apply in_map_iff; exists (name, k, f); auto|]. apply IH; auto.
Qed.
Lemma lookup_none : forall t name, ~ In name (names t) -> apot_get_num_parameters t name = (-1)%Z /\ function_pointer t name = None.
Proof.
  induction t as [|[[n k] f] t IH]; intros name H; cbn [apot_get_num_parameters function_pointer]; auto.
  destruct (String.eqb_spec n name) as [->|]; [exfalso; apply H; left; auto|]. apply IH. intros I. apply H. right. auto.
Qed.
Theorem table_lookup : forall b, exists t, initialize_analytic_potentials b = Some t /\
  (forall name k f, In (name, k, f) (function_list b) -> apot_get_num_parameters t name = Z.of_nat k /\ function_pointer t name = Some f) /\
  (forall name, ~ In name (map (fun e => fst (fst e)) (function_list b)) -> apot_get_num_parameters t name = (-1)%Z /\ function_pointer t name = None).
Proof.
  intros b. exists (function_list b). split; [apply table_made|]. split.
  - intros. apply lookup; auto. apply names_nodup.
  - apply lookup_none.
Qed.
Theorem assigned : forall b ns fs, assign_pointers (function_list b) ns = Some fs <->
  Forall2 (fun n f => exists k, In (n, k, f) (function_list b)) ns fs.
Proof.
  intros b. assert (P : forall n f, function_pointer (function_list b) n = Some f <-> exists k, In (n, k, f) (function_list b)).
  { intros n f. split.
    - generalize (function_list b). induction l as [|[[m k] g] l IH]; cbn [function_pointer]; [discriminate|].
      destruct (String.eqb_spec m n) as [->|]; intros H; [injection H as ->; exists k; left; auto|]. destruct (IH H) as [k' I]. exists k'. right. auto.
    - intros [k I]. apply (lookup (function_list b) n k f (names_nodup b) I). }
  induction ns as [|n ns IH]; intros fs; cbn [assign_pointers].
  - split; [intros H; injection H as <-; constructor|intros H; inversion H; auto].
  - split.
    + destruct (function_pointer _ n) as [f|] eqn:E; [|discriminate]. destruct (assign_pointers _ ns) as [l|] eqn:F; [|discriminate].
      intros H; injection H as <-. constructor; [apply P; auto|apply IH; auto].
    + intros H. inversion H as [|? f ? l A B]; subst. apply P in A. rewrite A. apply IH in B. rewrite B. auto.
Qed.

(** ** a function looks only at the parameters it declares *)
Definition declared (b : abuild) (f : afun) (k : nat) : Prop := exists name, In (name, k, f) (function_list b).
Section Dep.
Variable pw : R -> R -> R.
Variables ms_es buck_es : R -> (nat -> R) -> R.
Hypothesis MS : forall r p q, (forall i, (i < 3)%nat -> p i = q i) -> ms_es r p = ms_es r q.
Hypothesis BUCK : forall r p q, (forall i, (i < 3)%nat -> p i = q i) -> buck_es r p = buck_es r q.
Theorem only_declared : forall b f k, declared b f k ->
  forall r p q, (forall i, (i < k)%nat -> p i = q i) -> avalue pw ms_es buck_es f r p = avalue pw ms_es buck_es f r q.
Proof.
  intros [c s t m n] f k [name I] r p q H. revert H. unfold function_list in I. cbn [COULOMB STIWEB TERSOFF TERSOFFMOD ntypes] in I.
  Ltac fin MS BUCK := intros H; cbn [avalue]; try reflexivity; f_equal; try (apply MS; auto; fail); try (apply BUCK; auto; fail);
    cbv beta zeta delta [lj_value eopp_value morse_value ms_value buck_value born_value softshell_value eopp_exp_value meopp_value power_value power_decay_value exp_decay_value bjs_value
      parabola_value harmonic_value acosharmonic_value csw_value csw2_value universal_value const_value sqrt_value mexp_decay_value strmm_value double_morse_value double_exp_value poly_5_value
      kawamura_value kawamura_mix_value exp_plus_value mishin_value gen_lj_value gljm_value vas_value vpair_value sheng_phi1_value sheng_phi2_value sheng_rho_value sheng_F_value stiweb_2_value stiweb_3_value];
    rewrite ?(H 0%nat), ?(H 1%nat), ?(H 2%nat), ?(H 3%nat), ?(H 4%nat), ?(H 5%nat), ?(H 6%nat), ?(H 7%nat), ?(H 8%nat), ?(H 9%nat), ?(H 10%nat), ?(H 11%nat) by lia; reflexivity.
  apply in_app_or in I. destruct I as [I|I]; [cbn [In] in I; repeat (destruct I as [I|I]; [injection I as <- <- <-; try destruct c; fin MS BUCK|]); contradiction|].
  apply in_app_or in I. destruct I as [I|I]; [destruct c; cbn [In] in I; repeat (destruct I as [I|I]; [injection I as <- <- <-; fin MS BUCK|]); contradiction|].
  apply in_app_or in I. destruct I as [I|I]; [cbn [In] in I; repeat (destruct I as [I|I]; [injection I as <- <- <-; fin MS BUCK|]); contradiction|].
  apply in_app_or in I. destruct I as [I|I]; [destruct s; cbn [In] in I; repeat (destruct I as [I|I]; [injection I as <- <- <-; fin MS BUCK|]); contradiction|].
  destruct t; [|contradiction]. destruct m; cbn [In] in I; repeat (destruct I as [I|I]; [injection I as <- <- <-; fin MS BUCK|]); contradiction.
Qed.
End Dep.

(** ** punishments by the start of the name *)
Lemma punish_spec : forall ns i e u, let r := punish_indices ns i e u in
  fst r = (e ++ filter (fun k => starts "eopp"%string (nth (k - i) ns ""%string)) (seq i (List.length ns)))%list /\
  snd r = (u ++ filter (fun k => starts "universal"%string (nth (k - i) ns ""%string) && negb (starts "eopp"%string (nth (k - i) ns ""%string))) (seq i (List.length ns)))%list.
Proof.
  induction ns as [|n ns IH]; intros i e u; cbn [punish_indices List.length seq filter]; [rewrite !app_nil_r; auto|].
  rewrite Nat.sub_diag.
  assert (Q : forall f : string -> bool, filter (fun k => f (nth (k - i) (n :: ns) ""%string)) (seq (S i) (List.length ns)) = filter (fun k => f (nth (k - S i) ns ""%string)) (seq (S i) (List.length ns))).
  { intros f. apply filter_ext_in. intros k K. apply in_seq in K. replace (k - i)%nat with (S (k - S i)) by lia. auto. }
  rewrite (Q (starts "eopp"%string)), (Q (fun s => starts "universal"%string s && negb (starts "eopp"%string s))%bool).
  change (nth 0 (n :: ns) ""%string) with n.
  destruct (starts "eopp"%string n) eqn:E.
  - destruct (IH (S i) (e ++ [i])%list u) as [A B]. cbv zeta in A, B |- *. rewrite A, B. rewrite <- app_assoc. rewrite andb_false_r. auto.
  - destruct (starts "universal"%string n) eqn:U; cbn [andb negb].
    + destruct (IH (S i) e (u ++ [i])%list) as [A B]. cbv zeta in A, B |- *. rewrite A, B. rewrite <- app_assoc. auto.
    + destruct (IH (S i) e u) as [A B]. cbv zeta in A, B |- *. rewrite A, B. auto.
Qed.
