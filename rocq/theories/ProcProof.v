From Coq Require Import ZArith List Bool Lia.
From Verif Require Import ProcModel.
Import ListNotations.
Local Open Scope Z_scope.

Section P.
  Variable T : Type.
  Variable b : build.
  Variable setup : list coll.
  Variable bad : nat -> nat -> bool.
  Variable start : T.

  Fixpoint has_work (l : list act) : bool := match l with [] => false | Work :: _ => true | _ :: l' => has_work l' end.
  Fixpoint one_work (l : list act) : bool :=
    match l with [] => true | Work :: l' => negb (has_work l') && match l' with Coll _ :: _ => true | _ => false end | _ :: l' => one_work l' end.
  Definition starts (l : list act) : bool := match l with Coll _ :: _ => true | _ => false end.

  (** worker and root side by side *)
  Definition agree (r w : proc T) : Prop :=
    done w = done r /\
    match place r with
    | AtInit => place w = AtInit
    | InSetup l => l <> [] /\ place w = InSetup l
    | AtOpt => place w = AtOpt
    | AtFlag => place w = AtFlag
    | AtTable f => f <> 1 /\ place w = AtTable f
    | InEval l => place w = InEval l /\ xi w = xi r
    | AtFinal _ => place w = AtFinal true
    | Exited _ => place w = Exited true
    | _ => False
    end.

  Definition pending (q : proc T) : list T :=
    match place q with InEval l => if has_work l then match xi q with Some t => [t] | None => [] end else [] | _ => [] end.

  Definition root_ok (rs : list (request T)) (e : ending) (settled : bool) (r : root T) : Prop :=
    Forall (fun q => fst q <> 1) (todo r) /\ ends r = e /\
    done (rproc r) ++ pending (rproc r) ++ map snd (todo r) = map snd rs /\
    match place (rproc r) with
    | AtTable f => match todo r with [] => False | (f', _) :: _ => f = f' /\ f <> 1 end
    | InEval l => one_work l = true /\ (settled = true -> starts l = true) /\ xi (rproc r) <> None /\ l <> []
    | InSetup l => l <> []
    | AtFinal ok | Exited ok => todo r = [] /\ ok = match e with Reached => true | Failed => false end
    | AtAbort | Crashed => False
    | _ => True
    end.

  Lemma one_work_after : forall f, one_work (after_table b f) = true /\ has_work (after_table b f) = true.
  Proof.
    intros f. assert (G : forall v, one_work (Work :: repeat (Coll ReduceSum) v ++ gather_forces b) = true).
    { intros v. simpl. assert (has_work (repeat (Coll ReduceSum) v ++ gather_forces b) = false) as ->.
      { induction v; simpl; auto. destruct (stress b), (limits b); reflexivity. }
      destruct v; reflexivity. }
    unfold after_table. destruct (negb (apot b) && (f =? 2))%bool; simpl; split; auto; apply G.
  Qed.
  Lemma one_work_tail : forall c l, one_work (Coll c :: l) = true -> one_work l = true.
  Proof. auto. Qed.
  Lemma no_work_one : forall l, has_work l = false -> one_work l = true.
  Proof. induction l as [|[c|] l IH]; simpl; auto; discriminate. Qed.

  (** settling a process *)
  Lemma settle_root_ok : forall rs e r, root_ok rs e false r -> (forall k, (k < length rs)%nat -> bad 0 k = false) ->
    root_ok rs e true (settle_root bad r).
  Proof.
    intros rs e [[pl x d] td en] (F & E & G & P) B. unfold settle_root, settle, root_ok in *. simpl in *.
    destruct pl as [| | | | |l| | | |]; try solve [repeat split; auto; try tauto].
    destruct P as (P1 & _ & P3 & P4). destruct l as [|[c|] l]; [tauto| |].
    - simpl. repeat split; auto.
    - destruct x as [t|]; [|tauto]. unfold pending in G. simpl in G.
      rewrite B.
      2:{ assert (L := f_equal (@length _) G). rewrite !app_length, !map_length in L. simpl in L. rewrite ?map_length in L. lia. }
      simpl in P1 |- *. apply andb_true_iff in P1. destruct P1 as [P1 P5]. apply negb_true_iff in P1. unfold pending. simpl. rewrite P1.
      split; [auto|]. split; [auto|]. split; [rewrite <- app_assoc; exact G|]. split; [apply no_work_one; auto|].
      destruct l as [|[c|] l]; try discriminate P5. repeat split; auto; discriminate.
  Qed.
  Lemma settle_agree : forall p r w, agree r w -> bad p (length (done r)) = false -> bad 0 (length (done r)) = false ->
    agree (settle bad 0 r) (settle bad p w).
  Proof.
    intros p [pl x d] [pl' x' d'] (D & A) B B0. simpl in *. unfold agree, settle. simpl. subst d'.
    destruct pl as [|l| | |f|l| |ok|ok|]; simpl.
    1, 3, 4, 8, 9: subst pl'; simpl; auto.
    4, 5: tauto.
    1, 2: destruct A as [A1 ->]; simpl; auto.
    destruct A as [-> ->]. destruct l as [|[c|] l]; simpl; auto. destruct x; simpl; auto. rewrite B, B0. simpl. auto.
  Qed.
  Lemma settle_idle : forall p (q : proc T), match place q with InEval (Work :: _) => False | _ => True end -> settle bad p q = q.
  Proof. intros p [pl x d]. unfold settle. simpl. destruct pl as [| | | | |[|[|] l]| | | |]; simpl; tauto || auto. Qed.

  Definition running (r : root T) : Prop := match place (rproc r) with Exited _ => False | _ => True end.

  (** the collective the root wants *)
  Lemma root_wants : forall rs e r, root_ok rs e true r -> running r -> exists c, wants b (rproc r) = Some c.
  Proof.
    intros rs e [[pl x d] td en] (F & E & G & P) R. unfold wants, running in *. simpl in *.
    destruct pl as [|l| | | |l| | | |]; try (eexists; reflexivity); try tauto.
    - destruct l; [tauto|eexists; reflexivity].
    - destruct P as (_ & P & _ & N). destruct l as [|[|] l]; [tauto|eexists; reflexivity|]. specialize (P eq_refl). discriminate.
  Qed.
  Lemma agree_wants : forall r w, agree r w -> running (mk_root r [] Reached) -> wants b w = wants b r.
  Proof.
    intros [pl x d] [pl' x' d'] (D & A) R. unfold wants, running in *. simpl in *.
    destruct pl as [|l| | |f|l| |ok|ok|]; try tauto.
    1, 3, 4, 7: subst pl'; auto.
    1, 2: destruct A as [A1 ->]; auto.
    destruct A as [-> ->]. auto.
  Qed.

  Lemma root_next_ok : forall rs e r, root_ok rs e true r -> running r -> root_ok rs e false (root_next b setup r).
  Proof.
    assert (ES : forall rs e l x d td en, Forall (fun q : request T => fst q <> 1) td -> en = e -> d ++ map snd td = map snd rs ->
      root_ok rs e false (mk_root (mk_proc (enter_setup b l) x d) td en)).
    { intros rs e l x d td en F E G. unfold root_ok, enter_setup, pending. destruct l; [destruct (apot b)|]; simpl; repeat split; auto; discriminate. }
    intros rs e [[pl x d] td en] (F & E & G & P) R. unfold running in R. simpl in *. unfold root_next. simpl.
    destruct pl as [|l| | |f|l| |ok| |]; simpl; try tauto.
    - apply ES; auto.
    - destruct l as [|c l]; [tauto|]. apply ES; auto.
    - unfold root_ok. simpl. repeat split; auto.
    - destruct td as [|[f t] td].
      + unfold root_ok. simpl. subst en. repeat split; auto.
      + inversion F as [|? ? F1 F2]; subst. simpl in F1. apply Z.eqb_neq in F1 as F1'. rewrite F1'. unfold root_ok. simpl. repeat split; auto.
    - destruct td as [|[f' t] td]; [tauto|]. destruct P as [<- P]. inversion F; subst. destruct (one_work_after f) as [O1 O2].
      unfold root_ok, pending. simpl. rewrite O2. repeat split; auto; try discriminate. intros N. rewrite N in O2. discriminate.
    - destruct P as (P1 & P2 & P3 & P4). destruct l as [|[c|] l]; [tauto| |specialize (P2 eq_refl); discriminate].
      unfold pending in G. simpl in P1, G. destruct l as [|a l].
      + unfold root_ok, pending. simpl in *. repeat split; auto.
      + unfold root_ok, pending. simpl place. simpl xi. simpl done. simpl todo. simpl ends. repeat split; auto; discriminate.
    - unfold root_ok, pending. simpl. repeat split; tauto.
  Qed.
  Lemma next_agree : forall rs e r w, root_ok rs e true r -> running r -> agree (rproc r) w ->
    agree (rproc (root_next b setup r)) (worker_next b setup w (sends start r)).
  Proof.
    intros rs e [[pl x d] td en] [pl' x' d'] (F & E & G & P) R (D & A). unfold running in R. simpl in *. subst d'.
    unfold root_next, worker_next, sends, agree. simpl.
    assert (ES : forall l, match enter_setup b l with InSetup l' => l' <> [] | AtOpt => True | AtFlag => True | _ => False end)
      by (intros [|c l]; unfold enter_setup; [destruct (apot b)|]; simpl; auto; discriminate).
    destruct pl as [|l| | |f|l| |ok| |]; try tauto.
    - subst. simpl. specialize (ES setup). destruct (enter_setup b setup) eqn:Q; simpl; auto; tauto.
    - destruct A as [_ ->]. destruct l as [|c l]; [tauto|]. simpl. specialize (ES l). destruct (enter_setup b l) eqn:Q; simpl; auto; tauto.
    - subst. simpl. auto.
    - subst. destruct td as [|[f t] td]; simpl; auto. inversion F; subst. simpl in *. destruct (Z.eqb_spec f 1); [tauto|]. simpl. auto.
    - destruct A as [A1 ->]. destruct td as [|[f' t] td]; [tauto|]. destruct P as [-> P]. simpl. auto.
    - destruct A as [-> ->]. destruct P as (P1 & P2 & P3 & P4). destruct l as [|[c|] l]; [tauto| |specialize (P2 eq_refl); discriminate].
      destruct l; simpl; auto.
    - subst. simpl. auto.
  Qed.

  (** how far the root still has to go *)
  Definition K : nat := (3 + length (after_table b 2))%nat.
  Definition left (r : root T) : nat :=
    (length (todo r) * K + match place (rproc r) with
      | AtInit => 4 + length setup | InSetup l => 3 + length l | AtOpt => 3 | AtFlag => 2 | AtTable _ => 1
      | InEval l => 2 + length l | AtAbort => 0 | AtFinal _ => 1 | Exited _ => 0 | Crashed => 0 end)%nat.
  Lemma after_len : forall f, (length (after_table b f) <= length (after_table b 2))%nat.
  Proof. intros f. unfold after_table. rewrite !app_length. destruct (apot b); simpl; auto. destruct (f =? 2); simpl; lia. Qed.
  Lemma left_settle : forall r, (left (settle_root bad r) <= left r)%nat.
  Proof.
    intros [[pl x d] td en]. unfold left, settle_root, settle. simpl. destruct pl as [|l| | |f|l| |ok| |]; simpl; auto.
    destruct l as [|[c|] l]; simpl; auto. destruct x as [t|]; simpl; auto. destruct (bad 0 (length d)); simpl; lia.
  Qed.
  Lemma left_next : forall rs e r, root_ok rs e true r -> running r -> (left (root_next b setup r) < left r)%nat.
  Proof.
    assert (ES : forall l, (match enter_setup b l with
      | AtInit => 4 + length setup | InSetup l => 3 + length l | AtOpt => 3 | AtFlag => 2 | AtTable _ => 1
      | InEval l => 2 + length l | AtAbort => 0 | AtFinal _ => 1 | Exited _ => 0 | Crashed => 0 end <= 3 + length l)%nat)
      by (intros [|c l]; unfold enter_setup; [destruct (apot b)|]; simpl; lia).
    intros rs e [[pl x d] td en] (F & E & G & P) R. unfold running in R. simpl in *. unfold root_next, left. simpl.
    destruct pl as [|l| | |f|l| |ok| |]; simpl; try tauto; try lia.
    - specialize (ES setup). simpl in ES. lia.
    - destruct l as [|c l]; [tauto|]. simpl. specialize (ES l). simpl in ES. lia.
    - destruct td as [|[f t] td]; simpl; [lia|]. inversion F; subst. simpl in *. destruct (Z.eqb_spec f 1); [tauto|]. simpl. lia.
    - destruct td as [|[f' t] td]; [tauto|]. simpl. pose proof (after_len f). unfold K. lia.
    - destruct P as (P1 & P2 & P3 & P4). destruct l as [|[c|] l]; [tauto| |specialize (P2 eq_refl); discriminate].
      destruct l; simpl; lia.
  Qed.

  Definition good (rs : list (request T)) (e : ending) (n : nat) (s : system T) : Prop :=
    length (workers s) = n /\ root_ok rs e true (rt s) /\ Forall (agree (rproc (rt s))) (workers s).

  Lemma in_number : forall (l : list (proc T)) p w, In (p, w) (number l) -> (p <= length l)%nat /\ In w l.
  Proof. intros l p w H. unfold number in H. split; [apply in_combine_l in H; apply in_seq in H; lia|eapply in_combine_r; eauto]. Qed.

  Lemma done_bound : forall rs e st r, root_ok rs e st r -> match place (rproc r) with InEval (Work :: _) => (length (done (rproc r)) < length rs)%nat | _ => True end.
  Proof.
    intros rs e st [[pl x d] td en] (F & E & G & P). simpl in *. destruct pl as [| | | | |l| | | |]; auto. destruct l as [|[c|] l]; auto.
    destruct P as (_ & _ & P & _). destruct x as [t|]; [|tauto]. unfold pending in G. simpl in G.
    assert (L := f_equal (@length _) G). rewrite !app_length, !map_length in L. simpl in L. rewrite ?map_length in L. lia.
  Qed.
  Lemma settle_agree2 : forall p rs e r w, root_ok rs e false r -> agree (rproc r) w ->
    (forall k, (k < length rs)%nat -> bad p k = false) -> (forall k, (k < length rs)%nat -> bad 0 k = false) ->
    agree (settle bad 0 (rproc r)) (settle bad p w).
  Proof.
    intros p rs e r w O A B B0. pose proof (done_bound _ _ _ _ O) as L.
    destruct (place (rproc r)) as [|l| | |f|[|[c|] l]| |ok|ok|] eqn:Q.
    8: apply settle_agree; auto.
    all: assert (I : settle bad 0 (rproc r) = rproc r) by (apply settle_idle; rewrite Q; auto); rewrite I; pose proof A as A'; destruct A as [A1 A2]; rewrite Q in A2; rewrite settle_idle; auto.
    1, 3, 4, 9, 10: rewrite A2; auto.
    5, 6: tauto.
    1, 2: destruct A2 as [_ ->]; auto.
    all: destruct A2 as [-> _]; auto.
  Qed.

  Lemma step_good : forall rs e n s, good rs e n s -> running (rt s) ->
    (forall p k, (p <= n)%nat -> (k < length rs)%nat -> bad p k = false) ->
    exists s', step b setup bad start s = Some s' /\ good rs e n s' /\ (left (rt s') < left (rt s))%nat.
  Proof.
    intros rs e n [r ws] (L & O & A) R B. simpl in *. destruct (root_wants _ _ _ O R) as [c W].
    assert (AI : all_in b c (mk_sys r ws) = true).
    { unfold all_in. apply forallb_forall. intros q Q. simpl in Q. assert (wants b q = Some c) as ->.
      { destruct Q as [<-|Q]; auto. rewrite Forall_forall in A. rewrite <- W. apply agree_wants; auto. }
      destruct (coll_eq_dec c c); auto. }
    unfold step. simpl. rewrite W, AI. eexists. split; [reflexivity|].
    assert (O2 := root_next_ok _ _ _ O R). split; [split; [|split]|]; simpl.
    - rewrite map_length. unfold number. rewrite combine_length, seq_length. lia.
    - apply settle_root_ok; auto. intros k Hk. apply B; auto. lia.
    - apply Forall_forall. intros w Hw. apply in_map_iff in Hw. destruct Hw as ((p, w0) & <- & Hw). apply in_number in Hw. destruct Hw as [Hp Hw].
      simpl. rewrite Forall_forall in A. eapply settle_agree2; eauto.
      + eapply next_agree; eauto.
      + intros k Hk. apply B; auto. lia.
      + intros k Hk. apply B; auto. lia.
    - eapply Nat.le_lt_trans; [apply left_settle|]. eapply left_next; eauto.
  Qed.

  Lemma begin_good : forall rs e n, Forall (fun q : request T => fst q <> 1) rs -> good rs e n (begin_ true n rs e).
  Proof.
    intros rs e n F. unfold good, begin_. simpl. rewrite repeat_length. repeat split; auto.
    apply Forall_forall. intros w Hw. apply repeat_spec in Hw. subst. split; reflexivity.
  Qed.

  Lemma finish : forall rs e n, (forall p k, (p <= n)%nat -> (k < length rs)%nat -> bad p k = false) ->
    forall m s, (left (rt s) < m)%nat -> good rs e n s ->
    exists k s', steps b setup bad start k s = Some s' /\ good rs e n s' /\ ~ running (rt s').
  Proof.
    intros rs e n B m. induction m as [|m IH]; intros s M G; [lia|].
    assert (D : running (rt s) \/ ~ running (rt s)) by (unfold running; destruct (place (rproc (rt s))); auto).
    destruct D as [D|D].
    - destruct (step_good _ _ _ _ G D B) as (s' & S1 & G' & L'). destruct (IH s') as (k & s2 & S2 & G2); [lia|auto|].
      exists (S k), s2. simpl. rewrite S1. auto.
    - exists 0%nat, s. simpl. auto.
  Qed.

  Theorem all_finish : forall rs e n, Forall (fun q : request T => fst q <> 1) rs ->
    (forall p k, (p <= n)%nat -> (k < length rs)%nat -> bad p k = false) ->
    exists k s, steps b setup bad start k (begin_ true n rs e) = Some s /\ length (workers s) = n /\
      place (rproc (rt s)) = Exited (match e with Reached => true | Failed => false end) /\ done (rproc (rt s)) = map snd rs /\
      forall w, In w (workers s) -> place w = Exited true /\ done w = map snd rs.
  Proof.
    intros rs e n F B. destruct (finish rs e n B _ _ (Nat.lt_succ_diag_r _) (begin_good rs e n F)) as (k & s & S1 & (L & O & A) & N).
    exists k, s. destruct s as [r ws]. simpl in *. destruct r as [[pl x d] td en]. destruct O as (_ & _ & G & P). unfold running in N. simpl in *.
    destruct pl; try tauto. destruct P as [P1 P2]. simpl in *. subst td. unfold pending in G. simpl in G. rewrite app_nil_r in G. subst ok.
    split; auto. split; auto. split; auto. split; auto. rewrite Forall_forall in A. intros w Hw. destruct (A w Hw) as [A1 A2]. simpl in *. rewrite A1, G. auto.
  Qed.

  (** at all times *)
  Lemma not_running_step : forall s, ~ running (rt s) -> step b setup bad start s = None.
  Proof. intros [r ws] N. unfold running, step in *. simpl in *. unfold wants. destruct (place (rproc r)); tauto || auto. Qed.
  Lemma steps_good : forall rs e n, (forall p k, (p <= n)%nat -> (k < length rs)%nat -> bad p k = false) ->
    forall k s s', good rs e n s -> steps b setup bad start k s = Some s' -> good rs e n s'.
  Proof.
    intros rs e n B k. induction k as [|k IH]; intros s s' G H; simpl in H; [injection H as <-; auto|].
    assert (D : running (rt s) \/ ~ running (rt s)) by (unfold running; destruct (place (rproc (rt s))); auto).
    destruct D as [D|D].
    - destruct (step_good _ _ _ _ G D B) as (s2 & S1 & G' & _). rewrite S1 in H. eauto.
    - rewrite not_running_step in H by auto. discriminate.
  Qed.
  Definition left_loop (q : proc T) : Prop := match place q with AtFinal _ | Exited _ => True | _ => False end.
  Theorem lockstep : forall rs e n, Forall (fun q : request T => fst q <> 1) rs ->
    (forall p k, (p <= n)%nat -> (k < length rs)%nat -> bad p k = false) ->
    forall k s, steps b setup bad start k (begin_ true n rs e) = Some s -> forall w, In w (workers s) ->
      done w = done (rproc (rt s)) /\ (left_loop w <-> left_loop (rproc (rt s))) /\ (left_loop w -> done w = map snd rs) /\
      exists more, map snd rs = done w ++ more.
  Proof.
    intros rs e n F B k s H w Hw. assert (G := steps_good _ _ _ B _ _ _ (begin_good rs e n F) H). destruct s as [r ws]. destruct G as (L & O & A).
    simpl in *. rewrite Forall_forall in A. destruct (A w Hw) as [D P]. split; auto. destruct O as (_ & _ & G & Q).
    rewrite D. split; [|split].
    - unfold left_loop. destruct (place (rproc r)) as [|l| | |f|l| |ok|ok|]; try tauto.
      1, 3, 4, 7, 8: rewrite P; tauto.
      1, 2: destruct P as [_ ->]; tauto.
      destruct P as [-> _]; tauto.
    - intros W. unfold left_loop in W. unfold pending in G. destruct (place (rproc r)) as [|l| | |f|l| |ok|ok|]; try tauto.
      1, 3, 4: rewrite P in W; tauto.
      1, 2: destruct P as [_ P]; rewrite P in W; tauto.
      1: destruct P as [P _]; rewrite P in W; tauto.
      all: destruct Q as [Q _]; rewrite Q in G; simpl in G; rewrite app_nil_r in G; auto.
    - eexists. symmetry. exact G.
  Qed.

  (** An error while the root reads its input: it leaves, the workers wait for ever. *)
  Theorem input_error : forall rs e n, step b setup bad start (begin_ false n rs e) = None /\
    forall w, In w (workers (begin_ false n rs e)) -> place w = AtInit.
  Proof. intros. split; [reflexivity|]. simpl. intros w Hw. apply repeat_spec in Hw. subst. reflexivity. Qed.
End P.

(** An error in an evaluation, on the root or on a worker: the processes are in different
    collective operations. *)
Definition pair_build : build := mk_build true true false 0 10 3 1 10.
Theorem eval_error : forall who, (who <= 1)%nat -> exists k s, steps (T := Z) pair_build [] (fun p _ => Nat.eqb p who) 7 k (begin_ true 1 [(0, 7)] Reached) = Some s /\
  step pair_build [] (fun p _ => Nat.eqb p who) 7 s = None /\
  (exists w, workers s = [w] /\ place w <> Exited true /\ wants pair_build w <> wants pair_build (rproc (rt s)) /\ wants pair_build w <> None) /\
  place (rproc (rt s)) <> Exited false.
Proof.
  intros who H. assert (D : who = 0%nat \/ who = 1%nat) by lia. destruct D as [-> | ->]; exists 4%nat; eexists; (split; [reflexivity|]); simpl.
  - split; auto. split; [|discriminate]. eexists. split; [reflexivity|]. simpl. repeat split; discriminate.
  - split; auto. split; [|discriminate]. eexists. split; [reflexivity|]. simpl. repeat split; discriminate.
Qed.
