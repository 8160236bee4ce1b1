(** Analytic tables of files that were read; counterexamples. *)
From Coq Require Import Reals ZArith List Bool String Ascii Lia Lra.
From Verif Require Import LoopUtil ApotModel ApotSpec ApotProof ApotProof2 ApotProof3 ApotProof4.
Import ListNotations.
Local Open Scope R_scope.

(** ** update_apot_table *)
Definition set2 (v : nat -> nat -> R) (i j : nat) (x : R) : nat -> nat -> R :=
  fun i' j' => if (Nat.eqb i' i && Nat.eqb j' j)%bool then x else v i' j'.
Lemma set2_eq : forall v i j x, set2 v i j x i j = x.
Proof. intros. unfold set2. rewrite !Nat.eqb_refl. reflexivity. Qed.
Lemma set2_neq : forall v i j x i' j', (i', j') <> (i, j) -> set2 v i j x i' j' = v i' j'.
Proof.
  intros. unfold set2. destruct (Nat.eqb_spec i' i), (Nat.eqb_spec j' j); simpl; auto. subst. congruence.
Qed.
(** writing a list of cells: the last value for each cell *)
Lemma fold_set2 : forall {T} (cellf : T -> nat * nat) (val : T -> R) l v,
  (forall t t', In t l -> In t' l -> cellf t = cellf t' -> val t = val t') ->
  let v' := fold_left (fun v t => set2 v (fst (cellf t)) (snd (cellf t)) (val t)) l v in
  (forall t, In t l -> v' (fst (cellf t)) (snd (cellf t)) = val t) /\
  (forall i j, (forall t, In t l -> cellf t <> (i, j)) -> v' i j = v i j).
Proof.
  intros T cellf val l. induction l as [|t l IH] using rev_ind; intros v H; cbv zeta.
  - simpl. split; [intros t []|auto].
  - rewrite fold_left_app. cbn [fold_left].
    destruct (IH v) as [A B].
    { intros; apply H; auto; apply in_or_app; auto. }
    set (w := fold_left _ l v) in *. split.
    + intros t' I. destruct (cellf t') as [i' j'] eqn:C'. destruct (cellf t) as [i j] eqn:C. cbn [fst snd].
      destruct (Nat.eq_dec i' i), (Nat.eq_dec j' j).
      * subst. rewrite set2_eq. apply H; [apply in_or_app; simpl; auto|exact I|congruence].
      * rewrite set2_neq by congruence. apply in_app_or in I. destruct I as [I|[<-|[]]]; [|congruence].
        specialize (A t' I). rewrite C' in A. exact A.
      * rewrite set2_neq by congruence. apply in_app_or in I. destruct I as [I|[<-|[]]]; [|congruence].
        specialize (A t' I). rewrite C' in A. exact A.
      * rewrite set2_neq by congruence. apply in_app_or in I. destruct I as [I|[<-|[]]]; [|congruence].
        specialize (A t' I). rewrite C' in A. exact A.
    + intros i j I. assert (N : cellf t <> (i, j)) by (apply I; apply in_or_app; simpl; auto).
      destruct (cellf t) as [i0 j0]. cbn [fst snd]. rewrite set2_neq by congruence. apply B.
      intros t' I'. apply I. apply in_or_app; auto.
Qed.

Definition bound_fixed (a : apot) : Prop :=
  forall q p l, In q (a_pots a) -> In (p, Some l) (q_pars q) -> p_inv p = true /\ (l < List.length (a_globals a))%nat.

Lemma uses_not_free : forall a l i j, bound_fixed a -> In (l, (i, j)) (uses a) -> ~ free_par a i j.
Proof.
  intros a l i j BF U (p & (ps & R & N) & V). apply uses_in in U. destruct U as (_ & q & p' & Q & P).
  assert (I : (i < List.length (a_pots a))%nat) by (apply nth_error_Some; congruence).
  unfold row_of in R. destruct (Nat.ltb_spec i (List.length (a_pots a))); [|lia]. rewrite Q in R. inversion R; subst.
  rewrite nth_error_map, P in N. simpl in N. inversion N; subst.
  destruct (BF q p l) as [B _]; [eapply nth_error_In; eauto|eapply nth_error_In; eauto|]. congruence.
Qed.
Lemma uses_once : forall a l l' i j, In (l, (i, j)) (uses a) -> In (l', (i, j)) (uses a) -> l = l'.
Proof.
  intros a l l' i j U U'. apply uses_in in U. apply uses_in in U'.
  destruct U as (_ & q & p & Q & P), U' as (_ & q' & p' & Q' & P'). rewrite Q in Q'. inversion Q'; subst.
  rewrite P in P'. inversion P'. reflexivity.
Qed.
Lemma have_iff : forall a, have_globals a = true <-> uses a <> [].
Proof. intros. unfold have_globals. destruct (uses a); split; congruence. Qed.

Theorem apot_mirrors : forall nt a xi vals, index_right nt a -> bound_fixed a ->
  let l := read_pot_table0 nt a in
  let v := update_apot_table a l xi vals in
  (forall i j, free_par a i j -> v i j = xi (home nt a l i j)) /\
  (forall g i j, In (g, (i, j)) (uses a) -> v i j = xi (l_global_idx l + Z.of_nat g)%Z) /\
  (forall i j, ~ free_par a i j -> (forall g, ~ In (g, (i, j)) (uses a)) -> v i j = vals i j).
Proof.
  intros nt a xi vals (N1 & N2 & I1 & I2 & _) BF l v. fold l in N1, N2, I1, I2.
  set (v1 := fold_left (fun v (t : nat * nat * nat) => set2 v (snd (fst t)) (snd t) (xi (Z.of_nat (fst (fst t))))) (l_idx l) vals).
  set (v2 := fold_left (fun v (u : nat * (nat * nat)) => set2 v (fst (snd u)) (snd (snd u)) (xi (l_global_idx l + Z.of_nat (fst u))%Z)) (uses a) v1).
  assert (V : v = v2).
  { unfold v, update_apot_table, v2, v1, set2, have_globals. destruct (uses a); reflexivity. }
  destruct (fold_set2 (fun t : nat * nat * nat => (snd (fst t), snd t)) (fun t => xi (Z.of_nat (fst (fst t)))) (l_idx l) vals) as [A B].
  { intros [[p i] j] [[p' i'] j'] H H' E. cbn [fst snd] in *. inversion E; subst i' j'.
    destruct (I1 _ _ _ H) as [_ E1], (I1 _ _ _ H') as [_ E2]. f_equal. congruence. }
  cbv beta iota delta [fst snd] in A, B. fold v1 in A, B.
  destruct (fold_set2 (fun u : nat * (nat * nat) => snd u) (fun u => xi (l_global_idx l + Z.of_nat (fst u))%Z) (uses a) v1) as [C D].
  { intros [g [i j]] [g' [i' j']] H H' E. cbn [fst snd] in *. inversion E; subst i' j'.
    rewrite (uses_once _ _ _ _ _ H H'). reflexivity. }
  fold v2 in C, D. rewrite V. split; [|split].
  - intros i j F. rewrite D.
    + destruct (I2 i j F) as [p P]. rewrite <- (proj2 (I1 p i j P)).
      specialize (A (p, i, j) P). cbn [fst snd] in A. exact A.
    + intros [g u] U E. cbn [snd] in E. subst u. apply (uses_not_free a g i j BF U F).
  - intros g i j U. specialize (C (g, (i, j)) U). cbn [fst snd] in C. exact C.
  - intros i j F U. rewrite D.
    + apply B. intros [[p i'] j'] P E. cbn in E. inversion E; subst. apply F. apply (I1 _ _ _ P).
    + intros [g u] U' E. cbn [snd] in E. subst u. apply (U g U').
Qed.

(** ** The calculation table of a file *)
Lemma read_pars_length : forall opt gs rs ps, read_pars opt gs rs = Some ps -> List.length ps = List.length rs.
Proof.
  induction rs as [|r rs IH]; intros ps H; simpl in H; [inversion H; reflexivity|].
  destruct (read_par opt gs r); [|discriminate]. destruct (read_pars opt gs rs); [|discriminate].
  inversion H; subst. simpl. rewrite (IH _ eq_refl). reflexivity.
Qed.
Lemma smooth_has_par : forall opt gs qs ps, read_potentials opt gs qs = Some ps ->
  forall q, In q ps -> q_smooth q = true -> (1 <= n_par q)%nat.
Proof.
  induction qs as [|q0 qs IH]; intros ps H q I Sm; simpl in H; [inversion H; subst; destruct I|].
  destruct (read_potential opt gs q0) as [p|] eqn:P; [|discriminate].
  destruct (read_potentials opt gs qs) as [ps'|] eqn:Q; [|discriminate]. inversion H; subst.
  destruct I as [<-|I]; [|eauto]. unfold read_potential in P.
  destruct (lines_used q0) as [rs|] eqn:L; [|discriminate].
  destruct (read_pars opt gs rs) as [pp|] eqn:PP; [|discriminate]. inversion P; subst. cbn in Sm.
  unfold n_par. cbn. rewrite (read_pars_length _ _ _ _ PP).
  unfold lines_used in L. destruct (_ <? _)%nat eqn:LT; [discriminate|]. rewrite Sm in L.
  apply Nat.ltb_ge in LT. destruct (_ =? _)%nat eqn:EQ; inversion L; subst.
  - rewrite app_length. simpl. lia.
  - apply Nat.eqb_neq in EQ. change (1 <= List.length (firstn (S (rq_npar q0)) (rq_lines q0)))%nat.
    rewrite firstn_length. lia.
Qed.

Section File.
  Variable fval : nat -> R -> (nat -> R) -> option R.
  Variable cut : nat -> R -> R -> R.
  Variable grad : nat -> (nat -> R) -> R.
  Variable xcoord : nat -> R.
  Variable steps : nat.
  (** update_calc_table with all that read_pot_table0 has set up *)
  Definition file_update (nt : nat) (a : apot) :=
    update_calc_table (List.length (a_pots a)) (npar_of a)
      (fun i => q_smooth (nth i (a_pots a) (Pot false false [])))
      (fun i => q_inv (nth i (a_pots a) (Pot false false [])))
      fval cut grad xcoord (uses a) (pot_first a) (Z.to_nat (l_global_idx (read_pot_table0 nt a))) steps.
  Fixpoint file_run (nt : nat) (a : apot) (xis : list (nat -> R)) (st : (nat -> R) * (nat -> R) * (nat -> R)) :=
    match xis with
    | [] => Some st
    | xi :: rest =>
        match file_update nt a false xi (snd (fst st)) (snd st) with
        | None => None
        | Some st' => file_run nt a rest st'
        end
    end.
  (** column i holds the analytic function at the parameters of [xi] *)
  Definition file_holds (a : apot) (i : nat) (xi tab : nat -> R) : Prop :=
    col_at (npar_of a) (fun i => q_smooth (nth i (a_pots a) (Pot false false []))) fval cut xcoord steps i (params (npar_of a) xi i) tab.
  (** no parameter of potential i is bound to a global parameter *)
  Definition uses_no_global (a : apot) (i : nat) : Prop := forall g j, ~ In (g, (i, j)) (uses a).
  Definition local (a : apot) : Prop :=
    (forall i r p q, (forall k, (k < npar_of a i)%nat -> p k = q k) -> fval i r p = fval i r q) /\
    (forall i p q, (forall k, (k < npar_of a i)%nat -> p k = q k) -> grad i p = grad i q).

  Lemma file_hyps : forall f nt a, read_file f = Some a -> sizes_ok nt a -> cp_free a -> a_elstat a = None ->
    (forall i, (i < List.length (a_pots a))%nat -> pot_first a i = (off (npar_of a) i + 2)%nat) /\
    (forall l m n, In (l, (m, n)) (uses a) -> (m < List.length (a_pots a))%nat /\ (n < npar_of a m)%nat) /\
    (off (npar_of a) (List.length (a_pots a)) <= Z.to_nat (l_global_idx (read_pot_table0 nt a)))%nat /\
    (forall i, q_smooth (nth i (a_pots a) (Pot false false [])) = true -> (1 <= npar_of a i)%nat).
  Proof.
    intros f nt a RF (S1 & S2 & S3 & S4 & S5) CF NE. split; [|split; [|split]].
    - intros i Hi. apply first_is_off. lia.
    - intros l m n U. apply uses_in in U. destruct U as (_ & q & p & Q & P). split.
      + apply nth_error_Some. congruence.
      + unfold npar_of. rewrite (nth_error_nth _ _ _ Q). unfold n_par. apply nth_error_Some. congruence.
    - assert (E : off (npar_of a) (List.length (a_pots a)) = pots_end a).
      { unfold pots_end. cbv zeta. set (m := (List.length (a_pots a) - 1)%nat).
        replace (List.length (a_pots a)) with (S m) by (unfold m; lia). cbn [off].
        rewrite first_is_off by (unfold m; lia). unfold npar_of. lia. }
      rewrite E. unfold read_pot_table0. cbn [l_global_idx].
      destruct (a_cp a) as [c|] eqn:Ec; [|lia].
      destruct S3 as (S3 & _). pose proof (inv_count_le c). lia.
    - intros i H. unfold npar_of. unfold read_file in RF.
      destruct (read_globals (f_opt f) [] (f_globals f)) as [gs|] eqn:G; [|discriminate].
      destruct (read_potentials (f_opt f) gs (f_pots f)) as [pp|] eqn:P; [|discriminate]. inversion RF; subst a; clear RF.
      cbn [a_pots] in *.
      destruct (Nat.lt_ge_cases i (List.length pp)) as [L|L].
      + apply (smooth_has_par _ _ _ _ P); auto. apply nth_In; auto.
      + rewrite nth_overflow in H by auto. discriminate.
  Qed.

  Lemma run_same : forall nt a xis st, file_run nt a xis st =
    run (List.length (a_pots a)) (npar_of a)
      (fun i => q_smooth (nth i (a_pots a) (Pot false false [])))
      (fun i => q_inv (nth i (a_pots a) (Pot false false [])))
      fval cut grad xcoord (uses a) (pot_first a) (Z.to_nat (l_global_idx (read_pot_table0 nt a))) steps xis st.
  Proof.
    intros nt a. induction xis as [|xi xis IH]; intros st; simpl; auto.
    unfold file_update.
    destruct (update_calc_table _ _ _ _ _ _ _ _ _ _ _ _ _ _ _ _); auto.
  Qed.

  Theorem file_current : forall f nt a, read_file f = Some a -> sizes_ok nt a -> cp_free a -> a_elstat a = None -> local a ->
    forall xi0 lst0 tab0 st xis x l t,
    file_update nt a true xi0 lst0 tab0 = Some st -> file_run nt a xis st = Some (x, l, t) ->
    forall i, (i < List.length (a_pots a))%nat ->
    (q_inv (nth i (a_pots a) (Pot false false [])) = false \/
     forall k, (k < npar_of a i)%nat -> params (npar_of a) x i k = params (npar_of a) (fst (fst st)) i k) ->
    file_holds a i x t.
  Proof.
    intros f nt a RF SO CF NE (LF & LG) xi0 lst0 tab0 [[x0 l0] t0] xis x l t U R i Hi Hc.
    destruct (file_hyps f nt a RF SO CF NE) as (H1 & H2 & H3 & H4).
    rewrite run_same in R. unfold file_update in U. unfold file_holds.
    eapply always_current with (invar := fun i => q_inv (nth i (a_pots a) (Pot false false []))); eauto.
    intros; eapply uses_once; eauto.
  Qed.
  Theorem file_params : forall f nt a, read_file f = Some a -> sizes_ok nt a -> cp_free a -> a_elstat a = None -> local a ->
    forall xis y st x l t, file_run nt a (xis ++ [y]) st = Some (x, l, t) ->
    bound_to (npar_of a) (List.length (a_pots a)) (uses a) (Z.to_nat (l_global_idx (read_pot_table0 nt a))) y x.
  Proof.
    intros f nt a RF SO CF NE (LF & LG) xis y st x l t R.
    destruct (file_hyps f nt a RF SO CF NE) as (H1 & H2 & H3 & H4).
    rewrite run_same in R. eapply last_params; eauto. intros; eapply uses_once; eauto.
  Unshelve. exact H4. Qed.
  Theorem file_total : forall f nt a, read_file f = Some a -> sizes_ok nt a -> cp_free a -> a_elstat a = None ->
    forall do_all xi lst tab,
    (forall i, (i < List.length (a_pots a))%nat -> q_smooth (nth i (a_pots a) (Pot false false [])) = true ->
       copy_globals (uses a) (pot_first a) (Z.to_nat (l_global_idx (read_pot_table0 nt a))) xi (off (npar_of a) i + 1 + npar_of a i)%nat <> 0) ->
    (forall i r p, fval i r p <> None) ->
    exists st, file_update nt a do_all xi lst tab = Some st.
  Proof.
    intros f nt a RF SO CF NE do_all xi lst tab H F.
    destruct (file_hyps f nt a RF SO CF NE) as (H1 & H2 & H3 & H4).
    destruct (file_update nt a do_all xi lst tab) as [st|] eqn:E; [eauto|]. exfalso. revert E. unfold file_update.
    apply update_total; auto.
  Qed.
End File.

(** ** Counterexamples *)
Definition fr (v : R) : par := Par "x" v 0 9 false.
Definition fx (v : R) : par := Par "y" v v v true.

(** a fixed chemical potential before a free one *)
Definition w_cp : apot :=
  Apot [Pot false false [(fr 1, None)]; Pot false false [(fr 2, None)]; Pot false false [(fr 3, None)]]
    (Some [fx 4; fr 5]) None None [].
Lemma w_cp_wrong : sizes_ok 2 w_cp /\
  let l := read_pot_table0 2 w_cp in
  In (9%nat, 3%nat, 1%nat) (l_idx l) /\ free_par w_cp 3 1 /\
  home 2 w_cp l 3 1 = 10%Z /\ home 2 w_cp l 3 0 = 9%Z /\ has_par w_cp 3 0 false (fx 4) /\ p_inv (fx 4) = true.
Proof.
  split; [repeat split; simpl; auto|].
  cbv zeta. split; [simpl; tauto|]. split; [exists (fr 5); split; [exists [fx 4; fr 5]; split; reflexivity|reflexivity]|].
  split; [reflexivity|]. split; [reflexivity|]. split; [exists [fx 4; fr 5]; split; reflexivity|reflexivity].
Qed.
(** electrostatics together with a global parameter *)
Definition w_el : apot :=
  Apot [Pot false false [(Par "g!" 7 0 9 true, Some O)]] None (Some ([], fr 5)) None [Par "g" 7 0 9 false].
Lemma w_el_wrong : sizes_ok 1 w_el /\ cp_free w_el /\
  let l := read_pot_table0 1 w_el in
  has_par w_el 2 0 false (fr 5) /\ home 1 w_el l 2 0 = 4%Z /\ nth_error (l_tab l) 4 = Some (Some 7) /\
  has_par w_el 6 0 false (Par "g" 7 0 9 false) /\ home 1 w_el l 6 0 = 3%Z /\ nth_error (l_tab l) 3 = Some (Some 5).
Proof.
  split; [repeat split; simpl; auto|]. split; [intros c H; discriminate|].
  cbv zeta. split; [exists [fr 5]; split; reflexivity|]. split; [reflexivity|]. split; [reflexivity|].
  split; [exists [Par "g" 7 0 9 false]; split; reflexivity|]. split; reflexivity.
Qed.

(** bounds written in the wrong order *)
Definition f_swap : rawfile := RawFile true None None None [] [RawPot 1 false false [Raw "x" 7 2 1]].
Lemma f_swap_out : exists a p, read_file f_swap = Some a /\ has_par a 0 0 false p /\ p_inv p = false /\ p_max p < p_val p.
Proof.
  exists (Apot [Pot false false [(Par "x" 7 1 2 false, None)]] None None None []), (Par "x" 7 1 2 false).
  split.
  - unfold read_file, f_swap. cbn -[check_value]. unfold check_value. cbn [r_min r_max r_val r_name].
    destruct (Req_EM_T 2 1); [lra|]. destruct (Rlt_dec 1 2); [reflexivity|lra].
  - split; [exists [Par "x" 7 1 2 false]; split; reflexivity|]. cbn. split; [reflexivity|lra].
Qed.
(** a charge outside of its bounds *)
Definition f_charge : rawfile := RawFile true None (Some ([], Raw "kappa" 7 1 2)) None [] [RawPot 1 false false [Raw "x" 1 0 2]].
Lemma f_charge_out : exists a p, read_file f_charge = Some a /\ has_par a 2 0 false p /\ p_inv p = false /\ p_max p < p_val p.
Proof.
  exists (Apot [Pot false false [(Par "x" 1 0 2 false, None)]] None (Some ([], Par "kappa" 7 1 2 false)) None []), (Par "kappa" 7 1 2 false).
  split.
  - unfold read_file, f_charge. cbn -[check_value take_value]. unfold check_value, take_value. cbn [r_min r_max r_val r_name].
    destruct (Req_EM_T 1 2); [lra|]. destruct (Req_EM_T 0 2); [lra|]. destruct (Rlt_dec 2 0); [lra|].
    destruct (Rlt_dec 1 0); [lra|]. destruct (Rlt_dec 2 1); [lra|reflexivity].
  - split; [exists [Par "kappa" 7 1 2 false]; split; reflexivity|]. cbn. split; [reflexivity|lra].
Qed.
(** two globals, one name a prefix of the other *)
Lemma prefix_wrong : read_par true [Par "a" 1 0 9 false; Par "ab" 2 0 9 false] (Raw "a!" 0 0 0)
  = Some (Par "a!" 2 0 9 true, Some 1%nat).
Proof. reflexivity. Qed.

(** an invariant potential bound to a global parameter *)
Definition f_inv : rawfile := RawFile true None None None [Raw "a" 1 0 9]
  [RawPot 1 false true [Raw "a!" 0 0 0]].
Definition a_inv : apot := Apot [Pot false true [(Par "a!" 1 0 9 true, Some O)]] None None None [Par "a" 1 0 9 false].
Definition w_fval (i : nat) (r : R) (p : nat -> R) : option R := Some (match i with O => p O | S _ => 0 end).
Definition w_xi (v : R) (k : nat) : R := if Nat.eqb k 3 then v else 0.
Lemma f_inv_read : read_file f_inv = Some a_inv.
Proof.
  unfold read_file, f_inv. cbn -[check_value]. unfold check_value. cbn [r_min r_max r_val r_name].
  destruct (Req_EM_T 0 9); [lra|]. destruct (Rlt_dec 9 0); [lra|].
  destruct (Rlt_dec 1 0); [lra|]. destruct (Rlt_dec 9 1); [lra|]. reflexivity.
Qed.
Lemma calc_inv : forall npar smooth invar fval cut grad xcoord steps i s,
  smooth i = false -> invar i = true ->
  calc_col npar smooth invar fval cut grad xcoord steps false i s =
  Some (Cst (set1 (c_xi s) (c_off s) (grad i (fun k => c_xi s (c_off s + 2 + k)%nat)))
    (snd (compare (npar i) (c_off s + 2) (set1 (c_xi s) (c_off s) (grad i (fun k => c_xi s (c_off s + 2 + k)%nat))) (c_list s)))
    (c_tab s) (c_h s) (c_off s + 2 + npar i)%nat).
Proof. intros. unfold calc_col. rewrite H, H0. cbn [andb orb negb]. rewrite andb_false_r. reflexivity. Qed.
Lemma stale : exists st x l t,
  file_update w_fval (fun _ _ _ => 1) (fun _ _ => 0) (fun _ => 0) 1 1 a_inv true (w_xi 1) (fun _ => 0) (fun _ => 0) = Some st /\
  file_run w_fval (fun _ _ _ => 1) (fun _ _ => 0) (fun _ => 0) 1 1 a_inv [w_xi 2] st = Some (x, l, t) /\
  params (npar_of a_inv) x 0 0 = 2 /\ params (npar_of a_inv) (fst (fst st)) 0 0 = 1 /\
  ~ file_holds w_fval (fun _ _ _ => 1) (fun _ => 0) 1 a_inv 0 x t.
Proof.
  unfold file_run, file_update, update_calc_table.
  change (List.length (a_pots a_inv)) with 1%nat.
  eexists _, _, _, _. split; [vm_compute; reflexivity|].
  split; [cbn [for_up]; unfold for_up; cbn [Nat.sub seq fold_left]; rewrite calc_inv by reflexivity; reflexivity|].
  split; [reflexivity|]. split; [reflexivity|].
  intros H. destruct (H 0%nat ltac:(auto)) as (v & F & T). injection F as F.
  assert (A : v = 2) by (rewrite <- F; reflexivity). assert (B : v = 1) by (etransitivity; [symmetry; exact T|reflexivity]). lra.
Qed.
Lemma stale_local : local w_fval (fun _ _ => 0) a_inv.
Proof. split; intros; auto. unfold w_fval. f_equal. destruct i; auto. Qed.

(** columns that calculate_cutoffs does not look at *)
Definition w_end (c : nat) : R := match c with 3%nat | 4%nat => 8 | 1%nat => 3 | _ => 2 end.
Definition w_end_ang (c : nat) : R := match c with 1%nat => 8 | _ => 2 end.
Lemma uncovered : forall m, In m [MTbeam; MAdp; MMeam; MAng] ->
  exists pend c, In c (reach m 1 0 0) /\ (forall k, 0 < pend k) /\ rcutmax_of m None 1 pend < pend c.
Proof.
  assert (P1 : forall k, 0 < w_end k) by (intros [|[|[|[|[|k]]]]]; simpl; lra).
  assert (P2 : forall k, 0 < w_end_ang k) by (intros [|[|k]]; simpl; lra).
  assert (M : forall a b, a <= b -> Rmax a b = b) by (intros; apply Rmax_right; auto).
  assert (M' : forall a b, b <= a -> Rmax a b = a) by (intros; apply Rmax_left; auto).
  intros m [<-|[<-|[<-|[<-|[]]]]].
  1-3: exists w_end, 3%nat; (split; [cbn; tauto|]); (split; [exact P1|]); unfold rcutmax_of, rcut_of, for_up; cbn [Nat.sub seq fold_left eam_like]; change (w_end (pair_col 1 0 0)) with 2; change (w_end (1 * (1 + 1) / 2 + 0)%nat) with 3; change (w_end 3) with 8; rewrite (M 2 3) by lra; rewrite (M' 3 3) by lra; rewrite M by lra; lra.
  exists w_end_ang, 1%nat. split; [cbn; tauto|]. split; [exact P2|]. unfold rcutmax_of, rcut_of, for_up; cbn [Nat.sub seq fold_left eam_like].
  change (w_end_ang (pair_col 1 0 0)) with 2. change (w_end_ang 1) with 8. rewrite M by lra. lra.
Qed.

(** ** The statements of the counterexamples *)
Lemma fixed_chempot : exists nt a p i j i' j' q, sizes_ok nt a /\
  let l := read_pot_table0 nt a in
  In (p, i, j) (l_idx l) /\ free_par a i j /\ Z.of_nat p <> home nt a l i j /\
  Z.of_nat p = home nt a l i' j' /\ has_par a i' j' false q /\ p_inv q = true.
Proof.
  exists 2%nat, w_cp, 9%nat, 3%nat, 1%nat, 3%nat, 0%nat, (fx 4).
  destruct w_cp_wrong as (A & B & C & D & E & F & G). split; [exact A|]. cbv zeta. rewrite D, E.
  split; [exact B|]. split; [exact C|]. split; [lia|]. split; [reflexivity|]. split; [exact F|exact G].
Qed.
Lemma elstat_globals : exists nt a ka g k, sizes_ok nt a /\ cp_free a /\
  let l := read_pot_table0 nt a in let n := List.length (a_pots a) in
  has_par a (n + 1) 0 false ka /\ has_par a (global_pot a) k false g /\
  nth_error (l_tab l) (Z.to_nat (home nt a l (n + 1) 0)) = Some (Some (p_val g)) /\
  nth_error (l_tab l) (Z.to_nat (home nt a l (global_pot a) k)) = Some (Some (p_val ka)) /\ p_val g <> p_val ka.
Proof.
  exists 1%nat, w_el, (fr 5), (Par "g" 7 0 9 false), 0%nat.
  destruct w_el_wrong as (A & B & C & D & E & F & G & H). split; [exact A|]. split; [exact B|]. cbv zeta.
  change (List.length (a_pots w_el) + 1)%nat with 2%nat. change (global_pot w_el) with 6%nat. rewrite D, G.
  split; [exact C|]. split; [exact F|]. split; [exact E|]. split; [exact H|]. cbn. lra.
Qed.
Lemma swapped : exists f a i j p, read_file f = Some a /\ f_opt f = true /\ elstat_raws f = [] /\
  has_par a i j false p /\ p_inv p = false /\ ~ in_bounds p.
Proof.
  destruct f_swap_out as (a & p & A & B & C & D). exists f_swap, a, 0%nat, 0%nat, p.
  split; [exact A|]. split; [reflexivity|]. split; [reflexivity|]. split; [exact B|]. split; [exact C|].
  unfold in_bounds. lra.
Qed.
Lemma charge_out : exists f a i j p, read_file f = Some a /\ f_opt f = true /\
  (forall r, In r (checked_raws f) -> r_min r <= r_max r) /\
  has_par a i j false p /\ p_inv p = false /\ ~ in_bounds p.
Proof.
  destruct f_charge_out as (a & p & A & B & C & D). exists f_charge, a, 2%nat, 0%nat, p.
  split; [exact A|]. split; [reflexivity|]. split; [intros r [<-|[]]; simpl; lra|]. split; [exact B|]. split; [exact C|].
  unfold in_bounds. lra.
Qed.
Lemma prefix_refuted : exists gs r base p l k, r_name r = (base ++ "!")%string /\ NoDup (map p_name gs) /\
  read_par true gs r = Some (p, Some l) /\ (k < List.length gs)%nat /\ p_name (nth k gs dpar) = base /\ p_name (nth l gs dpar) <> base.
Proof.
  exists [Par "a" 1 0 9 false; Par "ab" 2 0 9 false], (Raw "a!" 0 0 0), "a"%string, (Par "a!" 2 0 9 true), 1%nat, 0%nat.
  split; [reflexivity|]. split; [repeat constructor; cbn; intuition discriminate|]. split; [exact prefix_wrong|].
  split; [simpl; lia|]. split; [reflexivity|discriminate].
Qed.
Lemma invariant_global : exists fval cut grad xcoord steps f nt a,
  read_file f = Some a /\ sizes_ok nt a /\ cp_free a /\ a_elstat a = None /\ local fval grad a /\
  exists xi0 lst0 tab0 st xi x l t, file_update fval cut grad xcoord steps nt a true xi0 lst0 tab0 = Some st /\
  file_run fval cut grad xcoord steps nt a [xi] st = Some (x, l, t) /\ ~ file_holds fval cut xcoord steps a 0 x t.
Proof.
  destruct stale as (st & x & l & t & A & B & _ & _ & C).
  exists w_fval, (fun _ _ _ => 1), (fun _ _ => 0), (fun _ => 0), 1%nat, f_inv, 1%nat, a_inv.
  split; [exact f_inv_read|]. split; [repeat split; simpl; auto|]. split; [intros c H; discriminate|].
  split; [reflexivity|]. split; [exact stale_local|].
  exists (w_xi 1), (fun _ => 0), (fun _ => 0), st, (w_xi 2), x, l, t. split; [exact A|]. split; [exact B|exact C].
Qed.
