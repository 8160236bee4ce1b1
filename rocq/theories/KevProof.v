(** Proofs about the evaluation of KIM models. *)
From Coq Require Import Reals ZArith List Bool Lia Lra.
From Verif Require Import KevModel KevSpec.
Import ListNotations.
Local Open Scope R_scope.

Lemma sum_to_front : forall n f, sum_to (S n) f = f 0%nat + sum_to n (fun i => f (S i)).
Proof. induction n as [|n IH]; intros f; [cbn; lra|]. change (sum_to (S (S n)) f) with (sum_to (S n) f + f (S n)). rewrite IH. cbn. lra. Qed.
Lemma sum_to_ext : forall n f g, (forall k, f k = g k) -> sum_to n f = sum_to n g.
Proof. induction n as [|n IH]; intros f g H; [reflexivity|]. cbn. rewrite (IH f g H), H. reflexivity. Qed.
Lemma sum_shift : forall n i (f : nat -> R), f (i + 0)%nat + sum_to n (fun j => f (S i + j)%nat) = sum_to (S n) (fun j => f (i + j)%nat).
Proof.
  intros n i f. rewrite sum_to_front. f_equal. apply sum_to_ext. intros k. f_equal. lia.
Qed.

Section Score.
Variables stress fweight : bool.
Variables eweight sweight : R.
Notation fe := (force_entry fweight).
Notation ee := (energy_entry eweight).
Notation se := (stress_entry stress sweight).

Definition atom_square (c : conf) (r : result) (i : nat) : R :=
  if c_contrib c i then sum_to 3 (fun k => Rsqr (fe c r i k)) else 0.
Lemma force_errors_sum : forall c r todo i sum,
  force_errors fweight c r todo i sum = sum + sum_to todo (fun j => atom_square c r (i + j)).
Proof.
  intros c r todo; induction todo as [|todo IH]; intros i sum; [cbn; lra|].
  cbn [force_errors]. rewrite IH. rewrite <- (sum_shift todo i (atom_square c r)). rewrite Nat.add_0_r.
  unfold atom_square at 2. destruct (c_contrib c i); cbn [sum_to]; lra.
Qed.
Lemma stress_errors_sum : forall c r todo k sum,
  stress_errors stress sweight c r todo k sum = sum + sum_to todo (fun j => Rsqr (se c r (k + j)%nat)).
Proof.
  intros c r todo; induction todo as [|todo IH]; intros k sum; [cbn; lra|].
  cbn [stress_errors]. rewrite IH. rewrite <- (sum_shift todo k (fun j => Rsqr (se c r j))). rewrite Nat.add_0_r. lra.
Qed.
Definition conf_square (cr : conf * result) : R :=
  let '(c, r) := cr in
  sum_to (c_atoms c) (fun i => if c_contrib c i then sum_to 3 (fun k => Rsqr (fe c r i k)) else 0) + Rsqr (ee c r) +
  sum_to 6 (fun k => Rsqr (se c r k)).
Lemma conf_errors_sum : forall c r sum,
  conf_errors stress fweight eweight sweight c r sum = sum + conf_square (c, r).
Proof.
  intros c r sum. unfold conf_errors, conf_square. rewrite force_errors_sum.
  change (fun j : nat => atom_square c r (0 + j)) with (fun i => if c_contrib c i then sum_to 3 (fun k => Rsqr (fe c r i k)) else 0).
  destruct (stress && c_uf c && c_us c)%bool eqn:E.
  - rewrite stress_errors_sum. cbn [plus]. lra.
  - assert (Z : sum_to 6 (fun k => Rsqr (se c r k)) = 0).
    { unfold stress_entry. rewrite E. cbn. unfold Rsqr. lra. }
    rewrite Z. lra.
Qed.
Lemma all_errors_sum : forall cs sum,
  all_errors stress fweight eweight sweight cs sum = sum + sum_over conf_square cs.
Proof.
  induction cs as [|[c r] cs IH]; intros sum; [cbn; lra|].
  cbn [all_errors sum_over]. rewrite IH, conf_errors_sum. lra.
Qed.
Lemma punish_sum : forall ps sum, (forall x mn mx, In (x, mn, mx) ps -> mn <= mx) ->
  punish ps sum = sum + APOT_PUNISH * sum_over outside ps.
Proof.
  induction ps as [|[[x mn] mx] ps IH]; intros sum H; [cbn [punish sum_over]; lra|].
  cbn [punish sum_over]. assert (O := H x mn mx (or_introl eq_refl)).
  rewrite IH by (intros; eapply H; right; eassumption). unfold outside.
  destruct (Rlt_dec x mn) as [A|A].
  - rewrite (Rmax_left (mn - x) (x - mx)) by lra. rewrite (Rmax_left (mn - x) 0) by lra. unfold Rsqr. lra.
  - destruct (Rlt_dec mx x) as [B|B].
    + rewrite (Rmax_right (mn - x) (x - mx)) by lra. rewrite (Rmax_left (x - mx) 0) by lra. unfold Rsqr. lra.
    + assert (Z : Rmax (Rmax (mn - x) (x - mx)) 0 = 0).
      { apply Rmax_right. apply Rmax_lub; lra. }
      rewrite Z. unfold Rsqr. lra.
Qed.
Theorem error_sum : forall cs ps, (forall x mn mx, In (x, mn, mx) ps -> mn <= mx) ->
  kim_error stress fweight eweight sweight cs ps =
    sum_over (fun cr => let '(c, r) := cr in
      sum_to (c_atoms c) (fun i => if c_contrib c i then sum_to 3 (fun k => Rsqr (fe c r i k)) else 0) +
      Rsqr (ee c r) + sum_to 6 (fun k => Rsqr (se c r k))) cs + 10 ^ 7 * sum_over outside ps.
Proof.
  intros cs ps H. unfold kim_error. rewrite (punish_sum ps _ H), all_errors_sum. unfold APOT_PUNISH.
  change (fun cr : conf * result => _) with conf_square. lra.
Qed.

(** entries *)
Theorem entries : forall c r,
  (forall i k, fweight = false -> c_uf c = true -> fe c r i k = sqrt (c_weight c) * (r_f r i k - c_f0 c i k)) /\
  (forall i k, fweight = true -> c_uf c = true ->
     fe c r i k = sqrt (c_weight c) * (r_f r i k - c_f0 c i k) / (1 / 10 + c_abs c i)) /\
  (forall i k, c_uf c = false -> fe c r i k = 0) /\
  ee c r = sqrt (c_weight c * eweight) * (r_e r - c_e0 c) /\
  (forall k, stress = true -> c_uf c = true -> c_us c = true ->
     se c r k = sqrt (c_weight c * sweight) * (r_v r k / c_vol c - c_s0 c k)) /\
  (forall k, stress = false \/ c_uf c = false \/ c_us c = false -> se c r k = 0).
Proof.
  intros c r. unfold force_entry, energy_entry, stress_entry, FORCE_EPS.
  split; [intros i k -> ->; reflexivity|]. split; [intros i k -> ->; unfold Rdiv; rewrite (Rmult_1_l (/ 10)); reflexivity|].
  split; [intros i k ->; destruct fweight; unfold Rdiv; lra|]. split; [lra|].
  split; [intros k -> -> ->; cbn; unfold Rdiv; lra|].
  intros k [-> |[-> | ->]]; rewrite ?andb_false_r; reflexivity.
Qed.
End Score.

(** the energy of two atoms is compared with the energy of one *)
Theorem energy_per_atom : exists c r, c_weight c = 1 /\ c_atoms c = 2%nat /\
  r_e r / INR (c_atoms c) = c_e0 c /\ forall eweight, 0 < eweight -> energy_entry eweight c r <> 0.
Proof.
  exists (Conf 2 1 true true 1 (fun _ _ => 0) (-3) (fun _ => 0) (fun _ => 0) (fun _ => true)), (Result (fun _ _ => 0) (-6) (fun _ => 0)).
  split; [reflexivity|]. split; [reflexivity|]. split; [simpl; lra|].
  intros ew H. unfold energy_entry. cbn. rewrite Rmult_1_l. pose proof (sqrt_lt_R0 ew H). intros E. nra.
Qed.
(** reference stresses that agree with the virial, in the conventions of potfit *)
Theorem stress_conventions : exists c r t, c_uf c = true /\ c_us c = true /\ c_weight c = 1 /\ c_vol c = 1 /\
  (forall a b, t a b = t b a) /\ (forall k, r_v r k = kim_order t k) /\
  (forall k, c_s0 c k = - potfit_order t k / c_vol c) /\
  forall sweight, 0 < sweight -> forall k, (k < 6)%nat -> stress_entry true sweight c r k <> 0.
Proof.
  set (t := fun a b => match a, b with 0%nat, 0%nat => 1 | 1%nat, 1%nat => 2 | 2%nat, 2%nat => 3 | _, _ => INR (a + b) end).
  exists (Conf 1 1 true true 1 (fun _ _ => 0) 0 (fun k => - potfit_order t k / 1) (fun _ => 0) (fun _ => true)), (Result (fun _ _ => 0) 0 (kim_order t)), t.
  split; [reflexivity|]. split; [reflexivity|]. split; [reflexivity|]. split; [reflexivity|].
  split; [intros [|[|[|a]]] [|[|[|b]]]; unfold t; try reflexivity; rewrite Nat.add_comm; reflexivity|].
  split; [reflexivity|]. split; [reflexivity|].
  intros sw H k K. unfold stress_entry. cbn [c_uf c_us c_weight c_vol c_s0 r_v andb]. rewrite Rmult_1_l.
  pose proof (sqrt_lt_R0 sw H) as P. unfold t.
  do 6 (destruct k as [|k]; [cbn; intros E; nra|]). lia.
Qed.
(** if only sign and order were exchanged: what would be compared *)
Theorem stress_entries : forall sweight c r t, c_uf c = true -> c_us c = true -> (forall a b, t a b = t b a) ->
  (forall k, r_v r k = kim_order t k) -> (forall k, c_s0 c k = - potfit_order t k / c_vol c) ->
  let w := sqrt (c_weight c * sweight) in
  (forall k, (k < 3)%nat -> stress_entry true sweight c r k = w * (2 * t k k / c_vol c)) /\
  stress_entry true sweight c r 3 = w * ((t 1%nat 2%nat + t 0%nat 1%nat) / c_vol c) /\
  stress_entry true sweight c r 4 = w * ((t 2%nat 0%nat + t 1%nat 2%nat) / c_vol c) /\
  stress_entry true sweight c r 5 = w * ((t 0%nat 1%nat + t 2%nat 0%nat) / c_vol c).
Proof.
  intros sw c r t U S T V R w. unfold stress_entry. rewrite U, S. cbn [andb]. fold w.
  split.
  - intros k K. rewrite V, R. destruct k as [|[|[|k]]]; [| | |lia]; cbn; unfold Rdiv; ring.
  - rewrite !V, !R. cbn. rewrite (T 0%nat 2%nat). split; [|split]; unfold Rdiv; ring.
Qed.

(** ** Cutoffs *)
Lemma one_cutoff_spec : forall o n c, one_cutoff o n = Some c -> c = n /\ n <= o.
Proof.
  intros o n c H. unfold one_cutoff in H. destruct (Req_EM_T o n) as [E|E]; [injection H as <-; lra|].
  destruct (Rlt_dec n o); [injection H as <-; lra|discriminate].
Qed.
Lemma list_cutoffs_spec : forall f o n l, list_cutoffs f o n = Some l -> l = n /\ Forall2 (fun a b => a <= b) n o.
Proof.
  intros f o; induction o as [|a o IH]; intros n l H; destruct n as [|b n]; cbn in H; try discriminate.
  - injection H as <-. split; [reflexivity|constructor].
  - destruct f; [|discriminate]. destruct (one_cutoff a b) as [c|] eqn:E; [|discriminate].
    destruct (list_cutoffs true o n) as [cs|] eqn:F; [|discriminate]. injection H as <-.
    destruct (one_cutoff_spec _ _ _ E) as [-> L]. destruct (IH _ _ F) as [-> M].
    split; [reflexivity|constructor; assumption].
Qed.
Lemma check_spec : forall f o n k, check_cutoffs f o n = Some k -> k = n /\ covered o n.
Proof.
  intros f o n k H. unfold check_cutoffs in H.
  destruct (one_cutoff (k_infl o) (k_infl n)) as [i|] eqn:E; [|discriminate].
  destruct (list_cutoffs f (k_lists o) (k_lists n)) as [l|] eqn:F; [|discriminate]. cbn in H. injection H as <-.
  destruct (one_cutoff_spec _ _ _ E) as [-> L]. destruct (list_cutoffs_spec _ _ _ _ F) as [-> M].
  destruct n as [nl ni]. split; [reflexivity|]. split; assumption.
Qed.
Lemma forall2_trans : forall a b c : list R, Forall2 (fun x y => x <= y) a b -> Forall2 (fun x y => x <= y) b c -> Forall2 (fun x y => x <= y) a c.
Proof.
  intros a b c H; revert c; induction H as [|x y a b L H IH]; intros c M; inversion M; subst; constructor; [lra|apply IH; assumption].
Qed.
Theorem history_covered : forall f ks k0 st, history f k0 ks = Some st ->
  (forall k, In k ks -> covered k0 k) /\ st = last ks k0.
Proof.
  intros f ks; induction ks as [|k ks IH]; intros k0 st H; cbn in H.
  - injection H as <-. split; [intros k []|reflexivity].
  - destruct (check_cutoffs f k0 k) as [s|] eqn:E; [|discriminate].
    destruct (check_spec _ _ _ _ E) as [-> C]. destruct (IH _ _ H) as [A B].
    split.
    + intros k' [<-|I]; [exact C|]. destruct (A k' I) as [A1 A2]. destruct C as [C1 C2].
      split; [lra|exact (forall2_trans _ _ _ A2 C2)].
    + rewrite B. destruct ks as [|k' ks]; [reflexivity|]. cbn [last].
      clear. revert k'. induction ks as [|q ks IH]; intros k'; [reflexivity|]. cbn [last]. apply IH.
Qed.
Lemma max_from_ge : forall l m, m <= max_from m l /\ forall a, In a l -> a <= max_from m l.
Proof.
  induction l as [|b l IH]; intros m; cbn; [split; [lra|intros a []]|].
  destruct (Rlt_dec m b) as [L|L].
  - destruct (IH b) as [A B]. split; [lra|]. intros a [<-|I]; [exact A|exact (B a I)].
  - destruct (IH m) as [A B]. split; [exact A|]. intros a [<-|I]; [lra|exact (B a I)].
Qed.
Theorem lists_suffice : forall f flags k0 rcut ks st k, read_max_cutoff flags k0 = Some rcut ->
  history f k0 ks = Some st -> In k ks ->
  k_infl k <= rcut /\ forall a, In a (k_lists k) -> a <= rcut.
Proof.
  intros f flags k0 rcut ks st k R H I. unfold read_max_cutoff in R.
  destruct (forallb (fun b => b) flags); [|discriminate]. injection R as <-.
  destruct (proj1 (history_covered f ks k0 st H) k I) as [A B].
  destruct (max_from_ge (k_lists k0) (k_infl k0)) as [M N]. split; [lra|].
  intros a Ia. revert N. generalize (max_from (k_infl k0) (k_lists k0)). clear -B Ia. intros m. induction B as [|x y l l' L B IH]; intros N; [destruct Ia|].
  destruct Ia as [<-|Ia].
  - pose proof (N y (or_introl eq_refl)). lra.
  - apply IH; [exact Ia|]. intros b Ib. exact (N b (or_intror Ib)).
Qed.
Theorem back_stops : exists k0 k1, covered k0 k1 /\ covered k0 k0 /\ history true k0 [k1] = Some k1 /\ history true k0 [k1; k0] = None.
Proof.
  exists (Cuts [] 2), (Cuts [] 1). split; [split; [cbn; lra|constructor]|]. split; [split; [cbn; lra|constructor]|].
  unfold history, check_cutoffs, one_cutoff. cbn [k_infl k_lists].
  destruct (Req_EM_T 2 1); [lra|]. destruct (Rlt_dec 1 2); [|lra]. cbn.
  destruct (Req_EM_T 1 2); [lra|]. destruct (Rlt_dec 2 1); [lra|]. split; reflexivity.
Qed.

(** ** get_neigh *)
Theorem neighbours_of : forall n s p, (0 <= p)%Z ->
  ((p < n)%Z -> get_neigh n s p = Of (s + p)) /\ ((n < p)%Z -> get_neigh n s p = Stop) /\
  get_neigh n s n = Of (s + n).
Proof.
  intros n s p P. unfold get_neigh. split; [|split].
  - intros H. destruct (Z.ltb_spec n p); [lia|reflexivity].
  - intros H. destruct (Z.ltb_spec n p); [reflexivity|lia].
  - rewrite Z.ltb_irrefl. reflexivity.
Qed.
