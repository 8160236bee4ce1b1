(** Proofs about PtrModel: the calls of a run; Tersoff. *)
From Coq Require Import ZArith List Bool Arith Lia.
From Verif Require Import LoopUtil PairIndexModel PairIndexProof PtrModel PtrSpec PtrProof PtrProof2.
Import ListNotations.
Local Open Scope Z_scope.

Lemma instance_dec : forall g c p, (exists j, instance g j c p) \/ (forall j, ~ instance g j c p).
Proof.
  intros g c p. destruct (find (fun e => Nat.eqb (fst (snd e)) c && Nat.eqb (snd (snd e)) p) (entries g)) as [[j [c' p']]|] eqn:E.
  - left. exists j. apply find_some in E. destruct E as [I E]. cbn [fst snd] in E. apply andb_prop in E. destruct E as [E1 E2].
    apply Nat.eqb_eq in E1, E2. subst. apply in_entries. auto.
  - right. intros j I. apply in_entries in I. apply (find_none _ _ E) in I. cbn [fst snd] in I. rewrite !Nat.eqb_refl in I. discriminate.
Qed.
Lemma instance_lt : forall g j c p, instance g j c p -> (j < length g)%nat.
Proof. intros g j c p (l & E & _). apply nth_error_Some. congruence. Qed.
(** a pointer to the first parameter tells the array *)
Lemma same_array : forall size gidx g len x y a, 2 < len -> 0 <= gidx -> gidx + Z.of_nat (length g) <= len ->
  (x = y \/ x + len <= y \/ y + len <= x) -> place size gidx g 0 0 (a - y) -> a = x + 2 -> x = y.
Proof.
  intros size gidx g len x y a L G B D [P1 P2] E. destruct (instance_dec g 0 0) as [[j I]|NI].
  - pose proof (instance_lt _ _ _ _ I). apply P1 in I. lia.
  - apply P2 in NI. simpl in NI. lia.
Qed.

Section Calls.
Variables (S : Type) (step : Z -> S -> out S) (init : S) (right : Z -> S -> Prop) (a0 : S -> Z).
Hypothesis fresh : forall x s, a0 s <> x + 2 -> exists s', step x s = Done s' /\ right x s'.
Hypothesis skip : forall x s, a0 s = x + 2 -> step x s = Done s.
Definition calls (xs : list Z) : out S := fold_left (fun o xi => match o with Done s => step xi s | x => x end) xs (Done init).
Lemma calls_right : forall (D : Z -> Z -> Prop), (forall x y s, right y s -> D x y -> a0 s = x + 2 -> x = y) ->
  forall xs x, (forall y z, In y (xs ++ [x]) -> In z (xs ++ [x]) -> D y z) -> (forall y, In y (xs ++ [x]) -> a0 init <> y + 2) ->
  exists s, calls (xs ++ [x]) = Done s /\ right x s.
Proof.
  intros D ARR xs. induction xs as [|y xs IH] using rev_ind; intros x HD H0; unfold calls; rewrite fold_left_app.
  - simpl. apply fresh. apply H0. left. auto.
  - destruct (IH y) as (s & E & R).
    + intros; apply HD; apply in_app_iff; auto.
    + intros; apply H0; apply in_app_iff; auto.
    + unfold calls in E. rewrite E. cbn [fold_left]. destruct (Z.eq_dec (a0 s) (x + 2)) as [Q|Q].
      * exists s. split; [auto|]. rewrite (ARR x y s); auto. apply HD; rewrite !in_app_iff; simpl; auto.
      * apply fresh. auto.
Qed.
End Calls.

Lemma sw_skip : forall n gidx es x s, sp s 0%nat 0%nat = x + 2 -> update_sw n gidx es x s = Done s.
Proof. intros. unfold update_sw. rewrite (proj2 (Z.eqb_eq _ _) H). auto. Qed.
Lemma ter_skip : forall n np m gidx es x s, tp s 0%nat 0%nat = x + 2 -> update_ter n np m gidx es x s = Done s.
Proof. intros. unfold update_ter. rewrite (proj2 (Z.eqb_eq _ _) H). auto. Qed.

Section SwCalls.
Variables (n : nat) (gidx : Z) (g : list (list (nat * nat))).
Hypothesis N1 : (0 < n)%nat.
Hypothesis CON : consistent (sw_size n) g.
Theorem sw_history : (forall j p, instance g j (2 * npair n) p -> (p mod npair n = npair n - 1)%nat) ->
  forall len xs x, 2 < len -> 0 <= gidx -> gidx + Z.of_nat (length g) <= len -> apart len (xs ++ [x]) -> (forall y, In y (xs ++ [x]) -> 0 < y) ->
  exists s, sw_calls n gidx (entries g) (xs ++ [x]) = Done s /\
    (forall c p, (c < 2 * npair n)%nat -> (p < sw_size n c)%nat -> place (sw_size n) gidx g c p (sp s c p - x)) /\
    (forall i j k, (i < n)%nat -> (j < n)%nat -> (k < n)%nat ->
       place (sw_size n) gidx g (2 * npair n) (lambda_par n i j k) (sl s i j k - x)).
Proof.
  intros LG len xs x L2 G0 GL AP POS.
  destruct (calls_right sw_ptr (update_sw n gidx (entries g)) sw_start (sw_right n gidx g) (fun s => sp s 0%nat 0%nat)
    (fun x s NE => update_fresh n N1 x gidx g CON s LG NE) (sw_skip n gidx (entries g))) with (D := fun a b => a = b \/ a + len <= b \/ b + len <= a) (xs := xs) (x := x) as (s & E & R).
  - intros a b s [R _] D E. apply (same_array (sw_size n) gidx g len a b (sp s 0%nat 0%nat)); auto.
    pose proof (pc_pos n N1). apply R; [lia|]. rewrite size2 by lia. lia.
  - intros a b A B. apply AP; auto.
  - intros y Y. cbn [sw_start sp]. specialize (POS y Y). lia.
  - exists s. split; [exact E|]. destruct R as [R1 R2]. auto.
Qed.
Theorem sw_lambda_outside : forall j p, instance g j (2 * npair n) p -> (p mod npair n <> npair n - 1)%nat ->
  forall x xs, 0 < x -> sw_calls n gidx (entries g) (x :: xs) = Outside.
Proof.
  intros j p I NM x xs X. unfold sw_calls. cbn [fold_left]. rewrite (update_outside n N1 x gidx g CON sw_start j p I NM).
  - induction xs; auto.
  - cbn [sw_start sp]. lia.
Qed.
End SwCalls.

(** entries used by chi and omega of the pairs before i *)
Fixpoint mix_before (n i : nat) : Z := match i with O => 0 | S k => if Nat.eqb (k mod n) 0 then mix_before n k else mix_before n k + 4 end.

Section Ter.
Variables (n np : nat) (gidx : Z) (g : list (list (nat * nat))).
Hypothesis N1 : (0 < n)%nat.
Hypothesis NP : (0 < np)%nat.
Hypothesis CON : consistent (ter_size np n) g.
Notation pc := (pairs n).
Definition ter_right (x : Z) (s : ter_ptr) : Prop :=
  forall c p, (c < npair n)%nat -> (p < np)%nat -> place (ter_size np n) gidx g c p (tp s c p - x).
(** what the loop of chi and omega does *)
Definition mix_made (x : Z) (s : ter_ptr) : Prop := forall i, (i < pc)%nat ->
  tm s i = fold_left (put_mix n x gidx i) (entries g)
    (if Nat.eqb (i mod n) 0 then fun _ => One else fun p => At (x + first (ter_size np n) pc + mix_before n i + Z.of_nat p)).
Lemma ter_fresh : forall x s, tp s 0%nat 0%nat <> x + 2 ->
  exists s', update_ter n np false gidx (entries g) x s = Done s' /\ ter_right x s' /\ mix_made x s'.
Proof.
  intros x s NE. unfold update_ter. destruct (Z.eqb_spec (tp s 0%nat 0%nat) (x + 2)); [contradiction|].
  destruct (columns x gidx (ter_size np n) g CON np 0 pc (tp s)) as (P & E & A & _); [lia| |].
  { intros c Hc. unfold ter_size. change (npair n) with pc. destruct (Nat.ltb_spec c pc); [auto|lia]. }
  change (first (ter_size np n) 0) with 2 in E. rewrite E. eexists. split; [reflexivity|]. split.
  { intros c p Hc Hp. apply A; auto. change (npair n) with pc in Hc. lia. }
  unfold mix_made. cbn [tm]. set (base := x + first (ter_size np n) pc).
  assert (Q : (fun i (s : Z * (nat -> nat -> ptr)) => fst s = base + mix_before n i /\ forall k, (k < i)%nat -> snd s k =
    fold_left (put_mix n x gidx k) (entries g) (if Nat.eqb (k mod n) 0 then fun _ => One else fun p => At (base + mix_before n k + Z.of_nat p)))
    pc (for_up 0 pc (mix_body n x gidx (entries g)) (base, tm s))).
  { apply for_up_inv; [lia| |].
    - split; [simpl; lia|intros; lia].
    - intros i [index M] Hi [I1 I2]. cbn [fst snd] in *. unfold mix_body. cbn [mix_before]. destruct (Nat.eqb (i mod n) 0) eqn:Z0; cbn [fst snd].
      + split; [auto|]. intros k K. destruct (Nat.eq_dec k i) as [->|NK]; [rewrite upd_same, Z0; auto|rewrite upd_other by auto; apply I2; lia].
      + split; [lia|]. intros k K. destruct (Nat.eq_dec k i) as [->|NK]; [rewrite upd_same, Z0, I1; auto|rewrite upd_other by auto; apply I2; lia]. }
  intros i Hi. apply Q. auto.
Qed.
Lemma ter_fresh_mod : forall x s, tp s 0%nat 0%nat <> x + 2 ->
  exists s', update_ter n np true gidx (entries g) x s = Done s' /\ ter_right x s'.
Proof.
  intros x s NE. unfold update_ter. destruct (Z.eqb_spec (tp s 0%nat 0%nat) (x + 2)); [contradiction|].
  destruct (columns x gidx (ter_size np n) g CON np 0 pc (tp s)) as (P & E & A & _); [lia| |].
  { intros c Hc. unfold ter_size. change (npair n) with pc. destruct (Nat.ltb_spec c pc); [auto|lia]. }
  change (first (ter_size np n) 0) with 2 in E. rewrite E. eexists. split; [reflexivity|].
  intros c p Hc Hp. apply A; auto. change (npair n) with pc in Hc. lia.
Qed.
Variables (len : Z) (xs : list Z) (x : Z).
Hypothesis L2 : 2 < len.
Hypothesis G0 : 0 <= gidx.
Hypothesis GL : gidx + Z.of_nat (length g) <= len.
Hypothesis AP : apart len (xs ++ [x]).
Hypothesis POS : forall y, In y (xs ++ [x]) -> 0 < y.
Lemma ter_both : exists s, ter_calls n np false gidx (entries g) (xs ++ [x]) = Done s /\ ter_right x s /\ mix_made x s.
Proof.
  destruct (calls_right ter_ptr (update_ter n np false gidx (entries g)) ter_start (fun x s => ter_right x s /\ mix_made x s) (fun s => tp s 0%nat 0%nat) ter_fresh (ter_skip n np false gidx (entries g)))
    with (D := fun a b => a = b \/ a + len <= b \/ b + len <= a) (xs := xs) (x := x) as (s & E & R).
  - intros a b s [R _] D E. apply (same_array (ter_size np n) gidx g len a b (tp s 0%nat 0%nat)); auto.
    apply R; [exact (pc_pos n N1)|auto].
  - intros a b A B. apply AP; auto.
  - intros y Y. cbn [ter_start tp]. specialize (POS y Y). lia.
  - exists s. split; [exact E|]. auto.
Qed.
Theorem ter_history : forall m, exists s, ter_calls n np m gidx (entries g) (xs ++ [x]) = Done s /\
    (forall c p, (c < npair n)%nat -> (p < np)%nat -> place (ter_size np n) gidx g c p (tp s c p - x)).
Proof.
  intros [|].
  - destruct (calls_right ter_ptr (update_ter n np true gidx (entries g)) ter_start ter_right (fun s => tp s 0%nat 0%nat) ter_fresh_mod (ter_skip n np true gidx (entries g)))
      with (D := fun a b => a = b \/ a + len <= b \/ b + len <= a) (xs := xs) (x := x) as (s & E & R).
    + intros a b s R D E. apply (same_array (ter_size np n) gidx g len a b (tp s 0%nat 0%nat)); auto.
      apply R; [exact (pc_pos n N1)|auto].
    + intros a b A B. apply AP; auto.
    + intros y Y. cbn [ter_start tp]. specialize (POS y Y). lia.
    + exists s. split; [exact E|]. auto.
  - destruct ter_both as (s & E & R & _). exists s. split; auto.
Qed.
Lemma put_mix_none : forall i es row, (forall j p, In (j, (pc + i, p))%nat es -> (2 <= p)%nat) -> fold_left (put_mix n x gidx i) es row = row.
Proof.
  unfold entry. induction es as [|[j [c p]] es IH]; intros row H; [auto|]. cbn [fold_left].
  replace (put_mix n x gidx i row (j, (c, p))) with row; [apply IH; intros; eapply H; right; eauto|].
  unfold put_mix. destruct (Nat.eqb_spec c (pc + i)); [|auto]. destruct (Nat.ltb_spec p 2); [|auto]. subst. specialize (H j p (or_introl eq_refl)). lia.
Qed.
Lemma put_mix_at : forall i p es row, (forall a, row p <> One \/ a = One) -> fold_left (put_mix n x gidx i) es row p <> One \/ row p = One.
Proof.
  unfold entry. induction es as [|[j [c q]] es IH] using rev_ind; intros row H; [simpl; specialize (H (At 0)); destruct H; [auto|discriminate]|].
  rewrite fold_left_app. cbn [fold_left]. unfold put_mix at 1. destruct (Nat.eqb c (pc + i) && Nat.ltb q 2); [|auto].
  unfold upd. destruct (Nat.eqb p q); [left; discriminate|auto].
Qed.
(** one or two types, no global chi or omega *)
Theorem ter_mix : (n <= 2)%nat -> (forall j c p, instance g j c p -> (c < npair n)%nat) ->
  exists s, ter_calls n np false gidx (entries g) (xs ++ [x]) = Done s /\
    (forall a b p, (a < b)%nat -> (b < n)%nat -> (p < 2)%nat -> exists q, tm s (Z.to_nat (pair_index (Z.of_nat n) (Z.of_nat a) (Z.of_nat b))) p = At (x + q) /\
       place (ter_size np n) gidx g (mix_col n a b) p q) /\
    (forall a p, (a < n)%nat -> tm s (Z.to_nat (pair_index (Z.of_nat n) (Z.of_nat a) (Z.of_nat a))) p = One).
Proof.
  intros N2 NG. destruct ter_both as (s & E & _ & M). exists s. split; auto.
  assert (Q : forall i, (i < pc)%nat -> tm s i = if Nat.eqb (i mod n) 0 then fun _ => One else fun p => At (x + first (ter_size np n) pc + mix_before n i + Z.of_nat p)).
  { intros i Hi. rewrite (M i Hi). apply put_mix_none. intros j p I. apply in_entries in I. apply NG in I. change (npair n) with pc in I. lia. }
  clear M. assert (n = 1 \/ n = 2)%nat as [EN|EN] by lia; subst n.
  - split; [intros; lia|]. intros a p A. assert (a = 0%nat) by lia. subst. change (Z.to_nat _) with 0%nat. rewrite Q by (vm_compute; lia). auto.
  - split.
    + intros a b p AB B P. assert (a = 0%nat /\ b = 1%nat) as [-> ->] by lia. change (Z.to_nat _) with 1%nat.
      exists (first (ter_size np 2) 3 + Z.of_nat p). split.
      * rewrite Q by (vm_compute; lia). change (1 mod 2)%nat with 1%nat. cbn [Nat.eqb]. change (pairs 2) with 3%nat. change (mix_before 2 1) with 0. f_equal. lia.
      * change (mix_col 2 0 1) with 3%nat. split; [intros j I; apply NG in I; change (npair 2) with 3%nat in I; lia|auto].
    + intros a p A. assert (a = 0 \/ a = 1)%nat as [-> | ->] by lia.
      * change (Z.to_nat _) with 0%nat. rewrite Q by (vm_compute; lia). auto.
      * change (Z.to_nat _) with 2%nat. rewrite Q by (vm_compute; lia). auto.
Qed.
(** three types or more: chi and omega of the last type with itself are not 1 *)
Theorem ter_diagonal : (3 <= n)%nat -> exists s, ter_calls n np false gidx (entries g) (xs ++ [x]) = Done s /\
  forall p, tm s (Z.to_nat (pair_index (Z.of_nat n) (Z.of_nat (n - 1)) (Z.of_nat (n - 1)))) p <> One.
Proof.
  intros N3. destruct ter_both as (s & E & _ & M). exists s. split; auto. intros p.
  pose proof (pidx_le n (n - 1) (n - 1) ltac:(lia)) as PI. pose proof (pairs_spec n) as PS. pose proof (pc_pos n N1) as PP. fold (pidx n (n - 1) (n - 1)).
  assert (EI : Z.to_nat (pidx n (n - 1) (n - 1)) = (pc - 1)%nat) by nia. rewrite EI, M by lia.
  destruct (Nat.eqb_spec ((pc - 1) mod n) 0) as [D|D].
  - exfalso. apply Nat.mod_divide in D; [|lia]. destruct D as [q D].
    assert (EQ : (n * n + n = 2 * q * n + 2)%nat) by nia.
    assert (2 = n * (n + 1 - 2 * q) \/ 2 * q > n + 1)%nat as [K|K] by nia; nia.
  - destruct (put_mix_at (pc - 1) p (entries g) (fun p => At (x + first (ter_size np n) pc + mix_before n (pc - 1) + Z.of_nat p))) as [K|K]; [left; discriminate|exact K|discriminate].
Qed.
Lemma put_mix_last : forall i p es row j, (p < 2)%nat -> In (j, (pc + i, p))%nat es -> (forall j', In (j', (pc + i, p))%nat es -> j' = j) ->
  fold_left (put_mix n x gidx i) es row p = At (global x gidx j).
Proof.
  unfold entry. induction es as [|[j1 [c q]] es IH] using rev_ind; intros row j P I U; [destruct I|].
  rewrite fold_left_app. cbn [fold_left]. unfold put_mix at 1. 
  destruct (Nat.eqb_spec c (pc + i)) as [EC|NC]; cbn [andb].
  - subst c. destruct (Nat.eq_dec q p) as [->|NQ].
    + destruct (Nat.ltb_spec p 2); [|lia]. rewrite upd_same. rewrite (U j1); auto. apply in_app_iff. right. left. auto.
    + assert (R : fold_left (put_mix n x gidx i) es row p = At (global x gidx j)).
      { apply IH; auto; [apply in_app_iff in I; destruct I as [I|[I|[]]]; auto; injection I; intros; subst; contradiction|].
        intros; apply U; apply in_app_iff; auto. }
      destruct (Nat.ltb q 2); [rewrite upd_other by auto|]; auto.
  - apply IH; auto; [apply in_app_iff in I; destruct I as [I|[I|[]]]; auto; injection I; intros; subst; contradiction|].
    intros; apply U; apply in_app_iff; auto.
Qed.
(** a global chi or omega of the types 0 and 1 is used for type 0 with itself, and not for the types 0 and 1 *)
Theorem ter_global : (2 <= n)%nat -> forall j p, (p < 2)%nat -> instance g j (mix_col n 0 1) p -> (forall j', ~ instance g j' (S (mix_col n 0 1)) p) ->
  exists s, ter_calls n np false gidx (entries g) (xs ++ [x]) = Done s /\ tm s 0%nat p = At (x + gidx + Z.of_nat j) /\
    (n <= 2 -> tm s 1%nat p = At (x + first (ter_size np n) (mix_col n 0 1) + Z.of_nat p))%nat.
Proof.
  intros N2 j p P I NI. destruct ter_both as (s & E & _ & M). exists s. split; auto.
  assert (MC : mix_col n 0 1 = pc).
  { unfold mix_col. change (npair n) with pc. pose proof (pidx_le n 0 1 ltac:(lia)) as PI. unfold pidx in PI. change (Z.of_nat 0) with 0 in *. change (Z.of_nat 1) with 1 in *. lia. }
  rewrite MC in *. pose proof (pc_pos n N1) as PP. pose proof (pairs_spec n) as PS.
  split.
  - rewrite M by lia. rewrite (put_mix_last 0 p (entries g) _ j); auto.
    + apply in_entries. rewrite Nat.add_0_r. auto.
    + intros j' I'. apply in_entries in I'. rewrite Nat.add_0_r in I'. destruct CON as [_ U]. eapply U; eauto.
  - intros LE. rewrite (M 1%nat) by nia. clear M. assert (n = 2)%nat by lia. subst n.
    assert (K : forall es row, (forall j', ~ In (j', (pairs 2 + 1, p))%nat es) -> fold_left (put_mix 2 x gidx 1) es row p = row p).
    { unfold entry. induction es as [|[j1 [c q]] es IH] using rev_ind; intros row H; [auto|]. rewrite fold_left_app. cbn [fold_left]. unfold put_mix at 1.
      destruct (Nat.eqb_spec c (pairs 2 + 1)) as [EC|NC]; cbn [andb].
      - subst c. destruct (Nat.eq_dec q p) as [->|NQ]; [exfalso; apply (H j1); apply in_app_iff; right; left; auto|].
        destruct (Nat.ltb q 2); [rewrite upd_other by auto|]; apply IH; intros j' I'; apply (H j'); apply in_app_iff; auto.
      - apply IH; intros j' I'; apply (H j'); apply in_app_iff; auto. }
    rewrite K.
    + change (1 mod 2)%nat with 1%nat. cbn [Nat.eqb]. change (mix_before 2 1) with 0. f_equal. lia.
    + intros j' I'. apply in_entries in I'. apply (NI j'). exact I'.
Qed.
End Ter.
