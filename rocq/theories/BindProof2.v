(** Stillinger-Weber *)
From Coq Require Import List Arith Bool Lia FinFun.
From Verif Require Import LoopUtil BindModel BindSpec BindProof.
Import ListNotations.

Lemma fold_flat_map : forall A B S (f : A -> list B) (g : S -> B -> S) l s,
  fold_left g (flat_map f l) s = fold_left (fun s x => fold_left g (f x) s) l s.
Proof. intros A B S f g l. induction l; intros s; simpl; auto. rewrite fold_left_app. apply IHl. Qed.
Lemma fold_map : forall A B S (f : A -> B) (g : S -> B -> S) l s,
  fold_left g (map f l) s = fold_left (fun s x => g s (f x)) l s.
Proof. intros A B S f g l. induction l; intros s; simpl; auto. Qed.
Lemma fold_cong : forall A S (g h : S -> A -> S) l s,
  (forall s x, g s x = h s x) -> fold_left g l s = fold_left h l s.
Proof. intros A S g h l. induction l; intros s H; simpl; auto. rewrite H. apply IHl. exact H. Qed.

Definition lstep (s : lams * nat) (q : nat * (nat * nat)) : lams * nat :=
  let '(i, (j, k)) := q in (set3 (set3 (fst s) i j k (snd s)) i k j (snd s), S (snd s)).

Lemma bind_lambda_fold : forall n s, bind_lambda n s = fold_left lstep (triples n) s.
Proof.
  intros n s. unfold bind_lambda, triples, row, for_up. rewrite fold_flat_map, Nat.sub_0_r.
  apply fold_cong. intros s1 i. rewrite fold_map, fold_flat_map. apply fold_cong.
  intros s2 j. rewrite fold_map. apply fold_cong. reflexivity.
Qed.

Lemma set3_same : forall t i j k a, set3 t i j k a i j k = a.
Proof. intros. unfold set3. rewrite !Nat.eqb_refl. reflexivity. Qed.
Lemma set3_other : forall t i j k a i' j' k', i' <> i \/ j' <> j \/ k' <> k ->
  set3 t i j k a i' j' k' = t i' j' k'.
Proof.
  intros t i j k a i' j' k' H. unfold set3.
  destruct (Nat.eqb_spec i' i), (Nat.eqb_spec j' j), (Nat.eqb_spec k' k); simpl; auto. lia.
Qed.
Lemma set3_pair : forall t i j k a, set3 (set3 t i j k a) i k j a i j k = a /\
  set3 (set3 t i j k a) i k j a i k j = a.
Proof.
  intros. split; [|apply set3_same]. destruct (Nat.eq_dec j k) as [E|E].
  - subst. apply set3_same.
  - rewrite set3_other by auto. apply set3_same.
Qed.

Lemma lambda_fold_spec : forall l t a,
  NoDup l -> (forall i j k, In (i, (j, k)) l -> j <= k) ->
  snd (fold_left lstep l (t, a)) = a + List.length l /\
  forall m i j k, nth_error l m = Some (i, (j, k)) ->
    fst (fold_left lstep l (t, a)) i j k = a + m /\ fst (fold_left lstep l (t, a)) i k j = a + m.
Proof.
  intros l t a. induction l as [|[i0 [j0 k0]] l IH] using rev_ind; intros N O.
  - simpl. split; [lia|]. intros [|m] i j k H; discriminate H.
  - assert (N' : NoDup l /\ ~ In (i0, (j0, k0)) l).
    { pose proof (NoDup_remove_1 _ _ _ N) as N1. pose proof (NoDup_remove_2 _ _ _ N) as N2.
      rewrite app_nil_r in N1, N2. auto. }
    destruct N' as [N1 N2].
    destruct (IH N1) as [E P]. { intros i j k H. apply (O i). apply in_or_app. auto. }
    rewrite fold_left_app. cbn [fold_left lstep fst snd]. rewrite E, app_length. simpl List.length.
    split; [lia|]. intros m i j k H.
    destruct (lt_eq_lt_dec m (List.length l)) as [[L|L]|L].
    + rewrite nth_error_app1 in H by exact L. pose proof (nth_error_In _ _ H) as I.
      destruct (P m i j k H) as [P1 P2].
      assert (jk : j <= k) by (apply (O i); apply in_or_app; auto).
      assert (jk0 : j0 <= k0) by (apply (O i0); apply in_or_app; right; left; reflexivity).
      assert (D : i <> i0 \/ j <> j0 \/ k <> k0).
      { destruct (Nat.eq_dec i i0), (Nat.eq_dec j j0), (Nat.eq_dec k k0); auto. subst. contradiction. }
      rewrite !set3_other by lia. auto.
    + subst m. rewrite nth_error_app2, Nat.sub_diag in H by lia. simpl in H. inversion H; subst.
      apply set3_pair.
    + rewrite nth_error_app2 in H by lia. destruct (m - List.length l) as [|[|x]] eqn:Q; try lia; discriminate H.
Qed.

(** *** the list of triples *)
Lemma row_in : forall n j k, In (j, k) (row n) <-> j <= k < n.
Proof.
  intros n j k. unfold row. rewrite in_flat_map. split.
  - intros [x [H1 H2]]. apply in_map_iff in H2. destruct H2 as [y [E H2]]. inversion E; subst.
    apply in_seq in H1, H2. lia.
  - intros L. exists j. split; [apply in_seq; lia|]. apply in_map_iff. exists k. split; auto. apply in_seq. lia.
Qed.
Lemma nodup_pairs : forall A B (f : A -> list B) l, NoDup l -> (forall a, In a l -> NoDup (f a)) ->
  NoDup (flat_map (fun a => map (fun b => (a, b)) (f a)) l).
Proof.
  intros A B f l N H. induction N as [|a l NI N IH]; simpl; [constructor|].
  assert (G : forall x y : list (A * B), NoDup x -> NoDup y -> (forall z, In z x -> ~ In z y) -> NoDup (x ++ y)).
  { clear. induction x; intros y Nx Ny D; simpl; auto. inversion Nx; subst. constructor.
    - intros I. apply in_app_or in I. destruct I as [I|I]; [auto|]. apply (D a); [left; auto|auto].
    - apply IHx; auto. intros z Z. apply D. right. auto. }
  apply G.
  - apply FinFun.Injective_map_NoDup; [intros x y E; congruence|]. apply H. left; auto.
  - apply IH. intros x X. apply H. right; auto.
  - intros z Z1 Z2. apply in_map_iff in Z1. destruct Z1 as [b [E _]]. subst z.
    apply in_flat_map in Z2. destruct Z2 as [a' [I Z2]]. apply in_map_iff in Z2.
    destruct Z2 as [b' [E _]]. inversion E; subst. contradiction.
Qed.
Lemma row_nodup : forall n, NoDup (row n).
Proof. intros n. unfold row. apply (nodup_pairs _ _ (fun j => seq j (n - j))); intros; apply seq_NoDup. Qed.
Lemma triples_nodup : forall n, NoDup (triples n).
Proof.
  intros n. unfold triples. apply (nodup_pairs _ _ (fun _ => row n)); intros; [apply seq_NoDup|apply row_nodup].
Qed.
Lemma triples_order : forall n i j k, In (i, (j, k)) (triples n) -> i < n /\ j <= k < n.
Proof.
  intros n i j k H. unfold triples in H. apply in_flat_map in H. destruct H as [x [H1 H2]].
  apply in_map_iff in H2. destruct H2 as [q [E H2]]. inversion E; subst. apply row_in in H2.
  apply in_seq in H1. lia.
Qed.

Lemma nth_blocks : forall B (r : list B) n s m i q, 0 < List.length r ->
  nth_error (flat_map (fun i => map (fun q => (i, q)) r) (seq s n)) m = Some (i, q) ->
  i = s + m / List.length r /\ nth_error r (m mod List.length r) = Some q.
Proof.
  intros B r n. induction n; intros s m i q L H; simpl in H.
  - destruct m; discriminate H.
  - destruct (le_lt_dec (List.length r) m) as [G|G].
    + rewrite nth_error_app2 in H by (rewrite map_length; exact G). rewrite map_length in H.
      destruct (IHn _ _ _ _ L H) as [E1 E2].
      assert (D : m = (m - List.length r) + 1 * List.length r) by lia.
      split.
      * rewrite D, Nat.div_add by lia. lia.
      * rewrite D, Nat.mod_add by lia. exact E2.
    + rewrite nth_error_app1 in H by (rewrite map_length; exact G).
      rewrite Nat.div_small, Nat.mod_small by exact G.
      rewrite nth_error_map in H. destruct (nth_error r m); simpl in H; inversion H; subst. split; [lia|reflexivity].
Qed.
Lemma pairs_pos : forall n, 0 < n -> 0 < pairs n.
Proof. intros n L. pose proof (double_pairs n). nia. Qed.
Lemma triples_nth : forall n m i j k, nth_error (triples n) m = Some (i, (j, k)) ->
  i = m / pairs n /\ nth_error (row n) (m mod pairs n) = Some (j, k).
Proof.
  intros n m i j k H. pose proof (nth_error_In _ _ H) as I. apply triples_order in I.
  unfold triples in H. apply nth_blocks in H.
  - rewrite row_length in H. exact H.
  - rewrite row_length. apply pairs_pos. lia.
Qed.
Lemma row_last : forall n, 0 < n -> nth_error (row n) (pairs n - 1) = Some (n - 1, n - 1).
Proof.
  intros n L. rewrite <- row_length.
  assert (E : exists l, row n = l ++ [(n - 1, n - 1)]).
  { unfold row. destruct n as [|n]; [lia|]. rewrite seq_S, flat_map_app. cbn [flat_map].
    replace (S n - (0 + n)) with 1 by lia. simpl. rewrite Nat.sub_0_r. eexists. reflexivity. }
  destruct E as [l E]. rewrite E, app_length. simpl. rewrite nth_error_app2 by lia.
  replace (List.length l + 1 - 1 - List.length l) with 0 by lia. reflexivity.
Qed.
Lemma row_last_inv : forall n r, 0 < n -> nth_error (row n) r = Some (n - 1, n - 1) -> r = pairs n - 1.
Proof.
  intros n r L H. pose proof (row_last n L) as H'.
  apply (proj1 (NoDup_nth_error (row n)) (row_nodup n)).
  - apply nth_error_Some. congruence.
  - congruence.
Qed.

(** *** the search for the pair of a global lambda *)
Lemma half : forall a b, 2 * b = a -> a / 2 = b.
Proof. intros a b E. subst. rewrite Nat.mul_comm. apply Nat.div_mul. lia. Qed.
Lemma search_ends : forall fuel n k temp, k <= 2 * n + 1 -> 2 * n + 2 - k <= fuel ->
  exists k' n3, search fuel n k temp = Some (k', n3) /\ k <= k'.
Proof.
  induction fuel; intros n k temp L F; [lia|]. cbn [search]. cbv zeta.
  destruct (Nat.leb_spec (k * n - k * (k - 1) / 2) temp) as [G|G].
  - do 2 eexists. split; [reflexivity|lia].
  - destruct (Nat.eq_dec k (2 * n + 1)) as [E|E].
    + exfalso. subst k. rewrite (half _ ((2 * n + 1) * n)) in G by lia. lia.
    + destruct (IHfuel n (S k) temp) as [k' [n3 [H1 H2]]]; [lia|lia|]. exists k', n3. split; [exact H1|lia].
Qed.
Lemma min_last : forall n, 0 < n -> (n - 1) * n - (n - 1) * (n - 1 - 1) / 2 = pairs n - 1.
Proof.
  intros n L. pose proof (double_pairs n) as D. destruct n as [|[|n]]; [lia|reflexivity|].
  replace (S (S n) - 1) with (S n) in * by lia. replace (S n - 1) with n by lia.
  assert (E : exists h, 2 * h = S n * n).
  { exists (pairs n). rewrite double_pairs. lia. }
  destruct E as [h E]. rewrite (half (S n * n) h) by exact E. nia.
Qed.
Lemma search_last : forall n, 0 < n ->
  search (2 * n + 2) n (n - 1) (pairs n - 1) = Some (n - 1, n - 1).
Proof.
  intros n L. replace (2 * n + 2) with (S (2 * n + 1)) by lia. cbn [search]. cbv zeta.
  rewrite min_last by exact L. rewrite Nat.leb_refl. f_equal. f_equal. lia.
Qed.
Lemma search_wrong : forall n temp, 0 < n -> temp < pairs n - 1 ->
  exists k n3, search (2 * n + 2) n (n - 1) temp = Some (k, n3) /\ n <= k.
Proof.
  intros n temp L T. replace (2 * n + 2) with (S (2 * n + 1)) by lia. cbn [search]. cbv zeta.
  rewrite min_last by exact L. destruct (Nat.leb_spec (pairs n - 1) temp); [lia|].
  destruct (search_ends (2 * n + 1) n (S (n - 1)) temp) as [k [n3 [E G]]]; [lia|lia|].
  exists k, n3. split; [exact E|lia].
Qed.

Section U.
Variable gidx : nat.
Definition lgstep (n f : nat) (o : outcome lams) (g : nat * (nat * nat)) : outcome lams :=
    bind o (fun t =>
      if fst (snd g) =? f then
        let n1 := snd (snd g) / pairs n in
        match search (2 * n + 2) n (n - 1) (snd (snd g) mod pairs n) with
        | None => Undefined
        | Some (n2, n3) =>
            if (n1 <? n) && (n2 <? n) && (n3 <? n)
            then Done (set3 (set3 t n1 n2 n3 (gidx + fst g)) n1 n3 n2 (gidx + fst g))
            else Undefined
        end
      else Done t).

Lemma lg_good : forall n f l t, 0 < n ->
  (forall j m, In (j, (f, m)) l -> m < n * pairs n /\ m mod pairs n = pairs n - 1) ->
  exists t', fold_left (lgstep n f) l (Done t) = Done t' /\
    (forall i j k, j <> n - 1 \/ k <> n - 1 -> t' i j k = t i j k) /\
    (forall i, (exists g, In (g, (f, i * pairs n + (pairs n - 1))) l /\ t' i (n - 1) (n - 1) = gidx + g) \/
       ((forall g, ~ In (g, (f, i * pairs n + (pairs n - 1))) l) /\ t' i (n - 1) (n - 1) = t i (n - 1) (n - 1))).
Proof.
  intros n f l t L. pose proof (pairs_pos n L) as PP.
  induction l as [|[g [f' m]] l IH] using rev_ind; intros V.
  - exists t. simpl. split; [reflexivity|]. split; [reflexivity|]. intros i. right. auto.
  - destruct IH as [t' [E [O P]]]. { intros j m0 H. apply (V j). apply in_or_app. auto. }
    rewrite fold_left_app, E. cbn [fold_left]. unfold lgstep at 1. cbn [bind fst snd].
    destruct (Nat.eqb_spec f' f) as [F|F].
    + subst f'. destruct (V g m) as [V1 V2]. { apply in_or_app; right; left; reflexivity. }
      cbv zeta. rewrite V2, search_last by exact L.
      assert (M : m / pairs n < n) by (apply Nat.div_lt_upper_bound; lia).
      assert (D : m = m / pairs n * pairs n + (pairs n - 1)).
      { pose proof (Nat.div_mod m (pairs n)). lia. }
      destruct (Nat.ltb_spec (m / pairs n) n) as [X1|X1]; [|lia]. destruct (Nat.ltb_spec (n - 1) n) as [X2|X2]; [|lia].
      cbn [andb]. eexists. split; [reflexivity|]. split.
      * intros i j k N. rewrite !set3_other by lia. apply O. exact N.
      * intros i. destruct (Nat.eq_dec i (m / pairs n)) as [Q|Q].
        -- left. exists g. split; [rewrite Q, <- D; apply in_or_app; right; left; reflexivity|].
           rewrite Q. apply set3_same.
        -- rewrite !set3_other by auto. destruct (P i) as [[g0 [H0 H1]]|[H0 H1]].
           ++ left. exists g0. split; [apply in_or_app; auto|exact H1].
           ++ right. split; [|exact H1]. intros g0 H'. apply in_app_or in H'. destruct H' as [H'|[H'|[]]].
              ** apply (H0 g0 H').
              ** inversion H' as [[Eg Em]]. apply Q.
                 rewrite Em, Nat.div_add_l, Nat.div_small by lia. lia.
    + exists t'. split; [reflexivity|]. split; [exact O|]. intros i.
      destruct (P i) as [[g0 [H0 H1]]|[H0 H1]].
      * left. exists g0. split; [apply in_or_app; auto|exact H1].
      * right. split; [|exact H1]. intros g0 H'. apply in_app_or in H'. destruct H' as [H'|[H'|[]]].
        -- apply (H0 g0 H').
        -- inversion H'; congruence.
Qed.

Lemma lg_undef : forall n f l, fold_left (lgstep n f) l Undefined = Undefined.
Proof. intros n f l. induction l; simpl; auto. Qed.
Lemma lg_bad : forall n f l t j m, 0 < n -> In (j, (f, m)) l -> m mod pairs n <> pairs n - 1 ->
  fold_left (lgstep n f) l (Done t) = Undefined.
Proof.
  intros n f l t j m L. revert t. induction l as [|g l IH]; intros t I B; [contradiction|].
  simpl. destruct I as [I|I].
  - subst g. cbn [fst snd]. rewrite Nat.eqb_refl.
    pose proof (pairs_pos n L) as PP. pose proof (Nat.mod_upper_bound m (pairs n) ltac:(lia)).
    destruct (search_wrong n (m mod pairs n) L ltac:(lia)) as [k [n3 [E G]]].
    replace (n + (n + 0) + 2) with (2 * n + 2) by lia. rewrite E.
    destruct (Nat.ltb_spec k n); [lia|]. rewrite andb_false_r. cbn [andb]. apply lg_undef.
  - destruct (fst (snd g) =? f); [|apply IH; auto].
    destruct (search _ _ _ _) as [[n2 n3]|]; [|apply lg_undef].
    destruct (_ && _); [apply IH; auto|apply lg_undef].
Qed.

Variable uses : list (list (nat * nat)).
Variable n : nat.
Hypothesis n_pos : 0 < n.
Hypothesis valid : valid_uses (sw_pars n) uses.

Lemma sw_home2 : forall i p, i <= pairs n -> home (sw_pars n) (0 + i) p = 2 + i * 8 + p.
Proof.
  intros i p L. unfold sw_pars. cbv zeta. rewrite row_length.
  pose proof (home_block [] 6 (pairs n) (repeat 2 (pairs n) ++ [List.length (triples n)]) i p L) as H.
  exact H.
Qed.
Lemma sw_home3 : forall i p, i <= pairs n -> home (sw_pars n) (pairs n + i) p = 2 + pairs n * 8 + i * 4 + p.
Proof.
  intros i p L. unfold sw_pars. cbv zeta. rewrite row_length.
  pose proof (home_block (repeat 6 (pairs n)) 2 (pairs n) [List.length (triples n)] i p L) as H.
  rewrite repeat_length in H. rewrite H.
  pose proof (home_block [] 6 (pairs n) [] (pairs n) 0 (le_n _)) as H0. rewrite app_nil_r in H0.
  cbn [app List.length plus] in H0. rewrite H0. unfold home. simpl. lia.
Qed.
Lemma sw_homel : forall p, home (sw_pars n) (2 * pairs n) p = 2 + pairs n * 8 + pairs n * 4 + p.
Proof. intros p. replace (2 * pairs n) with (pairs n + pairs n) by lia. apply sw_home3. lia. Qed.

Lemma sw_valid2 : forall i j p, i < pairs n -> bound uses (0 + i) p j -> p < 6.
Proof.
  intros i j p L B. destruct valid as [V _]. destruct (V _ _ _ B) as [_ W]. unfold sw_pars in W.
  cbv zeta in W. rewrite row_length in W. pose proof (nth_block [] 6 (pairs n) (repeat 2 (pairs n) ++ [List.length (triples n)]) i L) as H.
  cbn [app List.length] in H. rewrite H in W. exact W.
Qed.
Lemma sw_valid3 : forall i j p, i < pairs n -> bound uses (pairs n + i) p j -> p < 2.
Proof.
  intros i j p L B. destruct valid as [V _]. destruct (V _ _ _ B) as [_ W]. unfold sw_pars in W.
  cbv zeta in W. rewrite row_length in W.
  pose proof (nth_block (repeat 6 (pairs n)) 2 (pairs n) [List.length (triples n)] i L) as H.
  rewrite repeat_length in H. rewrite H in W. exact W.
Qed.
Lemma sw_validl : forall j m, bound uses (2 * pairs n) m j -> m < n * pairs n.
Proof.
  intros j m B. destruct valid as [V _]. destruct (V _ _ _ B) as [_ W]. unfold sw_pars in W.
  cbv zeta in W. rewrite row_length in W. rewrite app_assoc, app_nth2, app_length, !repeat_length in W.
  - replace (2 * pairs n - (pairs n + pairs n)) with 0 in W by lia. simpl in W. rewrite triples_length in W. exact W.
  - rewrite app_length, !repeat_length. lia.
Qed.

(** Everything before the lambda globals *)
Lemma sw_front : forall t2 t3 tl, exists t2' t3' tl',
  update_stiweb gidx uses n t2 t3 tl =
    bind (lambda_globals gidx uses n (2 * pairs n) tl') (fun l => Done (t2', t3', l)) /\
  (forall i p, i < pairs n -> p < 6 -> address (sw_pars n) gidx uses i p (t2' i p)) /\
  (forall i p, i < pairs n -> p < 2 -> address (sw_pars n) gidx uses (pairs n + i) p (t3' i p)) /\
  (forall m i j k, nth_error (triples n) m = Some (i, (j, k)) ->
     tl' i j k = home (sw_pars n) (2 * pairs n) m /\ tl' i k j = home (sw_pars n) (2 * pairs n) m).
Proof.
  intros t2 t3 tl. destruct valid as [_ U].
  destruct (bind_columns_spec gidx uses 6 0 (pairs n) t2 2) as [t2' [E2 P2]]; [exact sw_valid2|].
  destruct (bind_columns_spec gidx uses 2 (pairs n) (pairs n) t3 (2 + pairs n * 8)) as [t3' [E3 P3]]; [exact sw_valid3|].
  exists t2', t3', (fst (bind_lambda n (tl, 2 + pairs n * 8 + pairs n * 4))).
  split; [|split; [|split]].
  - unfold update_stiweb. rewrite E2. cbn [bind fst snd]. change (6 + 2) with 8. rewrite E3.
    cbn [bind fst snd]. reflexivity.
  - intros i p L Lp. apply (col_ok_address gidx uses (sw_pars n) 6 0 2 t2' i p U).
    + rewrite sw_home2 by lia. lia.
    + apply P2; assumption.
  - intros i p L Lp. apply (col_ok_address gidx uses (sw_pars n) 2 (pairs n) (2 + pairs n * 8) t3' i p U).
    + rewrite sw_home3 by lia. lia.
    + apply P3; assumption.
  - intros m i j k H. rewrite sw_homel, bind_lambda_fold.
    apply (proj2 (lambda_fold_spec (triples n) tl (2 + pairs n * 8 + pairs n * 4) (triples_nodup n)
       (fun i j k I => proj1 (proj2 (triples_order n i j k I))))). exact H.
Qed.

(** Globals in the lambda potential only at the last pair of a type: all pointers right *)
Lemma sw_right : forall t2 t3 tl,
  (forall m j, bound uses (2 * pairs n) m j -> m mod pairs n = pairs n - 1) ->
  exists t2' t3' tl', update_stiweb gidx uses n t2 t3 tl = Done (t2', t3', tl') /\
  (forall i p, i < pairs n -> p < 6 -> address (sw_pars n) gidx uses i p (t2' i p)) /\
  (forall i p, i < pairs n -> p < 2 -> address (sw_pars n) gidx uses (pairs n + i) p (t3' i p)) /\
  (forall m i j k, nth_error (triples n) m = Some (i, (j, k)) ->
     address (sw_pars n) gidx uses (2 * pairs n) m (tl' i j k) /\
     address (sw_pars n) gidx uses (2 * pairs n) m (tl' i k j)).
Proof.
  intros t2 t3 tl G. destruct (sw_front t2 t3 tl) as [t2' [t3' [tl0 [E [P2 [P3 PL]]]]]].
  destruct (lg_good n (2 * pairs n) (all_uses uses) tl0 n_pos) as [tl' [EL [O P]]].
  { intros j m I. apply all_uses_in in I. split; [eapply sw_validl; eauto|eapply G; eauto]. }
  exists t2', t3', tl'. split; [|split; [exact P2|split; [exact P3|]]].
  - rewrite E. change (lambda_globals gidx uses n (2 * pairs n) tl0)
      with (fold_left (lgstep n (2 * pairs n)) (all_uses uses) (Done tl0)). rewrite EL. reflexivity.
  - intros m i j k H. destruct (PL m i j k H) as [L1 L2]. destruct (triples_nth n m i j k H) as [T1 T2].
    destruct valid as [_ U]. pose proof (pairs_pos n n_pos) as PP.
    destruct (Nat.eq_dec (m mod pairs n) (pairs n - 1)) as [Q|Q].
    + rewrite Q, row_last in T2 by exact n_pos. inversion T2; subst j k.
      assert (D : m = i * pairs n + (pairs n - 1)).
      { subst i. pose proof (Nat.div_mod m (pairs n)). lia. }
      assert (A : address (sw_pars n) gidx uses (2 * pairs n) m (tl' i (n - 1) (n - 1))).
      { destruct (P i) as [[g [I V]]|[I V]]; rewrite <- D in I.
        - apply all_uses_in in I. split.
          + intros j' B'. rewrite V. f_equal. eapply U; eauto.
          + intros N. exfalso. apply (N g I).
        - split.
          + intros g B'. exfalso. apply (I g). apply all_uses_in. exact B'.
          + intros _. rewrite V. exact L1. }
      split; exact A.
    + assert (NB : forall j', ~ bound uses (2 * pairs n) m j') by (intros j' B; apply Q; eapply G; eauto).
      assert (NL : j <> n - 1 \/ k <> n - 1).
      { destruct (Nat.eq_dec j (n - 1)), (Nat.eq_dec k (n - 1)); auto. subst. exfalso. apply Q.
        apply row_last_inv; assumption. }
      rewrite !O by lia. split; (split; [intros j' B; exfalso; apply (NB j' B)|intros _; assumption]).
Qed.

(** Any other global in the lambda potential: subscript out of range *)
Lemma sw_wrong : forall t2 t3 tl m j,
  bound uses (2 * pairs n) m j -> m mod pairs n <> pairs n - 1 ->
  update_stiweb gidx uses n t2 t3 tl = Undefined.
Proof.
  intros t2 t3 tl m j B Q. destruct (sw_front t2 t3 tl) as [t2' [t3' [tl0 [E _]]]]. rewrite E.
  change (lambda_globals gidx uses n (2 * pairs n) tl0)
      with (fold_left (lgstep n (2 * pairs n)) (all_uses uses) (Done tl0)).
  rewrite (lg_bad n _ _ _ j m n_pos); [reflexivity| |exact Q]. apply all_uses_in. exact B.
Qed.
End U.
