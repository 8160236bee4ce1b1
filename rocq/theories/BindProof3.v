(** Tersoff *)
From Coq Require Import List Arith Bool Lia.
From Verif Require Import LoopUtil ApotModel BindModel BindSpec BindProof BindProof2.
Import ListNotations.

Lemma mixed_len_aux : forall n m, m <= n ->
  List.length (filter (fun q => negb (fst q =? snd q))
    (flat_map (fun j => map (fun k => (j, k)) (seq j (n - j))) (seq 0 m))) + m =
  List.length (flat_map (fun j => map (fun k => (j, k)) (seq j (n - j))) (seq 0 m)).
Proof.
  induction m; intros L; [reflexivity|].
  rewrite seq_S, flat_map_app, filter_app, !app_length. specialize (IHm ltac:(lia)).
  cbn [flat_map plus]. rewrite !app_nil_r.
  destruct (n - m) as [|d] eqn:E; [lia|]. cbn [seq map filter fst snd]. rewrite Nat.eqb_refl. cbn [negb].
  assert (G : forall d s, m < s -> filter (fun q : nat * nat => negb (fst q =? snd q))
     (map (fun k => (m, k)) (seq s d)) = map (fun k => (m, k)) (seq s d)).
  { clear. induction d; intros s L; simpl; auto. destruct (Nat.eqb_spec m s); [lia|]. simpl.
    rewrite IHd by lia. reflexivity. }
  rewrite G by lia. cbn [List.length]. lia.
Qed.
Lemma mixed_length : forall n, List.length (mixed n) + n = pairs n.
Proof. intros n. rewrite <- row_length. apply (mixed_len_aux n n). lia. Qed.

Section U.
Variable gidx : nat.
Variable uses : list (list (nat * nat)).

Lemma mix_none : forall f i t, (forall p j, ~ bound uses f p j) -> mix_globals gidx uses f i t = t.
Proof.
  intros f i t N. unfold mix_globals.
  assert (G : forall l, (forall g, In g l -> In g (all_uses uses)) ->
    fold_left (fun t (g : nat * (nat * nat)) =>
      if (fst (snd g) =? f) && (snd (snd g) <? 2)
      then mset t i (snd (snd g)) (Some (gidx + fst g)) else t) l t = t).
  { induction l as [|[j [f' p]] l IH]; intros I; simpl; auto.
    destruct (Nat.eqb_spec f' f) as [F|F]; simpl.
    - exfalso. subst. apply (N p j). apply all_uses_in. apply I. left; reflexivity.
    - apply IH. intros g G. apply I. right; exact G. }
  apply G. auto.
Qed.

Section N.
Variable n : nat.
Hypothesis valid : valid_uses (tersoff_pars n) uses.

Lemma te_home : forall i p, i <= pairs n -> home (tersoff_pars n) (0 + i) p = 2 + i * 13 + p.
Proof.
  intros i p L. unfold tersoff_pars. rewrite row_length.
  exact (home_block [] 11 (pairs n) (repeat 2 (List.length (mixed n))) i p L).
Qed.
Lemma te_homem : forall i p, i <= List.length (mixed n) ->
  home (tersoff_pars n) (pairs n + i) p = 2 + pairs n * 13 + i * 4 + p.
Proof.
  intros i p L. unfold tersoff_pars. rewrite row_length.
  pose proof (home_block (repeat 11 (pairs n)) 2 (List.length (mixed n)) [] i p L) as H.
  rewrite repeat_length, app_nil_r in H. rewrite H.
  pose proof (home_block [] 11 (pairs n) [] (pairs n) 0 (le_n _)) as H0. rewrite app_nil_r in H0.
  cbn [app List.length plus] in H0. rewrite H0. unfold home. simpl. lia.
Qed.
Lemma te_valid : forall i j p, i < pairs n -> bound uses (0 + i) p j -> p < 11.
Proof.
  intros i j p L B. destruct valid as [V _]. destruct (V _ _ _ B) as [_ W]. unfold tersoff_pars in W.
  rewrite row_length in W.
  pose proof (nth_block [] 11 (pairs n) (repeat 2 (List.length (mixed n))) i L) as H.
  cbn [app List.length] in H. rewrite H in W. exact W.
Qed.

Lemma tersoff_front : forall t tm, exists t',
  update_tersoff gidx uses n t tm =
    Done (t', fst (bind_mix gidx uses n (tm, 2 + pairs n * 13))) /\
  forall i p, i < pairs n -> p < 11 -> address (tersoff_pars n) gidx uses i p (t' i p).
Proof.
  intros t tm. destruct (bind_columns_spec gidx uses 11 0 (pairs n) t 2) as [t' [E P]]; [exact te_valid|].
  exists t'. split.
  - unfold update_tersoff. rewrite E. reflexivity.
  - intros i p L Lp. apply (col_ok_address gidx uses (tersoff_pars n) 11 0 2 t' i p (proj2 valid)).
    + rewrite te_home by lia. lia.
    + apply P; assumption.
Qed.
End N.

(** *** one and two types, no global in a mixing table *)
Lemma mix_small : forall n t tm, n = 1 \/ n = 2 -> valid_uses (tersoff_pars n) uses ->
  (forall f p j, pairs n <= f -> ~ bound uses f p j) ->
  exists t' tm', update_tersoff gidx uses n t tm = Done (t', tm') /\ mix_right n gidx uses tm'.
Proof.
  intros n t tm C V N. destruct (tersoff_front n V t tm) as [t' [E _]].
  eexists t', _. split; [exact E|]. unfold bind_mix, for_up. intros c j k p H Lp.
  assert (NB : forall x p a, a = home (tersoff_pars n) (List.length (row n) + x) p ->
     address (tersoff_pars n) gidx uses (List.length (row n) + x) p a).
  { intros x p0 a A. split; [|intros _; exact A]. intros j0 B. exfalso.
    apply (N (List.length (row n) + x) p0 j0); [rewrite row_length; lia|exact B]. }
  destruct C as [C|C]; subst n.
  - change (pairs 1) with 1 in *. cbn [Nat.sub seq fold_left fst snd].
    change (0 mod 1 =? 0) with true. cbv iota. cbn [fst snd]. rewrite mix_none by (intros; apply N; lia).
    destruct c as [|[|c]]; inversion H; subst. simpl.
    destruct p as [|[|p]]; [reflexivity|reflexivity|lia].
  - change (pairs 2) with 3 in *. cbn [Nat.sub seq fold_left fst snd].
    change (0 mod 2 =? 0) with true. change (1 mod 2 =? 0) with false. change (2 mod 2 =? 0) with true.
    cbv iota. cbn [fst snd]. rewrite !mix_none by (intros; apply N; lia).
    destruct c as [|[|[|[|c]]]]; inversion H; subst; cbn [Nat.eqb];
      destruct p as [|[|p]]; try lia; try reflexivity.
    + exists 0. eexists. split; [reflexivity|]. split; [reflexivity|]. apply NB. reflexivity.
    + exists 0. eexists. split; [reflexivity|]. split; [reflexivity|]. apply NB. reflexivity.
Qed.

(** *** three or more types *)
Definition mstep (n i : nat) (s : mixes * nat) : mixes * nat :=
    let s1 := if i mod n =? 0
              then (mset (mset (fst s) i 0 None) i 1 None, snd s)
              else (mset (mset (fst s) i 0 (Some (snd s))) i 1 (Some (snd s + 1)), snd s + 2 + 2) in
    (mix_globals gidx uses (pairs n + i) i (fst s1), snd s1).

Lemma mix_index : forall n a tm m, 0 < n ->
  exists cnt, snd (for_up 0 m (mstep n) (tm, a)) + 4 * cnt = a + 4 * m /\ n * cnt < m + n.
Proof.
  intros n a tm m L. induction m.
  - exists 0. rewrite for_up_nil. simpl. lia.
  - destruct IHm as [cnt [E B]]. rewrite for_up_S by lia. unfold mstep at 1. cbv zeta. cbn [snd].
    destruct (Nat.eqb_spec (m mod n) 0) as [Q|Q]; cbn [snd].
    + exists (S cnt). split; [lia|]. pose proof (Nat.div_mod m n ltac:(lia)) as D. rewrite Q in D.
      assert (cnt <= m / n) by nia. nia.
    + exists cnt. lia.
Qed.
Lemma last_column : forall n, 3 <= n -> (pairs n - 1) mod n <> 0.
Proof.
  intros n L. pose proof (double_pairs n) as D.
  destruct (Nat.Even_or_Odd n) as [[m E]|[m E]].
  - assert (P : pairs n - 1 = (m - 1) + m * n) by nia.
    rewrite P, Nat.mod_add, Nat.mod_small by lia. lia.
  - assert (P : pairs n - 1 = (n - 1) + m * n) by nia.
    rewrite P, Nat.mod_add, Nat.mod_small by lia. lia.
Qed.

Lemma home_mono : forall ns f p, f < List.length ns -> p < nth f ns 0 ->
  home ns f p < home ns (List.length ns) 0.
Proof.
  induction ns as [|x ns IH]; intros f p L Lp; simpl in L; [lia|].
  destruct f as [|f]; unfold home in *; simpl in *.
  - rewrite firstn_all. lia.
  - specialize (IH f p ltac:(lia) Lp). lia.
Qed.

Lemma mix_large : forall n t tm, 3 <= n -> valid_uses (tersoff_pars n) uses ->
  (forall f p j, pairs n <= f -> ~ bound uses f p j) ->
  exists t' tm' a, update_tersoff gidx uses n t tm = Done (t', tm') /\
    nth_error (row n) (pairs n - 1) = Some (n - 1, n - 1) /\
    tm' (pairs n - 1) 0 = Some a /\ tm' (pairs n - 1) 1 = Some (a + 1) /\
    forall f p, f < List.length (tersoff_pars n) -> p < nth f (tersoff_pars n) 0 ->
      home (tersoff_pars n) f p < a.
Proof.
  intros n t tm L V N. destruct (tersoff_front n V t tm) as [t' [E _]].
  pose proof (pairs_pos n ltac:(lia)) as PP. pose proof (double_pairs n) as D.
  pose proof (mixed_length n) as ML.
  change (bind_mix gidx uses n (tm, 2 + pairs n * 13))
    with (for_up 0 (pairs n) (mstep n) (tm, 2 + pairs n * 13)) in E.
  destruct (mix_index n (2 + pairs n * 13) tm (pairs n - 1) ltac:(lia)) as [cnt [I B]].
  assert (CB : cnt <= n - 1).
  { destruct (Nat.eq_dec n 3) as [Q|Q].
    - subst n. change (pairs 3) with 6 in B. lia.
    - nia. }
  remember (for_up 0 (pairs n - 1) (mstep n) (tm, 2 + pairs n * 13)) as s eqn:S0.
  assert (X : for_up 0 (pairs n) (mstep n) (tm, 2 + pairs n * 13) = mstep n (pairs n - 1) s).
  { subst s. rewrite <- for_up_S by lia. f_equal. lia. }
  rewrite X in E. eexists t', _, (snd s). split; [exact E|]. split; [apply row_last; lia|].
  unfold mstep. cbv zeta. destruct (Nat.eqb_spec ((pairs n - 1) mod n) 0) as [Q|Q].
  { exfalso. apply (last_column n L Q). }
  cbn [fst snd]. rewrite mix_none by (intros; apply N; lia).
  unfold mset. rewrite !Nat.eqb_refl. cbn [andb Nat.eqb]. split; [reflexivity|]. split; [reflexivity|].
  intros f p Lf Lp. eapply Nat.lt_le_trans; [apply (home_mono _ f p Lf Lp)|].
  assert (LL : List.length (tersoff_pars n) = pairs n + List.length (mixed n)).
  { unfold tersoff_pars. rewrite app_length, !repeat_length, row_length. reflexivity. }
  rewrite LL, te_homem by lia. lia.
Qed.

(** *** a global in the first mixing table is used for the first like pair *)
Lemma mix_glob : forall f i l t p, p < 2 -> (exists j, In (j, (f, p)) l) ->
  exists a, fold_left (fun t (g : nat * (nat * nat)) =>
      if (fst (snd g) =? f) && (snd (snd g) <? 2)
      then mset t i (snd (snd g)) (Some (gidx + fst g)) else t) l t i p = Some a.
Proof.
  intros f i l t p Lp. induction l as [|[j0 [f0 p0]] l IH] using rev_ind; intros [j H]; [contradiction|].
  rewrite fold_left_app. cbn [fold_left fst snd].
  assert (D : (f0 = f /\ p0 = p) \/ In (j, (f, p)) l).
  { apply in_app_or in H. destruct H as [H|[H|[]]]; [right; exact H|left; inversion H; auto]. }
  destruct ((f0 =? f) && (p0 <? 2)) eqn:Q.
  - unfold mset. rewrite Nat.eqb_refl. cbn [andb]. destruct (Nat.eqb_spec p p0) as [Z|Z]; [eauto|].
    apply IH. destruct D as [[_ D]|D]; [congruence|eauto].
  - apply IH. destruct D as [[D1 D2]|D]; [|eauto]. subst. rewrite Nat.eqb_refl in Q. cbn [andb] in Q.
    apply Nat.ltb_ge in Q. lia.
Qed.
Lemma mix_other : forall f i l t i' p, i' <> i ->
  fold_left (fun t (g : nat * (nat * nat)) =>
      if (fst (snd g) =? f) && (snd (snd g) <? 2)
      then mset t i (snd (snd g)) (Some (gidx + fst g)) else t) l t i' p = t i' p.
Proof.
  intros f i l. induction l as [|g l IH]; intros t i' p D; simpl; auto. rewrite IH by exact D.
  destruct (_ && _); [|reflexivity]. unfold mset. destruct (Nat.eqb_spec i' i); [contradiction|reflexivity].
Qed.
Lemma mstep_other : forall n i s i' p, i' <> i -> fst (mstep n i s) i' p = fst s i' p.
Proof.
  intros n i s i' p D. unfold mstep. cbv zeta. cbn [fst]. unfold mix_globals. rewrite mix_other by exact D.
  destruct (i mod n =? 0); cbn [fst]; unfold mset; destruct (Nat.eqb_spec i' i); try contradiction; reflexivity.
Qed.
Lemma mix_shifted : forall n t tm p j, 2 <= n -> valid_uses (tersoff_pars n) uses -> p < 2 ->
  bound uses (pairs n) p j ->
  exists t' tm' a, update_tersoff gidx uses n t tm = Done (t', tm') /\
    nth_error (row n) 0 = Some (0, 0) /\ tm' 0 p = Some a.
Proof.
  intros n t tm p j L V Lp B. destruct (tersoff_front n V t tm) as [t' [E _]].
  change (bind_mix gidx uses n (tm, 2 + pairs n * 13))
    with (for_up 0 (pairs n) (mstep n) (tm, 2 + pairs n * 13)) in E.
  assert (G : forall m, 0 < m -> exists a, fst (for_up 0 m (mstep n) (tm, 2 + pairs n * 13)) 0 p = Some a).
  { induction m; intros Lm; [lia|]. rewrite for_up_S by lia. destruct m as [|m].
    - unfold mstep, mix_globals. cbv zeta. cbn [fst]. apply mix_glob; [exact Lp|].
      exists j. rewrite Nat.add_0_r. apply all_uses_in. exact B.
    - rewrite mstep_other by lia. apply IHm. lia. }
  destruct (G (pairs n) (pairs_pos n ltac:(lia))) as [a A].
  exists t'. eexists. exists a. split; [exact E|]. split; [|exact A].
  destruct n as [|[|n]]; [lia|lia|]. reflexivity.
Qed.

(** *** TERSOFFMOD *)
Lemma tersoffmod_right : forall n t, valid_uses (tersoffmod_pars n) uses ->
  exists t', update_tersoffmod gidx uses n t = Done t' /\
    forall i p, i < pairs n -> p < 16 -> address (tersoffmod_pars n) gidx uses i p (t' i p).
Proof.
  intros n t V. assert (R0 : tersoffmod_pars n = [] ++ repeat 16 (pairs n) ++ []).
  { unfold tersoffmod_pars. rewrite row_length, app_nil_r. reflexivity. }
  destruct (bind_columns_spec gidx uses 16 0 (pairs n) t 2) as [t' [E P]].
  - intros i j p L B. destruct V as [V _]. destruct (V _ _ _ B) as [_ W]. rewrite R0 in W.
    pose proof (nth_block [] 16 (pairs n) [] i L) as H. cbn [List.length plus] in H, W. rewrite H in W. exact W.
  - exists t'. split; [unfold update_tersoffmod; rewrite E; reflexivity|].
    intros i p L Lp. apply (col_ok_address gidx uses (tersoffmod_pars n) 16 0 2 t' i p (proj2 V)).
    + rewrite R0. pose proof (home_block [] 16 (pairs n) [] i p ltac:(lia)) as H.
      cbn [List.length plus] in *. rewrite H. unfold home. simpl. lia.
    + apply P; assumption.
Qed.
End U.

(** *** smooth cutoffs: one more parameter than the binding code expects *)
Lemma smooth_shift : forall gidx np ns ncol t a,
  (forall f, f < ncol -> nth f ns 0 = np \/ nth f ns 0 = np + 1) -> ncol <= List.length ns -> a = 2 ->
  exists t', bind_columns gidx [] np 0 ncol (t, a) = Done (t', a + ncol * (np + 2)) /\
    forall i p, i < ncol -> p < np ->
      t' i p + List.length (filter (fun x => x =? np + 1) (firstn i ns)) = home ns i p.
Proof.
  intros gidx np ns ncol t a S0 L A. subst a.
  assert (NB : forall f p j, ~ bound [] f p j) by (intros f p [|j] B; exact B).
  destruct (bind_columns_spec gidx [] np 0 ncol t 2) as [t' [E P]].
  { intros i j p _ B. exfalso. apply (NB _ _ _ B). }
  exists t'. split; [exact E|]. intros i p Li Lp.
  destruct (P i p Li Lp) as [[j [B _]]|[_ V]]; [exfalso; apply (NB _ _ _ B)|]. rewrite V.
  unfold home.
  assert (G : forall i, i <= ncol -> list_sum (map (fun n => n + 2) (firstn i ns)) =
     i * (np + 2) + List.length (filter (fun x => x =? np + 1) (firstn i ns))).
  { clear - S0 L. induction i; intros Li; [reflexivity|].
    assert (X : firstn (S i) ns = firstn i ns ++ [nth i ns 0]).
    { clear - L Li. assert (Q : i < List.length ns) by lia. clear L Li. revert i Q.
      induction ns; intros [|i] Q; simpl in *; try lia; auto. f_equal. apply IHns. lia. }
    rewrite X, map_app, list_sum_app, filter_app, app_length, IHi by lia. cbn [map list_sum filter].
    destruct (S0 i ltac:(lia)) as [Z|Z]; rewrite Z; destruct (Nat.eqb_spec (np + 0) (np + 1)); simpl.
    all: try (destruct (Nat.eqb_spec np (np + 1)); simpl; lia).
    all: try (rewrite Nat.eqb_refl; simpl; lia). }
  rewrite (G i) by lia. lia.
Qed.

(** [home] is the layout written by potential_input_f0.c (first[]) *)
Lemma home_first : forall ns f p, f <= List.length ns -> home ns f p = first_of ns 2 f + p.
Proof.
  intros ns f p L.
  assert (G : forall f ns s, f <= List.length ns ->
    first_of ns s f = s + list_sum (map (fun n => n + 2) (firstn f ns))).
  { clear. induction f; intros ns s L.
    - simpl. destruct ns; simpl; lia.
    - destruct ns as [|x ns]; [simpl in L; lia|]. simpl in L. cbn [first_of firstn map].
      rewrite IHf by lia. change (list_sum (x + 2 :: map (fun n => n + 2) (firstn f ns)))
        with (x + 2 + list_sum (map (fun n => n + 2) (firstn f ns))). lia. }
  rewrite G by exact L. reflexivity.
Qed.
