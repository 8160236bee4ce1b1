(** Proofs about the padding atoms of the KIM interface. *)
From Coq Require Import Reals ZArith List Bool Lia Lra.
From Verif Require Import Vec NbrModel NbrProof KimModel.
Import ListNotations.
Local Open Scope R_scope.

Section Slots.
Local Open Scope Z_scope.
Lemma div_unique2 : forall q r q' r' d, 0 <= r < d -> 0 <= r' < d -> q * d + r = q' * d + r' -> q = q' /\ r = r'.
Proof.
  intros. assert (q = q') by nia. subst. split; lia.
Qed.
Definition cell_nr (s n : image) : Z :=
  let '(sx, sy, sz) := s in let '(ix, iy, iz) := n in ((2 * sy + 1) * (ix + sx) + iy + sy) * (2 * sz + 1) + iz + sz.
Lemma cell_nr_inj : forall s n n', within s n -> within s n' -> cell_nr s n = cell_nr s n' -> n = n'.
Proof.
  intros [[sx sy] sz] [[a b] c] [[a' b'] c'] (A & B & C) (A' & B' & C') H. unfold cell_nr in H.
  assert (H1 : ((2 * sy + 1) * (a + sx) + b + sy) * (2 * sz + 1) + (c + sz) = ((2 * sy + 1) * (a' + sx) + b' + sy) * (2 * sz + 1) + (c' + sz)) by lia.
  apply div_unique2 in H1; [|lia|lia]. destruct H1 as [H1 H2].
  assert (H3 : (a + sx) * (2 * sy + 1) + (b + sy) = (a' + sx) * (2 * sy + 1) + (b' + sy)) by lia.
  apply div_unique2 in H3; [|lia|lia]. destruct H3. repeat f_equal; lia.
Qed.
Lemma cell_nr_range : forall s n, within s n -> 0 <= cell_nr s n < ncells s.
Proof.
  intros [[sx sy] sz] [[a b] c] (A & B & C). unfold cell_nr, ncells.
  assert (0 <= (2 * sy + 1) * (a + sx) + b + sy <= (2 * sx + 1) * (2 * sy + 1) - 1) by nia.
  set (q := (2 * sy + 1) * (a + sx) + b + sy) in *. nia.
Qed.
Lemma cell_nr_0 : forall s, 2 * cell_nr s (0, 0, 0) + 1 = ncells s.
Proof. intros [[sx sy] sz]. unfold cell_nr, ncells. ring. Qed.
Lemma zero_image_true : forall n, zero_image n = true <-> n = (0, 0, 0).
Proof.
  intros [[a b] c]. unfold zero_image. rewrite !andb_true_iff, !Z.eqb_eq. split; [intros [[-> ->] ->]; auto|].
  intros H; inversion H; auto.
Qed.

Variables (natoms cnt : nat) (s : image).
Definition valid (p : nat * image) : Prop := (natoms <= fst p < natoms + cnt)%nat /\ within s (snd p).
Definition block (n : image) : Z :=
  if zero_image n then 0 else if 2 * cell_nr s n <? ncells s then cell_nr s n + 1 else cell_nr s n.
Lemma slot_block : forall j n, slot natoms cnt s j n = block n * Z.of_nat cnt + Z.of_nat (j - natoms).
Proof.
  intros j n. unfold slot, block. destruct s as [[sx sy] sz], n as [[a b] c].
  destruct (zero_image (a, b, c)); [lia|]. unfold cell_nr. destruct (Z.ltb_spec (2 * (((2 * sy + 1) * (a + sx) + b + sy) * (2 * sz + 1) + c + sz)) (ncells (sx, sy, sz))); lia.
Qed.
Lemma block_cases : forall n, within s n -> within s (0, 0, 0) ->
  (n = (0, 0, 0) /\ block n = 0) \/
  (n <> (0, 0, 0) /\ 2 * cell_nr s n + 1 < ncells s /\ block n = cell_nr s n + 1) \/
  (n <> (0, 0, 0) /\ ncells s < 2 * cell_nr s n + 1 /\ block n = cell_nr s n).
Proof.
  intros n W W0. unfold block. destruct (zero_image n) eqn:E; [left; apply zero_image_true in E; auto|].
  assert (N : n <> (0, 0, 0)) by (intros ->; discriminate).
  assert (C : cell_nr s n <> cell_nr s (0, 0, 0)) by (intros Q; apply N, (cell_nr_inj s); auto).
  pose proof (cell_nr_0 s). right. destruct (Z.ltb_spec (2 * cell_nr s n) (ncells s)); [left|right]; repeat split; auto; lia.
Qed.
Lemma block_inj : forall n n', within s n -> within s n' -> within s (0, 0, 0) -> block n = block n' -> n = n'.
Proof.
  intros n n' W W' W0 H. pose proof (cell_nr_range s n W). pose proof (cell_nr_range s n' W'). pose proof (cell_nr_range s _ W0).
  pose proof (cell_nr_0 s).
  destruct (block_cases n W W0) as [[A B]|[(A & B & C)|(A & B & C)]], (block_cases n' W' W0) as [[A' B']|[(A' & B' & C')|(A' & B' & C')]];
    try congruence; try lia; apply (cell_nr_inj s); auto; lia.
Qed.
Lemma block_range : forall n, within s n -> within s (0, 0, 0) -> 0 <= block n < ncells s.
Proof.
  intros n W W0. pose proof (cell_nr_range s n W). pose proof (cell_nr_range s _ W0). pose proof (cell_nr_0 s).
  destruct (block_cases n W W0) as [[A B]|[(A & B & C)|(A & B & C)]]; lia.
Qed.
Lemma slot_inj : forall p p', valid p -> valid p' -> within s (0, 0, 0) ->
  slot natoms cnt s (fst p) (snd p) = slot natoms cnt s (fst p') (snd p') -> p = p'.
Proof.
  intros [j n] [j' n'] [A W] [A' W'] W0 H. cbn [fst snd] in *. rewrite !slot_block in H. apply div_unique2 in H; [|lia|lia].
  destruct H as [H1 H2]. apply block_inj in H1; auto. f_equal; auto. lia.
Qed.
Lemma slot_range : forall p, valid p -> within s (0, 0, 0) -> 0 <= slot natoms cnt s (fst p) (snd p) < num_slots cnt s.
Proof.
  intros [j n] [A W] W0. cbn [fst snd] in *. rewrite slot_block. pose proof (block_range n W W0). unfold num_slots. nia.
Qed.
End Slots.

Section Padding.
Variables (natoms cnt : nat) (pos : nat -> vec) (typ : nat -> nat) (b : box) (rcut : nat -> nat -> R) (s : image).
Hypothesis W0 : within s (0, 0, 0)%Z.
Notation sl p := (slot natoms cnt s (fst p) (snd p)).
Notation ok := (valid natoms cnt s).
Definition originals : list particle := map (fun i => (i, (0, 0, 0)%Z)) (seq natoms cnt).
Definition near (i j : nat) (n : image) : Prop := norm (displacement pos b i j n) <= rcut (typ i) (typ j).
Definition wanted (vs : list (nat * (nat * image))) (p : particle) : Prop :=
  snd p <> (0, 0, 0)%Z /\ exists i, In (i, p) vs /\ near i (fst p) (snd p).

Record inv (vs : list (nat * (nat * image))) (st : pad) : Prop := {
  i_nodup : NoDup (pd_list st);
  i_ok : forall p, In p (pd_list st) -> ok p;
  i_list : exists pads, pd_list st = originals ++ pads /\ (forall p, In p pads <-> wanted vs p);
  i_pos : forall k q, pd_pos st k = Some q <-> exists p, nth_error (pd_list st) q = Some p /\ sl p = k }.

(** a list without repetitions of valid particles has at most num_slots elements *)
Lemma bounded : forall l, NoDup l -> (forall p, In p l -> ok p) -> (Z.of_nat (length l) <= num_slots cnt s)%Z.
Proof.
  intros l N O. assert (N2 : NoDup (map (fun p => sl p) l)).
  { revert O. induction N as [|x l X N IH]; intros O; simpl; constructor; auto.
    - intros I. apply in_map_iff in I. destruct I as (y & E & I).
      assert (y = x); [|subst; auto]. apply (slot_inj natoms cnt s); auto; [apply O; right; auto|apply O; left; auto].
    - apply IH. intros p P. apply O. right; auto. }
  assert (I : incl (map (fun p => sl p) l) (map Z.of_nat (seq 0 (Z.to_nat (num_slots cnt s))))).
  { intros k K. apply in_map_iff in K. destruct K as (p & <- & P). pose proof (slot_range natoms cnt s p (O p P) W0).
    apply in_map_iff. exists (Z.to_nat (sl p)). split; [lia|]. apply in_seq. lia. }
  pose proof (NoDup_incl_length N2 I) as L. rewrite !map_length, seq_length in L.
  assert (0 <= num_slots cnt s)%Z. { unfold num_slots. pose proof (cell_nr_range s _ W0). nia. }
  lia.
Qed.
Lemma nodup_snoc : forall {A} (l : list A) x, NoDup l -> ~ In x l -> NoDup (l ++ [x]).
Proof.
  induction l as [|a l IH]; intros x N I; simpl; [constructor; [intros []|constructor]|].
  inversion N; subst. constructor.
  - rewrite in_app_iff. intros [K|[K|[]]]; [auto|]. subst. apply I. left; auto.
  - apply IH; auto. intros K. apply I. right; auto.
Qed.
Lemma originals_nth : forall q p, nth_error originals q = Some p <-> (q < cnt)%nat /\ p = ((natoms + q)%nat, (0, 0, 0)%Z).
Proof.
  intros q p. unfold originals. destruct (Nat.ltb_spec q cnt) as [L|L].
  - rewrite nth_error_map. rewrite (nth_error_nth' _ 0%nat) by (rewrite seq_length; auto). rewrite seq_nth by auto. cbn.
    split; [intros H; inversion H; auto|intros [_ ->]; auto].
  - rewrite (proj2 (nth_error_None _ _)) by (rewrite map_length, seq_length; auto). split; [discriminate|lia].
Qed.
Lemma sl_zero : forall j, sl (j, (0, 0, 0)%Z) = Z.of_nat (j - natoms).
Proof. intros j. cbn [fst snd]. rewrite slot_block. unfold block. cbn. lia. Qed.

Lemma inv_start : inv [] (pad_start natoms cnt).
Proof.
  constructor; cbn [pd_list pd_pos pad_start]; fold originals.
  - unfold originals. apply FinFun.Injective_map_NoDup; [intros a c H; congruence|apply seq_NoDup].
  - intros p P. apply in_map_iff in P. destruct P as (i & <- & I). apply in_seq in I. split; auto.
  - exists []. rewrite app_nil_r. split; auto. intros p. split; [intros []|intros (_ & i & [] & _)].
  - intros k q. destruct (Z.leb_spec 0 k), (Z.ltb_spec k (Z.of_nat cnt)); simpl andb; cbv iota.
    + split.
      * intros H'; inversion H'; subst. exists ((natoms + Z.to_nat k)%nat, (0, 0, 0)%Z). split; [apply originals_nth; split; [lia|auto]|].
        rewrite sl_zero. lia.
      * intros (p & P & K). apply originals_nth in P. destruct P as [L ->]. rewrite sl_zero in K. f_equal. lia.
    + split; [discriminate|]. intros (p & P & K). apply originals_nth in P. destruct P as [L ->]. rewrite sl_zero in K. lia.
    + split; [discriminate|]. intros (p & P & K). apply originals_nth in P. destruct P as [L ->]. rewrite sl_zero in K. lia.
    + split; [discriminate|]. intros (p & P & K). apply originals_nth in P. destruct P as [L ->]. rewrite sl_zero in K. lia.
Qed.
(** a visit without effect *)
Lemma inv_skip : forall vs st v, inv vs st ->
  (wanted [v] (snd v) -> exists pads, pd_list st = originals ++ pads /\ In (snd v) pads) -> inv (vs ++ [v]) st.
Proof.
  intros vs st v [I1 I2 (pads & L & I3) I4] H. constructor; auto. exists pads. split; auto.
  intros p. rewrite I3. split.
  - intros (A & i & B & C). split; auto. exists i. split; auto. apply in_or_app; auto.
  - intros (A & i & B & C). apply in_app_or in B. destruct B as [B|[B|[]]]; [split; eauto|].
    subst v. cbn [snd] in H. destruct H as (pads' & L' & P); [split; auto; exists i; split; auto; left; auto|].
    rewrite L in L'. apply app_inv_head in L'. subst pads'. apply I3 in P. exact P.
Qed.
Lemma inv_step : forall vs st v, inv vs st -> ok (snd v) ->
  exists st', pad_one natoms cnt pos typ b rcut s (Some st) v = Some st' /\ inv (vs ++ [v]) st'.
Proof.
  intros vs st [i [j n]] I O. cbn [snd] in O. unfold pad_one. destruct (zero_image n) eqn:Z0.
  { exists st. split; auto. apply inv_skip; auto. intros [N _]. apply zero_image_true in Z0. cbn in N. congruence. }
  assert (N0 : n <> (0, 0, 0)%Z) by (intros ->; discriminate).
  pose proof (slot_range natoms cnt s _ O W0) as SR. cbn [fst snd] in SR.
  destruct (Z.ltb_spec (slot natoms cnt s j n) 0); [lia|]. destruct (Z.leb_spec (num_slots cnt s) (slot natoms cnt s j n)); [lia|].
  simpl orb. cbv iota. destruct (pd_pos st (slot natoms cnt s j n)) as [q|] eqn:P.
  - exists st. split; auto. apply inv_skip; auto. intros _. cbn [snd]. apply (i_pos _ _ I) in P. destruct P as (p & P & K).
    assert (p = (j, n)).
    { apply (slot_inj natoms cnt s); auto. apply (i_ok _ _ I). eapply nth_error_In; eauto. }
    subst p. destruct (i_list _ _ I) as (pads & L & _). exists pads. split; auto.
    apply nth_error_In in P. rewrite L in P. apply in_app_or in P. destruct P as [P|P]; auto.
    apply in_map_iff in P. destruct P as (m & E & _). congruence.
  - assert (FR : ~ In (j, n) (pd_list st)).
    { intros K. apply In_nth_error in K. destruct K as [q K]. assert (X : pd_pos st (slot natoms cnt s j n) = Some q) by (apply (i_pos _ _ I); exists (j, n); auto). congruence. }
    rewrite shift_displacement. destruct (Rlt_dec (rcut (typ i) (typ j)) (norm (displacement pos b i j n))) as [F|F].
    + exists st. split; auto. apply inv_skip; auto. cbn [snd]. intros (_ & i' & [E|[]] & C). inversion E; subst i'. unfold near in C. cbn in C. lra.
    + assert (ND : NoDup (pd_list st ++ [(j, n)])) by (apply nodup_snoc; auto; apply (i_nodup _ _ I)).
      assert (OK : forall p, In p (pd_list st ++ [(j, n)]) -> ok p).
      { intros p K. apply in_app_or in K. destruct K as [K|[<-|[]]]; auto. apply (i_ok _ _ I); auto. }
      pose proof (bounded _ ND OK) as BD. rewrite app_length in BD. cbn [length] in BD.
      destruct (Z.leb_spec (num_slots cnt s) (Z.of_nat (length (pd_list st)))); [lia|].
      eexists. split; [reflexivity|]. destruct I as [I1 I2 (pads & L & I3) I4]. constructor; cbn [pd_list pd_pos]; auto.
      * exists (pads ++ [(j, n)]). rewrite L, app_assoc. split; auto. intros p. rewrite in_app_iff, I3. split.
        -- intros [(A & i' & B & C)|[<-|[]]]; [split; auto; exists i'; split; auto; apply in_or_app; auto|].
           split; auto. exists i. split; [apply in_or_app; right; left; auto|]. unfold near. cbn. lra.
        -- intros (A & i' & B & C). apply in_app_or in B. destruct B as [B|[B|[]]]; [left; split; eauto|].
           inversion B; subst. right; left; auto.
      * intros k q. destruct (Z.eqb_spec k (slot natoms cnt s j n)) as [->|D].
        -- split.
           ++ intros Q; inversion Q; subst q. exists (j, n). split; auto. rewrite nth_error_app2 by auto. rewrite Nat.sub_diag. auto.
           ++ intros (p & Q & K). f_equal.
              assert (p = (j, n)) by (apply (slot_inj natoms cnt s); auto; apply OK; eapply nth_error_In; eauto). subst p.
              apply (proj1 (NoDup_nth_error _) ND); [rewrite app_length; simpl; lia|].
              rewrite Q. rewrite nth_error_app2 by auto. rewrite Nat.sub_diag. auto.
        -- rewrite I4. split.
           ++ intros (p & Q & K). exists p. split; auto. rewrite nth_error_app1; auto. apply nth_error_Some. congruence.
           ++ intros (p & Q & K). exists p. split; auto. destruct (Nat.ltb_spec q (length (pd_list st))) as [Lq|Lq].
              ** rewrite nth_error_app1 in Q; auto.
              ** rewrite nth_error_app2 in Q by auto. destruct (q - length (pd_list st))%nat as [|m]; cbn in Q; [|destruct m; discriminate].
                 inversion Q; subst p. cbn in K. congruence.
Qed.
Lemma inv_fold : forall vs vs0 st, inv vs0 st -> (forall v, In v vs -> ok (snd v)) ->
  exists st', fold_left (pad_one natoms cnt pos typ b rcut s) vs (Some st) = Some st' /\ inv (vs0 ++ vs) st'.
Proof.
  induction vs as [|v vs IH]; intros vs0 st I O.
  - exists st. rewrite app_nil_r. auto.
  - destruct (inv_step vs0 st v I (O v (or_introl eq_refl))) as (st1 & E & I1). cbn [fold_left]. rewrite E.
    destruct (IH (vs0 ++ [v]) st1 I1) as (st2 & E2 & I2); [intros; apply O; right; auto|].
    exists st2. split; auto. rewrite <- app_assoc in I2. exact I2.
Qed.
Lemma pad_visits_in : forall i j n, In (i, (j, n)) (pad_visits natoms cnt s) <->
  (natoms <= i < natoms + cnt)%nat /\ (natoms <= j < natoms + cnt)%nat /\ within s n.
Proof.
  intros i j n. unfold pad_visits. rewrite in_flat_map. split.
  - intros (i' & I & H). apply in_map_iff in H. destruct H as ([j' n'] & E & V). inversion E; subst. apply in_seq in I. apply visits_in in V. split; auto.
  - intros (I & V). exists i. split; [apply in_seq; auto|]. apply in_map. apply visits_in. exact V.
Qed.
Lemma kim_fill_spec : forall st i vs acc,
  (forall v, In v vs -> bondb pos typ b rcut i v = true -> exists q, pd_pos st (sl v) = Some q) ->
  exists l, fold_left (kim_fill natoms cnt pos typ b rcut s st i) vs acc = acc ++ l /\
    map snd l = filter (bondb pos typ b rcut i) vs /\ (forall q v, In (q, v) l -> pd_pos st (sl v) = Some q).
Proof.
  intros st i vs. induction vs as [|[j n] vs IH]; intros acc H.
  - exists []. cbn. rewrite app_nil_r. split; auto. split; auto. intros q v [].
  - cbn [fold_left filter]. destruct (bondb pos typ b rcut i (j, n)) eqn:B.
    + destruct (H (j, n) (or_introl eq_refl) B) as (q & Q). cbn [fst snd] in Q.
      assert (E : kim_fill natoms cnt pos typ b rcut s st i acc (j, n) = acc ++ [(q, (j, n))]).
      { unfold kim_fill. unfold bondb in B. cbn [fst snd] in B. destruct (self i j n); [discriminate|]. rewrite Q.
        destruct (Rle_dec _ _); [auto|discriminate]. }
      rewrite E. destruct (IH (acc ++ [(q, (j, n))])) as (l & L & M & P); [intros v V; apply H; right; auto|].
      exists ((q, (j, n)) :: l). rewrite L, <- app_assoc. split; auto. split; [cbn; rewrite M; auto|].
      intros q' v [V|V]; [inversion V; subst; auto|auto].
    + assert (E : kim_fill natoms cnt pos typ b rcut s st i acc (j, n) = acc).
      { unfold kim_fill. unfold bondb in B. cbn [fst snd] in B. destruct (self i j n); [auto|].
        destruct (pd_pos _ _); [|auto]. destruct (Rle_dec _ _); [discriminate|auto]. }
      rewrite E. apply IH. intros v V; apply H; right; auto.
Qed.

Theorem padding : exists st pads,
  init_padding natoms cnt pos typ b rcut s = Some st /\
  pd_list st = originals ++ pads /\ NoDup (pd_list st) /\
  (forall j n, In (j, n) pads <-> (natoms <= j < natoms + cnt)%nat /\ within s n /\ n <> (0, 0, 0)%Z /\
     exists i, (natoms <= i < natoms + cnt)%nat /\ near i j n) /\
  (forall i, (natoms <= i < natoms + cnt)%nat ->
     map snd (kim_neighbors natoms cnt pos typ b rcut s st i) = filter (bondb pos typ b rcut i) (visits natoms (natoms + cnt) s) /\
     forall q p, In (q, p) (kim_neighbors natoms cnt pos typ b rcut s st i) -> nth_error (pd_list st) q = Some p).
Proof.
  destruct (inv_fold (pad_visits natoms cnt s) [] _ inv_start) as (st & E & I).
  { intros [i [j n]] V. apply pad_visits_in in V. split; tauto. }
  cbn [app] in I. destruct (i_list _ _ I) as (pads & L & P).
  assert (PS : forall j n, In (j, n) pads <-> (natoms <= j < natoms + cnt)%nat /\ within s n /\ n <> (0, 0, 0)%Z /\
     exists i, (natoms <= i < natoms + cnt)%nat /\ near i j n).
  { intros j n. rewrite P. unfold wanted. cbn [fst snd]. split.
    - intros (A & i & B & C). apply pad_visits_in in B. intuition. exists i. auto.
    - intros (A & B & C & i & D & F). split; auto. exists i. split; auto. apply pad_visits_in. auto. }
  exists st, pads. split; [exact E|]. split; auto. split; [apply (i_nodup _ _ I)|]. split; auto.
  intros i Hi.
  assert (X : forall v, In v (visits natoms (natoms + cnt) s) -> bondb pos typ b rcut i v = true -> exists q, pd_pos st (sl v) = Some q).
  { intros [j n] V B. apply visits_in in V. apply bondb_true in B. destruct B as [NS B].
    assert (K : In (j, n) (pd_list st)).
    { rewrite L. apply in_or_app. destruct (zero_image n) eqn:Z0.
      - apply zero_image_true in Z0. subst n. left. apply in_map_iff. exists j. split; auto. apply in_seq. lia.
      - right. apply PS. repeat split; try tauto. + intros ->; discriminate. + exists i. auto. }
    apply In_nth_error in K. destruct K as [q K]. exists q. apply (i_pos _ _ I). exists (j, n). auto. }
  destruct (kim_fill_spec st i (visits natoms (natoms + cnt) s) [] X) as (l & A & M & Q). unfold kim_neighbors. rewrite A. cbn [app].
  split; auto. intros q p K. pose proof (Q q p K) as K'. apply (i_pos _ _ I) in K'. destruct K' as (p' & N & S).
  assert (p' = p); [|subst; auto]. apply (slot_inj natoms cnt s); auto; [apply (i_ok _ _ I); eapply nth_error_In; eauto|].
  assert (V : In p (map snd l)) by (apply in_map_iff; exists (q, p); auto). rewrite M in V. apply filter_In in V. destruct V as [V _].
  destruct p as [j n]. apply visits_in in V. exact V.
Qed.
End Padding.

(** with atoms inside of the cell and cell_scale from init_box_vectors: exactly the images
    within the cutoff of some atom *)
Theorem padding_complete : forall natoms cnt pos typ b rcut t v rcutmax s,
  make_box b = Some (t, v) -> 0 <= rcutmax -> init_box_vectors t rcutmax = Some s ->
  (forall k, (natoms <= k < natoms + cnt)%nat -> in_cell b (pos k)) -> (forall k m, rcut k m <= rcutmax) ->
  exists st pads,
  init_padding natoms cnt pos typ b rcut s = Some st /\
  pd_list st = map (fun i => (i, (0, 0, 0)%Z)) (seq natoms cnt) ++ pads /\ NoDup (pd_list st) /\
  (forall j n, In (j, n) pads <-> (natoms <= j < natoms + cnt)%nat /\ n <> (0, 0, 0)%Z /\
     exists i, (natoms <= i < natoms + cnt)%nat /\ norm (displacement pos b i j n) <= rcut (typ i) (typ j)) /\
  (forall i, (natoms <= i < natoms + cnt)%nat ->
     let l := kim_neighbors natoms cnt pos typ b rcut s st i in
     (forall j n, In (j, n) (map snd l) <-> (natoms <= j < natoms + cnt)%nat /\ bond pos typ b rcut i j n) /\
     NoDup (map snd l) /\
     forall q p, In (q, p) l -> nth_error (pd_list st) q = Some p).
Proof.
  intros natoms cnt pos typ b rcut t v rm s M R0 S IC RC.
  assert (W0 : within s (0, 0, 0)%Z).
  { unfold init_box_vectors in S. destruct ((_ || _ || _)%bool); [discriminate|]. injection S as <-. unfold within.
    assert (C : forall c, (0 <= ceil (rm * norm c))%Z) by (intros c; apply ceil_nonneg, Rmult_le_pos; auto; apply norm_nonneg).
    pose proof (C (bx t)). pose proof (C (by_ t)). pose proof (C (bz t)). repeat split; lia. }
  assert (W : forall i j n, (natoms <= i < natoms + cnt)%nat -> (natoms <= j < natoms + cnt)%nat -> norm (displacement pos b i j n) <= rcut (typ i) (typ j) -> within s n).
  { intros i j n I J D. apply (scale_suffices pos b s t v rm i j n); auto. apply Rle_trans with (rcut (typ i) (typ j)); auto. }
  destruct (padding natoms cnt pos typ b rcut s W0) as (st & pads & E & L & N & P & K).
  exists st, pads. split; auto. split; auto. split; auto. split.
  - intros j n. rewrite P. unfold near. split.
    + intros (A & B & C & i & D & F). split; auto. split; auto. exists i. auto.
    + intros (A & C & i & D & F). split; auto. split; [eauto|]. split; auto. exists i. auto.
  - intros i I l. destruct (K i I) as [A B]. split; [|split; auto].
    + intros j n. unfold l. rewrite A, filter_In, visits_in, bondb_true. split; [tauto|]. intros [J D]. split; auto. split; auto.
      apply (W i j n); auto. apply D.
    + unfold l. rewrite A. apply NoDup_filter, visits_nodup.
Qed.
(** the coordinates of a particle are those of the image *)
Lemma particle_place : forall pos b i j n, vsub (coordinates pos b (j, n)) (pos i) = displacement pos b i j n.
Proof. intros pos b i j [[x y] z]. unfold coordinates, displacement, shifted, comb; cbn [fst snd]. vring. Qed.
From Verif Require Import NbrProof2 NbrProof3.
Lemma padding_ex : make_box cube = Some (cube, 1) /\ init_box_vectors cube 1 = Some (1, 1, 1)%Z /\
  in_cell cube (origin 0%nat) /\ norm (displacement origin cube 0 0 (1, 0, 0)%Z) <= 1.
Proof.
  split; [exact cube_box|]. split; [exact cube_scale|]. destruct (one_atom true) as (l & _ & C & _). split; [exact C|].
  rewrite cube_displacement. unfold norm, sprod; simpl. replace (1 * 1 + 0 * 0 + 0 * 0) with 1 by lra. rewrite sqrt_1. lra.
Qed.
