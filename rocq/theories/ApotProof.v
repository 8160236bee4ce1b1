(** The optimiser's index of an analytic potential. *)
From Coq Require Import Reals ZArith List Bool String Lia Sorting.Sorted.
From Verif Require Import LoopUtil ApotModel ApotSpec.
Import ListNotations.

Definition dpar : par := Par "" 0 0 0 false.
(** row, position of its first parameter, fixed as a whole, parameters *)
Definition block := (nat * nat * bool * list par)%type.
Definition b_row (b : block) := fst (fst (fst b)).
Definition b_base (b : block) := snd (fst (fst b)).
Definition b_inv (b : block) := snd (fst b).
Definition b_pars (b : block) := snd b.
Definition b_end (b : block) := b_base b + List.length (b_pars b).
Definition is_free (inv : bool) (p : par) : bool := negb inv && negb (p_inv p).

Fixpoint row_idx (i pos j : nat) (inv : bool) (ps : list par) : list (nat * nat * nat) :=
  match ps with
  | [] => []
  | p :: r => (if is_free inv p then [(pos, i, j)] else []) ++ row_idx i (S pos) (S j) inv r
  end.
Definition block_idx (b : block) := row_idx (b_row b) (b_base b) 0 (b_inv b) (b_pars b).

Lemma put_row_eq : forall i inv ps j w,
  put_row put i j inv ps w =
  Wr (w_tab w ++ map (fun p => Some (p_val p)) ps) (w_l w + List.length ps)
     (w_idx w ++ row_idx i (w_l w) j inv ps).
Proof.
  induction ps as [|p r IH]; intros j w; simpl.
  - rewrite !app_nil_r, Nat.add_0_r. destruct w; reflexivity.
  - rewrite IH. unfold put at 1; simpl. rewrite <- app_assoc. simpl.
    f_equal; [lia|].
    unfold put; simpl. unfold is_free. destruct (negb inv && negb (p_inv p)); simpl; rewrite <- ?app_assoc; reflexivity.
Qed.

(** what holds after the blocks [B] have been written *)
Record wr_ok (B : list block) (w : wr) : Prop := WrOk {
  wo_l : w_l w = List.length (w_tab w);
  wo_idx : w_idx w = flat_map block_idx B;
  wo_val : forall b k p, In b B -> nth_error (b_pars b) k = Some p -> nth_error (w_tab w) (b_base b + k) = Some (Some (p_val p));
  wo_end : forall b, In b B -> b_end b <= List.length (w_tab w);
  wo_ord : StronglySorted (fun b c => b_end b <= b_base c) B }.

Lemma ss_snoc : forall {A} (R : A -> A -> Prop) l x, StronglySorted R l -> (forall y, In y l -> R y x) -> StronglySorted R (l ++ [x]).
Proof.
  induction l as [|a l IH]; intros x S H; simpl; [repeat constructor|].
  inversion S; subst. constructor.
  - apply IH; auto. intros; apply H; right; auto.
  - apply Forall_app. split; auto. constructor; auto. apply H. left; auto.
Qed.

Lemma ok_row : forall B w i inv ps, wr_ok B w ->
  wr_ok (B ++ [(i, w_l w, inv, ps)]) (put_row put i 0 inv ps w).
Proof.
  intros B w i inv ps [Hl Hi Hv He Ho]. rewrite put_row_eq. constructor; cbn [w_tab w_l w_idx].
  - rewrite app_length, map_length. lia.
  - rewrite flat_map_app, Hi. simpl. rewrite app_nil_r. unfold block_idx; reflexivity.
  - intros b k p Hb Hk. apply in_app_or in Hb. destruct Hb as [Hb|[<-|[]]].
    + rewrite nth_error_app1; [apply (Hv b); auto|].
      pose proof (He b Hb) as E. unfold b_end in E.
      assert (k < List.length (b_pars b)) by (apply nth_error_Some; congruence). lia.
    + unfold b_base, b_pars in *; cbn in *. rewrite Hl, nth_error_app2 by lia.
      replace (List.length (w_tab w) + k - List.length (w_tab w)) with k by lia.
      rewrite nth_error_map, Hk. reflexivity.
  - intros b Hb. rewrite app_length, map_length. apply in_app_or in Hb. destruct Hb as [Hb|[<-|[]]].
    + specialize (He b Hb). lia.
    + unfold b_end; cbn. unfold b_base, b_pars; cbn. lia.
  - apply ss_snoc; auto. intros y Hy. unfold b_base at 1; cbn. rewrite Hl. auto.
Qed.
Lemma ok_gap : forall B w, wr_ok B w -> wr_ok B (put_gap w).
Proof.
  intros B w [Hl Hi Hv He Ho]. unfold put_gap. constructor; cbn [w_tab w_l w_idx]; auto.
  - rewrite app_length; simpl; lia.
  - intros b k p Hb Hk. rewrite nth_error_app1; [apply (Hv b); auto|].
    pose proof (He b Hb) as E. unfold b_end in E.
    assert (k < List.length (b_pars b)) by (apply nth_error_Some; congruence). lia.
  - intros b Hb. specialize (He b Hb). rewrite app_length; lia.
Qed.
Lemma row_l : forall i inv ps w, w_l (put_row put i 0 inv ps w) = w_l w + List.length ps.
Proof. intros. rewrite put_row_eq. reflexivity. Qed.

Fixpoint pot_blocks (i l : nat) (ps : list pot) : list block :=
  match ps with
  | [] => []
  | q :: r => (i, l + 2, q_inv q, map fst (q_pars q)) :: pot_blocks (S i) (l + 2 + n_par q) r
  end.
Fixpoint pots_l (l : nat) (ps : list pot) : nat :=
  match ps with [] => l | q :: r => pots_l (l + 2 + n_par q) r end.
Lemma ok_pots : forall ps i B w, wr_ok B w -> wr_ok (B ++ pot_blocks i (w_l w) ps) (put_pots i ps w) /\
  w_l (put_pots i ps w) = pots_l (w_l w) ps.
Proof.
  induction ps as [|q r IH]; intros i B w H; simpl.
  - rewrite app_nil_r. auto.
  - set (w1 := put_row put i 0 (q_inv q) (map fst (q_pars q)) (put_gap w)).
    assert (E : w_l w1 = w_l w + 2 + n_par q).
    { unfold w1. rewrite row_l, map_length. reflexivity. }
    assert (H1 : wr_ok (B ++ [(i, w_l w + 2, q_inv q, map fst (q_pars q))]) w1).
    { apply (ok_row B (put_gap w)). apply ok_gap; auto. }
    destruct (IH (S i) _ _ H1) as [G1 G2]. rewrite E in *. rewrite <- app_assoc in G1. simpl in G1. auto.
Qed.
Lemma pots_l_first : forall ps l, 
  pots_l l ps = match ps with [] => l | _ => first_of (map n_par ps) (l + 2) (List.length ps - 1) + n_par (nth (List.length ps - 1) ps (Pot false false [])) end.
Proof.
  induction ps as [|q r IH]; intros l; auto.
  simpl pots_l. rewrite IH. destruct r as [|q' r'].
  - simpl. lia.
  - simpl List.length. replace (S (S (List.length r')) - 1) with (S (List.length r')) by lia.
    replace (S (List.length r') - 1) with (List.length r') by lia.
    cbn [map first_of nth]. reflexivity.
Qed.
Lemma pot_blocks_in : forall ps i0 l b, In b (pot_blocks i0 l ps) <->
  exists i q, nth_error ps i = Some q /\ b = (i0 + i, first_of (map n_par ps) (l + 2) i, q_inv q, map fst (q_pars q)).
Proof.
  induction ps as [|q r IH]; intros i0 l b; simpl.
  - split; [tauto|]. intros (i & q & H & _). destruct i; discriminate.
  - rewrite IH. split.
    + intros [<-|(i & q' & H & ->)].
      * exists 0, q. split; auto. rewrite Nat.add_0_r. reflexivity.
      * exists (S i), q'. split; auto. simpl. replace (i0 + S i) with (S (i0 + i)) by lia. reflexivity.
    + intros (i & q' & H & ->). destruct i; simpl in *.
      * left. inversion H; subst. rewrite Nat.add_0_r. reflexivity.
      * right. exists i, q'. split; auto. replace (i0 + S i) with (S (i0 + i)) by lia. reflexivity.
Qed.
Lemma pots_l_sum : forall ps l, Z.of_nat (pots_l l ps) = (Z.of_nat l + 2 * Z.of_nat (List.length ps) + sumz (map (fun q => Z.of_nat (n_par q)) ps))%Z.
Proof. induction ps; intros l; cbn [pots_l List.length map sumz fold_right]; [lia|]. rewrite IHps. unfold sumz. lia. Qed.

(** ** counting *)
Lemma row_idx_length : forall i inv ps pos j, Z.of_nat (List.length (row_idx i pos j inv ps)) =
  if inv then 0%Z else (Z.of_nat (List.length ps) - inv_count ps)%Z.
Proof.
  induction ps as [|p r IH]; intros pos j.
  - destruct inv; reflexivity.
  - cbn [row_idx]. rewrite app_length, Nat2Z.inj_add, IH. unfold is_free, inv_count in *. cbn [filter].
    destruct inv; cbn [negb andb]; [reflexivity|]. destruct (p_inv p); cbn [negb andb List.length]; rewrite ?Nat2Z.inj_succ; simpl Z.of_nat; lia.
Qed.
Lemma inv_count_le : forall ps, (0 <= inv_count ps <= Z.of_nat (List.length ps))%Z.
Proof.
  intros. unfold inv_count. split; [lia|]. apply inj_le.
  induction ps; simpl; [lia|]. destruct (p_inv a); simpl; lia.
Qed.
Definition zlen {A} (l : list A) := Z.of_nat (List.length l).
Lemma zlen_app : forall {A} (l m : list A), zlen (l ++ m) = (zlen l + zlen m)%Z.
Proof. intros. unfold zlen. rewrite app_length. lia. Qed.
Lemma pot_blocks_count : forall ps i l, zlen (flat_map block_idx (pot_blocks i l ps)) =
  sumz (map (fun q => if q_inv q then 0 else Z.of_nat (n_par q) - inv_count (map fst (q_pars q)))%Z ps).
Proof.
  induction ps as [|q r IH]; intros; simpl; auto.
  rewrite zlen_app, IH. f_equal. unfold block_idx, zlen. rewrite row_idx_length. unfold b_inv, b_pars; cbn.
  rewrite map_length. reflexivity.
Qed.
Lemma pots_count_le : forall ps,
  (sumz (map (fun q => if q_inv q then 0 else Z.of_nat (n_par q) - inv_count (map fst (q_pars q))) ps) <= sumz (map (fun q => Z.of_nat (n_par q)) ps))%Z.
Proof.
  induction ps as [|q r IH]; simpl; [lia|].
  assert ((if q_inv q then 0 else Z.of_nat (n_par q) - inv_count (map fst (q_pars q))) <= Z.of_nat (n_par q))%Z.
  { destruct (q_inv q); [lia|]. pose proof (inv_count_le (map fst (q_pars q))). lia. }
  lia.
Qed.

(** ** order and membership *)
Lemma row_idx_in : forall i inv ps pos j t, In t (row_idx i pos j inv ps) <->
  exists k p, nth_error ps k = Some p /\ is_free inv p = true /\ t = (pos + k, i, j + k).
Proof.
  induction ps as [|p r IH]; intros pos j t; simpl.
  - split; [tauto|]. intros (k & p & H & _). destruct k; discriminate.
  - rewrite in_app_iff, IH. split.
    + intros [H|(k & p' & H & F & ->)].
      * destruct (is_free inv p) eqn:F; [|destruct H]. destruct H as [<-|[]].
        exists 0, p. rewrite !Nat.add_0_r. auto.
      * exists (S k), p'. split; auto. split; auto. f_equal; [f_equal|]; lia.
    + intros (k & p' & H & F & ->). destruct k; simpl in *.
      * inversion H; subst. rewrite F. left. left. rewrite !Nat.add_0_r. reflexivity.
      * right. exists k, p'. split; auto. split; auto. f_equal; [f_equal|]; lia.
Qed.
Lemma block_idx_in : forall b t, In t (block_idx b) <->
  exists k p, nth_error (b_pars b) k = Some p /\ is_free (b_inv b) p = true /\ t = (b_base b + k, b_row b, k).
Proof. intros. unfold block_idx. rewrite row_idx_in. simpl. reflexivity. Qed.

Lemma row_idx_sorted : forall i inv ps pos j, StronglySorted lt (map (fun t : nat * nat * nat => fst (fst t)) (row_idx i pos j inv ps)).
Proof.
  induction ps as [|p r IH]; intros pos j; simpl; [constructor|].
  destruct (is_free inv p); simpl; auto. constructor; auto.
  apply Forall_forall. intros x Hx. apply in_map_iff in Hx. destruct Hx as (t & <- & Ht).
  apply row_idx_in in Ht. destruct Ht as (k & q & _ & _ & ->). simpl. lia.
Qed.
Lemma ss_app : forall l1 l2, StronglySorted lt l1 -> StronglySorted lt l2 -> (forall x y, In x l1 -> In y l2 -> x < y) -> StronglySorted lt (l1 ++ l2).
Proof.
  induction l1 as [|a l IH]; intros l2 S1 S2 H; simpl; auto. inversion S1; subst. constructor.
  - apply IH; auto. intros; apply H; auto. right; auto.
  - apply Forall_app. split; auto. apply Forall_forall. intros y Hy. apply H; auto. left; auto.
Qed.
Lemma blocks_sorted : forall B, StronglySorted (fun b c => b_end b <= b_base c) B ->
  StronglySorted lt (map (fun t : nat * nat * nat => fst (fst t)) (flat_map block_idx B)).
Proof.
  induction B as [|b B IH]; intros S; simpl; [constructor|]. inversion S; subst.
  rewrite map_app. apply ss_app; auto.
  - apply row_idx_sorted.
  - intros x y Hx Hy. apply in_map_iff in Hx. destruct Hx as (t & <- & Ht). apply block_idx_in in Ht.
    destruct Ht as (k & p & Hk & _ & ->).
    apply in_map_iff in Hy. destruct Hy as (u & <- & Hu). apply in_flat_map in Hu. destruct Hu as (c & Hc & Hu).
    apply block_idx_in in Hu. destruct Hu as (k' & p' & _ & _ & ->). simpl.
    rewrite Forall_forall in H2. specialize (H2 c Hc). unfold b_end in H2.
    assert (k < List.length (b_pars b)) by (apply nth_error_Some; congruence). lia.
Qed.
Lemma ss_nodup : forall l, StronglySorted lt l -> NoDup l.
Proof.
  induction l; intros S; constructor; inversion S; subst; auto.
  intro H. rewrite Forall_forall in H2. specialize (H2 a H). lia.
Qed.
(** no parameter twice: positions differ and rows are written once *)
Lemma cells_nodup : forall B, NoDup (map b_row B) ->
  NoDup (map (fun t : nat * nat * nat => (snd (fst t), snd t)) (flat_map block_idx B)).
Proof.
  induction B as [|b B IH]; intros N; simpl; [constructor|]. inversion N; subst.
  rewrite map_app. 
  assert (G : forall (l1 l2 : list (nat * nat)), NoDup l1 -> NoDup l2 -> (forall x, In x l1 -> ~ In x l2) -> NoDup (l1 ++ l2)).
  { induction l1; intros l2 N1 N2 D; simpl; auto. inversion N1; subst. constructor.
    - rewrite in_app_iff. intros [A|A]; auto. apply (D a); auto. left; auto.
    - apply IHl1; auto. intros x Hx. apply D. right; auto. }
  apply G; auto.
  - unfold block_idx. generalize (b_base b), 0. generalize (b_pars b).
    induction l as [|p r IHr]; intros pos j; simpl; [constructor|].
    destruct (is_free (b_inv b) p); simpl; auto. constructor; auto.
    intro H. apply in_map_iff in H. destruct H as (t & E & Ht). apply row_idx_in in Ht.
    destruct Ht as (k & q & _ & _ & ->). simpl in E. inversion E. lia.
  - intros x Hx Hy. apply in_map_iff in Hx. destruct Hx as (t & <- & Ht). apply block_idx_in in Ht.
    destruct Ht as (k & p & _ & _ & ->). simpl in Hy.
    apply in_map_iff in Hy. destruct Hy as (u & E & Hu). apply in_flat_map in Hu. destruct Hu as (c & Hc & Hu).
    apply block_idx_in in Hu. destruct Hu as (k' & p' & _ & _ & ->). simpl in E. inversion E.
    apply H1. rewrite <- H0. apply in_map. auto.
Qed.

(** ** the chemical potentials, all free *)
Lemma put_cp_free : forall i ps j w, forallb (fun p => negb (p_inv p)) ps = true ->
  put_row put_cp i j false ps w = put_row put i j false ps w.
Proof.
  induction ps as [|p r IH]; intros j w H; simpl in *; auto.
  apply andb_prop in H. destruct H as [H1 H2]. rewrite IH by auto. f_equal. unfold put_cp, put. rewrite H1. reflexivity.
Qed.

(** ** everything after the potentials *)
Definition tail_blocks (a : apot) : list block :=
  let n := List.length (a_pots a) in
  let e := pots_l 0 (a_pots a) in
  let glob e := if have_globals a then [(global_pot a, e, false, a_globals a)] else [] in
  match a_cp a, a_elstat a, a_dipole a with
  | Some c, _, _ => (n, e, false, c) :: glob (e + List.length c)
  | None, None, _ => glob e
  | None, Some (ch, ka), None => (n, e, false, ch) :: (n + 1, e + List.length ch, false, [ka]) :: glob (e + List.length ch + 1)
  | None, Some (ch, ka), Some (al, b, c) =>
      let e' := e + List.length ch + 1 in
      (n, e, false, ch) :: (n + 1, e + List.length ch, false, [ka]) ::
      (n + 2, e', false, al) :: (n + 3, e' + List.length al, false, b) ::
      (n + 4, e' + List.length al + List.length b, false, c) ::
      glob (e' + List.length al + List.length b + List.length c)
  end.
Definition blocks (a : apot) := pot_blocks 0 0 (a_pots a) ++ tail_blocks a.
(** the writing state at the end *)
Definition final_wr (a : apot) : wr :=
  let n := List.length (a_pots a) in
  let w := put_pots 0 (a_pots a) (Wr [] 0 []) in
  let w := match a_cp a with None => w | Some c => put_row put_cp n 0 false c w end in
  let w := match a_elstat a with
           | None => w
           | Some (ch, ka) => put_row put (n + 1) 0 false [ka] (put_row put n 0 false ch w)
           end in
  let w := match a_dipole a with
           | None => w
           | Some (al, b, c) => put_row put (n + 4) 0 false c (put_row put (n + 3) 0 false b (put_row put (n + 2) 0 false al w))
           end in
  if have_globals a then put_row put (global_pot a) 0 false (a_globals a) w else w.
Lemma final_tab : forall nt a, l_tab (read_pot_table0 nt a) = w_tab (final_wr a).
Proof. reflexivity. Qed.
Lemma final_idx : forall nt a, l_idx (read_pot_table0 nt a) = w_idx (final_wr a).
Proof. reflexivity. Qed.

Definition cp_free (a : apot) : Prop := forall c, a_cp a = Some c -> forallb (fun p => negb (p_inv p)) c = true.

Lemma final_ok : forall nt a, sizes_ok nt a -> cp_free a -> wr_ok (blocks a) (final_wr a).
Proof.
  intros nt a (N1 & N2 & C & El & D) F. unfold blocks, final_wr, tail_blocks.
  assert (W0 : wr_ok [] (Wr [] 0 [])). { constructor; simpl; auto; try tauto. constructor. }
  destruct (ok_pots (a_pots a) 0 _ _ W0) as [W L]. cbn [w_l app] in W, L.
  set (w := put_pots 0 (a_pots a) (Wr [] 0 [])) in *. clearbody w.
  set (B := pot_blocks 0 0 (a_pots a)) in *. clearbody B.
  assert (RG : forall B w e, wr_ok B w -> w_l w = e ->
     wr_ok (B ++ (if have_globals a then [(global_pot a, e, false, a_globals a)] else []))
       (if have_globals a then put_row put (global_pot a) 0 false (a_globals a) w else w)).
  { intros B' w' e W' <-. destruct (have_globals a); [apply ok_row; auto|rewrite app_nil_r; auto]. }
  assert (RR : forall B w i ps rest, wr_ok ((B ++ [(i, w_l w, false, ps)]) ++ rest) = wr_ok (B ++ (i, w_l w, false, ps) :: rest)).
  { intros. rewrite <- app_assoc. reflexivity. }
  destruct (a_cp a) as [c|] eqn:Ec.
  - destruct C as (C1 & C2 & C3). rewrite C3 in *. rewrite El in *.
    rewrite put_cp_free by (apply F; auto). rewrite <- L.
    rewrite <- RR. apply RG; [apply ok_row; auto|]. rewrite row_l. reflexivity.
  - destruct (a_elstat a) as [[ch ka]|] eqn:Ee.
    + pose proof (ok_row _ _ (List.length (a_pots a)) false ch W) as W1.
      pose proof (ok_row _ _ (List.length (a_pots a) + 1) false [ka] W1) as W2.
      rewrite row_l in W2. rewrite L in W1, W2.
      destruct (a_dipole a) as [[[al b] cc]|] eqn:Ed.
      * pose proof (ok_row _ _ (List.length (a_pots a) + 2) false al W2) as W3.
        pose proof (ok_row _ _ (List.length (a_pots a) + 3) false b W3) as W4.
        pose proof (ok_row _ _ (List.length (a_pots a) + 4) false cc W4) as W5.
        repeat rewrite row_l in W5. rewrite L in *. cbn [List.length] in W5.
        match goal with |- wr_ok (?B ++ ?b1 :: ?b2 :: ?b3 :: ?b4 :: ?b5 :: ?r) _ =>
          change (B ++ b1 :: b2 :: b3 :: b4 :: b5 :: r) with (B ++ ([b1; b2; b3; b4; b5] ++ r)) end.
        rewrite app_assoc. apply RG.
        -- rewrite <- !app_assoc in W5. exact W5.
        -- repeat rewrite row_l. rewrite L. cbn [List.length]. reflexivity.
      * match goal with |- wr_ok (?B ++ ?b1 :: ?b2 :: ?r) _ =>
          change (B ++ b1 :: b2 :: r) with (B ++ ([b1; b2] ++ r)) end.
        rewrite app_assoc. apply RG.
        -- rewrite <- !app_assoc in W2. exact W2.
        -- repeat rewrite row_l. rewrite L. cbn [List.length]. reflexivity.
    + rewrite El. apply RG; auto.
Qed.

(** rows in the blocks and rows of the table *)
Lemma row_in_blocks : forall nt a i inv ps, sizes_ok nt a ->
  (row_of a i = Some (inv, ps) <-> exists e, In (i, e, inv, ps) (blocks a)).
Proof.
  intros nt a i inv ps (N1 & N2 & C & El & D). unfold blocks, row_of.
  set (n := List.length (a_pots a)) in *.
  destruct (Nat.ltb_spec i n) as [Li|Li].
  - destruct (nth_error (a_pots a) i) as [q|] eqn:Q; [|apply nth_error_None in Q; unfold n in *; lia].
    split.
    + intros H. inversion H; subst. exists (first_of (map n_par (a_pots a)) (0 + 2) i).
      apply in_or_app. left. apply pot_blocks_in. exists i, q. auto.
    + intros (e & H). apply in_app_or in H. destruct H as [H|H].
      * apply pot_blocks_in in H. destruct H as (i' & q' & Q' & E). inversion E; subst. simpl in Q.
        rewrite Q in Q'. inversion Q'; subst. reflexivity.
      * exfalso. revert H. unfold tail_blocks. fold n. unfold global_pot. fold n. clear - Li.
        destruct (a_cp a), (a_elstat a) as [[? ?]|], (a_dipole a) as [[[? ?] ?]|], (have_globals a); simpl;
          intuition; match goal with H : (_, _, _, _) = _ |- _ => inversion H; lia end.
  - split.
    + intros H. assert (G : exists e, In (i, e, inv, ps) (tail_blocks a)).
      { unfold tail_blocks. fold n. unfold global_pot. fold n.
        destruct (a_cp a) as [c|], (a_elstat a) as [[ch ka]|], (a_dipole a) as [[[al b] cc]|], (have_globals a);
        repeat match type of H with
        | (if ?b then _ else _) = _ => let E := fresh "E" in destruct b eqn:E;
            [first [apply andb_prop in E; destruct E as [E ?]|idtac]; try discriminate; apply Nat.eqb_eq in E|]
        | Some _ = Some _ => inversion H; subst
        | None = Some _ => discriminate
        end; try discriminate; try (destruct C as (_ & _ & C); discriminate); rewrite ?andb_false_r in *; try discriminate;
        try (eexists; simpl; rewrite ?Nat.add_0_r; tauto).
        all: eexists; simpl; rewrite ?Nat.add_0_r; eauto 10. }
      destruct G as [e G]. exists e. apply in_or_app. auto.
    + intros (e & H). apply in_app_or in H. destruct H as [H|H].
      * apply pot_blocks_in in H. destruct H as (i' & q' & Q' & E). inversion E; subst.
        assert (i' < n) by (apply nth_error_Some; congruence). simpl in Li. lia.
      * revert H. unfold tail_blocks. fold n. unfold global_pot. fold n.
        destruct (a_cp a) as [c|], (a_elstat a) as [[ch ka]|], (a_dipole a) as [[[al b] cc]|], (have_globals a); simpl;
        try (destruct C as (_ & _ & C); discriminate); try discriminate; intros H;
        repeat match goal with
        | H : _ \/ _ |- _ => destruct H as [H|H]
        | H : False |- _ => destruct H
        | H : (_, _, _, _) = (_, _, _, _) |- _ => inversion H; clear H; subst
        end; rewrite ?Nat.add_0_r, ?Nat.eqb_refl; simpl; auto;
        repeat match goal with |- context [Nat.eqb ?x ?y] => let E := fresh in destruct (Nat.eqb_spec x y) as [E|E]; try lia end; auto.
Qed.
