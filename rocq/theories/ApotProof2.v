(** The optimiser's index: main theorem and counterexamples. *)
From Coq Require Import Reals ZArith List Bool String Lia Lra Sorting.Sorted.
From Verif Require Import LoopUtil ApotModel ApotSpec ApotProof.
Import ListNotations.

Lemma tri_even : forall n, 2 * (n * (n + 1) / 2) = n * (n + 1).
Proof.
  intros. assert (E : exists k, n * (n + 1) = 2 * k).
  { induction n as [|n [k IH]]; [exists 0; reflexivity|]. exists (k + n + 1). nia. }
  destruct E as [k ->]. rewrite (Nat.mul_comm 2 k), Nat.div_mul by lia. lia.
Qed.

Lemma pots_end_l : forall a, 1 <= List.length (a_pots a) -> pots_end a = pots_l 0 (a_pots a).
Proof.
  intros a H. rewrite pots_l_first. destruct (a_pots a) as [|q r] eqn:E; [simpl in H; lia|].
  unfold pots_end, pot_first. rewrite E. reflexivity.
Qed.

Definition no_clash (a : apot) : Prop := a_elstat a <> None -> a_globals a = [].

Lemma rows_nodup : forall a, NoDup (map b_row (blocks a)).
Proof.
  intros a. unfold blocks. rewrite map_app.
  assert (P : forall ps i l, map b_row (pot_blocks i l ps) = seq i (List.length ps)).
  { induction ps; intros; simpl; auto. rewrite IHps. reflexivity. }
  rewrite P.
  assert (G : forall (l1 l2 : list nat), NoDup l1 -> NoDup l2 -> (forall x, In x l1 -> ~ In x l2) -> NoDup (l1 ++ l2)).
  { induction l1; intros l2 N1 N2 D; simpl; auto. inversion N1; subst. constructor.
    - rewrite in_app_iff. intros [A|A]; auto. apply (D a0); auto. left; auto.
    - apply IHl1; auto. intros x Hx. apply D. right; auto. }
  apply G; [apply seq_NoDup| |].
  - unfold tail_blocks, global_pot. destruct (a_cp a), (a_elstat a) as [[? ?]|], (a_dipole a) as [[[? ?] ?]|], (have_globals a);
      cbn [map b_row fst snd]; repeat constructor; simpl; lia.
  - intros x Hx. apply in_seq in Hx. unfold tail_blocks, global_pot.
    destruct (a_cp a), (a_elstat a) as [[? ?]|], (a_dipole a) as [[[? ?] ?]|], (have_globals a); cbn [map b_row fst snd]; simpl; lia.
Qed.

Lemma home_block : forall nt a i e inv ps j, sizes_ok nt a -> cp_free a -> no_clash a ->
  In (i, e, inv, ps) (blocks a) -> j < List.length ps ->
  home nt a (read_pot_table0 nt a) i j = Z.of_nat (e + j).
Proof.
  intros nt a i e inv ps j (N1 & N2 & C & El & D) F NC H J. unfold blocks in H. unfold home.
  set (n := List.length (a_pots a)) in *.
  apply in_app_or in H. destruct H as [H|H].
  - apply pot_blocks_in in H. destruct H as (i' & q & Q & E). inversion E; subst. simpl.
    assert (i' < n) by (apply nth_error_Some; congruence).
    destruct (Nat.ltb_spec i' n); [reflexivity|lia].
  - assert (PE : pots_end a = pots_l 0 (a_pots a)) by (apply pots_end_l; auto).
    pose proof (pots_l_sum (a_pots a) 0) as PS. fold n in PS.
    assert (GI : l_global_idx (read_pot_table0 nt a) =
      (match a_cp a with None => 0 | Some c => Z.of_nat nt - inv_count c end + Z.of_nat (pots_end a))%Z) by reflexivity.
    assert (CS : l_cp_start (read_pot_table0 nt a) =
      (total_read a - Z.of_nat (List.length (a_globals a)) + Z.of_nat nt * (Z.of_nat nt + 1))%Z) by reflexivity.
    assert (EB : elstat_base a (read_pot_table0 nt a) = (2 * Z.of_nat n + total_read a)%Z) by reflexivity.
    revert H. unfold tail_blocks. fold n. unfold global_pot. fold n.
    set (g := have_globals a). 
    destruct (a_cp a) as [c|] eqn:Ec.
    + destruct C as (C1 & C2 & C3). rewrite C3 in *.
      assert (I0 : inv_count c = 0%Z).
      { unfold inv_count. specialize (F c Ec). clear - F. induction c as [|p r IH]; simpl in *; auto.
        apply andb_prop in F. destruct F as [F1 F2]. destruct (p_inv p); [discriminate|]. auto. }
      rewrite I0 in GI. pose proof (tri_even nt) as TE. rewrite <- C2 in TE.
      assert (CE : l_cp_start (read_pot_table0 nt a) = Z.of_nat (pots_l 0 (a_pots a))).
      { rewrite CS. unfold total_read. nia. }
      destruct g; cbn [In]; intros H;
      repeat match goal with
      | H : _ \/ _ |- _ => destruct H as [H|H]
      | H : False |- _ => destruct H
      | H : (_, _, _, _) = (_, _, _, _) |- _ => inversion H; clear H; subst i e inv ps
      end;
      repeat match goal with |- context [Nat.eqb ?x ?y] => let E := fresh in destruct (Nat.eqb_spec x y) as [E|E]; try lia end;
      repeat match goal with |- context [Nat.ltb ?x ?y] => let E := fresh in destruct (Nat.ltb_spec x y) as [E|E]; try lia end;
      rewrite ?GI, ?CE; lia.
    + destruct (a_elstat a) as [[ch ka]|] eqn:Ee.
      * assert (G0 : a_globals a = []) by (apply NC; congruence). rewrite G0 in *.
        assert (TR : elstat_base a (read_pot_table0 nt a) = Z.of_nat (pots_l 0 (a_pots a))).
        { rewrite EB. unfold total_read. rewrite G0. simpl List.length. lia. }
        destruct (a_dipole a) as [[[al b] cc]|] eqn:Ed, g; cbn [In]; intros H;
        repeat match goal with
        | H : _ \/ _ |- _ => destruct H as [H|H]
        | H : False |- _ => destruct H
        | H : (_, _, _, _) = (_, _, _, _) |- _ => inversion H; clear H; subst i e inv ps
        end; simpl in J; try lia;
        repeat match goal with |- context [Nat.eqb ?x ?y] => let E := fresh in destruct (Nat.eqb_spec x y) as [E|E]; try lia end;
        repeat match goal with |- context [Nat.ltb ?x ?y] => let E := fresh in destruct (Nat.ltb_spec x y) as [E|E]; try lia end;
        rewrite ?TR; lia.
      * rewrite El in *. destruct g; cbn [In]; intros H;
        repeat match goal with
        | H : _ \/ _ |- _ => destruct H as [H|H]
        | H : False |- _ => destruct H
        | H : (_, _, _, _) = (_, _, _, _) |- _ => inversion H; clear H; subst i e inv ps
        end.
        repeat match goal with |- context [Nat.eqb ?x ?y] => let E := fresh in destruct (Nat.eqb_spec x y) as [E|E]; try lia end;
        repeat match goal with |- context [Nat.ltb ?x ?y] => let E := fresh in destruct (Nat.ltb_spec x y) as [E|E]; try lia end;
        rewrite ?GI; lia.
Qed.

Lemma tail_count : forall nt a, sizes_ok nt a ->
  l_idxlen (read_pot_table0 nt a) = zlen (flat_map block_idx (blocks a)).
Proof.
  intros nt a (N1 & N2 & C & El & D). unfold blocks. rewrite flat_map_app, zlen_app, pot_blocks_count.
  unfold read_pot_table0. cbn [l_idxlen].
  set (S0 := sumz _).
  assert (T : forall i e ps, zlen (block_idx (i, e, false, ps)) = (Z.of_nat (List.length ps) - inv_count ps)%Z).
  { intros. unfold zlen, block_idx. rewrite row_idx_length. reflexivity. }
  pose proof (tri_even nt) as TE.
  unfold tail_blocks. destruct (a_cp a) as [c|] eqn:Ec.
  - destruct C as (C1 & C2 & C3). rewrite C3 in *. rewrite El.
    destruct (have_globals a); cbn [flat_map]; rewrite ?app_nil_r, ?zlen_app, ?T; lia.
  - destruct (a_elstat a) as [[ch ka]|] eqn:Ee.
    + destruct (a_dipole a) as [[[al b] cc]|] eqn:Ed, (have_globals a); cbn [flat_map];
      rewrite ?app_nil_r, ?zlen_app, ?T; cbn [List.length]; try (destruct D as (D1 & D2 & D3)); nia.
    + rewrite El. destruct (have_globals a); cbn [flat_map]; rewrite ?app_nil_r, ?zlen_app, ?T; [|change (zlen (@nil (nat*nat*nat))) with 0%Z]; lia.
Qed.

Theorem index_is_right : forall nt a, sizes_ok nt a -> cp_free a -> no_clash a -> index_right nt a.
Proof.
  intros nt a S F NC. pose proof (final_ok nt a S F) as W. unfold index_right.
  rewrite final_tab, final_idx. pose proof (wo_idx _ _ W) as WI. pose proof (wo_val _ _ W) as WV.
  rewrite WI.
  assert (LEN : l_idxlen (read_pot_table0 nt a) = zlen (flat_map block_idx (blocks a))) by (apply tail_count; auto).
  split; [|split; [|split; [|split; [|split; [|split; [|split]]]]]].
  - apply ss_nodup, blocks_sorted. apply (wo_ord _ _ W).
  - apply cells_nodup, rows_nodup.
  - intros p i j H. apply in_flat_map in H. destruct H as (b & Hb & H). apply block_idx_in in H.
    destruct H as (k & q & Hk & Hf & E). inversion E; subst.
    destruct b as [[[i e] inv] ps]. unfold b_row, b_base, b_inv, b_pars in *; cbn [fst snd] in *.
    unfold is_free in Hf. apply andb_prop in Hf. destruct Hf as [Hf1 Hf2].
    destruct inv; [discriminate|]. split.
    + exists q. split; [|destruct (p_inv q); auto; discriminate].
      exists ps. split; auto. apply (row_in_blocks nt); eauto.
    + symmetry. eapply home_block; eauto. apply nth_error_Some. congruence.
  - intros i j (q & (ps & R & Q) & V). apply (row_in_blocks nt) in R; auto. destruct R as [e R].
    exists (e + j). apply in_flat_map. exists (i, e, false, ps). split; auto.
    apply block_idx_in. exists j, q. unfold b_row, b_base, b_inv, b_pars; cbn [fst snd]. split; auto. split; auto.
    unfold is_free. rewrite V. reflexivity.
  - intros i j inv q (ps & R & Q). apply (row_in_blocks nt) in R; auto. destruct R as [e R].
    exists (e + j). split.
    + symmetry. eapply home_block; eauto. apply nth_error_Some. congruence.
    + apply (WV (i, e, inv, ps)); auto.
  - exact LEN.
  - rewrite <- (wo_l _ _ W). clear - S F. destruct S as (N1 & N2 & C & El & D).
    unfold final_wr, read_pot_table0. cbn [l_len].
    destruct (ok_pots (a_pots a) 0 [] (Wr [] 0 []) ltac:(constructor; simpl; auto; try tauto; constructor)) as [_ L].
    cbn [w_l] in L. set (w := put_pots 0 (a_pots a) (Wr [] 0 [])) in *. clearbody w.
    rewrite (pots_end_l a N2).
    pose proof (tri_even nt) as TE.
    destruct (a_cp a) as [c|] eqn:Ec.
    + destruct C as (C1 & C2 & C3). rewrite C3 in *. rewrite El. rewrite put_cp_free by (apply F; auto).
      destruct (have_globals a); rewrite ?row_l, L; lia.
    + destruct (a_elstat a) as [[ch ka]|] eqn:Ee.
      * destruct (a_dipole a) as [[[al b] cc]|] eqn:Ed, (have_globals a); repeat rewrite row_l; rewrite L; cbn [List.length];
          try (destruct D as (D1 & D2 & D3)); nia.
      * rewrite El. destruct (have_globals a); rewrite ?row_l, L; lia.
  - change (Z.of_nat (List.length (flat_map block_idx (blocks a)))) with (zlen (flat_map block_idx (blocks a))).
    rewrite <- LEN. clear - S. destruct S as (N1 & N2 & C & El & D).
    unfold read_pot_table0. cbn [l_idxlen l_total_par]. unfold total_read.
    pose proof (pots_count_le (a_pots a)) as P.
    pose proof (inv_count_le (a_globals a)) as IG.
    destruct (a_cp a) as [c|], (a_elstat a) as [[ch ka]|], (a_dipole a) as [[[al b] cc]|], (have_globals a); try discriminate;
    repeat match goal with |- context [inv_count ?l] =>
       lazymatch goal with H : (0 <= inv_count l <= _)%Z |- _ => fail | _ => pose proof (inv_count_le l) end end; lia.
Qed.
