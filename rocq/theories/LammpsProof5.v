(** Proofs about the LAMMPS export: pair tables and setfl blocks. *)
From Coq Require Import Reals ZArith List Bool Lia Lra.
From Verif Require Import Vec PairIndexModel PairIndexProof SplineModel SplineSpec SplineProof SplineProof2 SplineProof3 SplineProof4 SplineProof5 LammpsModel LammpsSpec.
Import ListNotations.
Local Open Scope R_scope.

(** ** Pair tables of analytic potentials *)
Section Apot.
Variables (V cut : R -> R) (smooth : bool).
Definition curve (r : R) : R := if smooth then V r * cut r else V r.
Lemma apot_rows_nth : forall dr cnt k r i, (i < cnt)%nat ->
  nth_error (apot_rows V cut smooth dr cnt k r) i =
  Some (mk_row (k + i + 1) (r + INR i * dr) (curve (r + INR i * dr))
          (- (curve (r + INR i * dr + dr) - curve (r + INR i * dr - dr)) / (2 * dr))).
Proof.
  induction cnt as [|cnt IH]; intros k r i H; [lia|]. destruct i as [|i].
  - cbn [apot_rows nth_error]. rewrite Nat.add_0_r. simpl INR. rewrite Rmult_0_l, Rplus_0_r. unfold curve. destruct smooth; auto.
  - cbn [apot_rows nth_error]. rewrite IH by lia. rewrite S_INR.
    replace (k + 1 + i + 1)%nat with (k + S i + 1)%nat by lia. replace (r + dr + INR i * dr) with (r + (INR i + 1) * dr) by ring. auto.
Qed.
Theorem apot_table_rows : forall plotmin begin endr steps i, (1 < steps)%nat -> (i < steps)%nat ->
  let r0 := if Req_EM_T plotmin 0 then begin else plotmin in
  let dr := (endr - r0) / (INR steps - 1) in
  let r := r0 + INR i * dr in
  nth_error (apot_table V cut smooth plotmin begin endr steps) i =
  Some (mk_row (i + 1) r (curve r) (- (curve (r + dr) - curve (r - dr)) / (2 * dr))).
Proof. intros plotmin begin endr steps i S H. cbv zeta. unfold apot_table. rewrite apot_rows_nth by auto. auto. Qed.
Lemma apot_rows_len : forall dr cnt k r, length (apot_rows V cut smooth dr cnt k r) = cnt.
Proof. induction cnt; intros; simpl; auto. Qed.
Theorem apot_force : forall plotmin begin endr steps w d,
  (1 < steps)%nat -> (if Req_EM_T plotmin 0 then begin else plotmin) < endr ->
  In w (apot_table V cut smooth plotmin begin endr steps) -> 
  let dr := (endr - (if Req_EM_T plotmin 0 then begin else plotmin)) / (INR steps - 1) in
  (forall x, w_r w - dr <= x <= w_r w + dr -> derivable_pt_lim curve x (d x)) ->
  w_e w = curve (w_r w) /\ exists x, w_r w - dr < x < w_r w + dr /\ w_f w = - d x.
Proof.
  intros plotmin begin endr steps w d S L I. cbv zeta. intros D.
  apply In_nth_error in I. destruct I as (i & I).
  assert (H : (i < steps)%nat). { assert (Q : nth_error (apot_table V cut smooth plotmin begin endr steps) i <> None) by (rewrite I; discriminate).
    apply nth_error_Some in Q. unfold apot_table in Q. rewrite apot_rows_len in Q. auto. }
  rewrite apot_table_rows in I by auto. injection I as <-. cbn [w_r w_e w_f] in *. split; auto.
  set (r0 := if Req_EM_T plotmin 0 then begin else plotmin) in *. set (dr := (endr - r0) / (INR steps - 1)) in *.
  assert (INR steps > 1) by (apply lt_1_INR; auto). assert (P : 0 < dr) by (apply Rdiv_lt_0_compat; lra).
  set (r := r0 + INR i * dr) in *. destruct (MVT_cor2 curve d (r - dr) (r + dr)) as (x & E & X); [lra|intros; apply D; auto|].
  exists x. split; auto. rewrite E. field. lra.
Qed.
End Apot.

(** ** Pair tables of tabulated potentials: the fourth column is the derivative itself *)
Section Tab.
Variables (c : column) (xi : arr).
Hypothesis EQ : equidistant c.
Lemma tab_rows_ok : forall dr steps cnt k r, 0 < dr -> (k + cnt = steps)%nat -> begin c <= r - (if Nat.eqb k (steps - 1) then 1 / 10 ^ 6 else 0) ->
  ((0 < cnt)%nat -> r + INR (cnt - 1) * dr = endr c) -> 1 / 10 ^ 6 <= dr ->
  exists l, tab_rows (splint_comb_ed c xi) dr steps cnt k r = Some l /\ length l = cnt /\
    forall w, In w l -> begin c <= w_r w < endr c /\ splint_ed c xi (w_r w) = Some (w_e w) /\ splint_grad_ed c xi (w_r w) = Some (w_f w).
Proof.
  intros dr steps. induction cnt as [|cnt IH]; intros k r P K B E EP.
  - exists []. simpl. repeat split; auto; tauto.
  - cbn [tab_rows]. set (r' := if Nat.eqb k (steps - 1) then r - 1 / 10 ^ 6 else r).
    assert (RB : begin c <= r' < endr c).
    { specialize (E ltac:(lia)). assert (Q : 0 < 1 / 10 ^ 6) by (apply Rdiv_lt_0_compat; [lra|apply pow_lt; lra]). unfold r'. destruct (Nat.eqb_spec k (steps - 1)) as [KE|KN].
      - split; [lra|]. replace (S cnt - 1)%nat with 0%nat in E by lia. simpl INR in E. lra.
      - split; [lra|]. assert (1 <= INR (S cnt - 1)) by (apply (le_INR 1); lia). assert (1 * dr <= INR (S cnt - 1) * dr) by (apply Rmult_le_compat_r; lra). lra. }
    destruct (pieces_ed c xi r' EQ RB) as (v & g & A1 & A2 & A3). rewrite A3.
    destruct cnt as [|cnt'].
    + exists [mk_row (k + 1) r' v g]. simpl. split; auto. split; auto. intros w [<-|[]]. simpl. auto.
    + assert (r' = r) as -> by (unfold r'; destruct (Nat.eqb_spec k (steps - 1)); [lia|auto]).
      destruct (IH (k + 1)%nat (r + dr)) as (l & L1 & L2 & L3); auto; [lia| |intros _; specialize (E ltac:(lia)); replace (S (S cnt') - 1)%nat with (S cnt') in E by lia; replace (S cnt' - 1)%nat with cnt' by lia; rewrite S_INR in E; lra|].
      { destruct (Nat.eqb (k + 1) (steps - 1)); lra. }
      rewrite L1. eexists. split; [reflexivity|]. split; [simpl; auto|]. intros w [<-|W]; auto.
Qed.
Theorem tab_table_rows : forall steps, (1 < steps)%nat -> 1 / 10 ^ 6 <= (endr c - begin c) / (INR steps - 1) ->
  exists l, tab_table (splint_comb_ed c xi) (begin c) (endr c) steps = Some l /\ length l = steps /\
    forall w, In w l -> begin c <= w_r w < endr c /\ splint_ed c xi (w_r w) = Some (w_e w) /\ splint_grad_ed c xi (w_r w) = Some (w_f w).
Proof.
  intros steps S E. unfold tab_table. assert (INR steps > 1) by (apply lt_1_INR; auto).
  assert (0 < 1 / 10 ^ 6) by (apply Rdiv_lt_0_compat; [lra|apply pow_lt; lra]).
  apply tab_rows_ok; auto; [lra| |intros _].
  - destruct (Nat.eqb_spec 0 (steps - 1)); [lia|lra].
  - rewrite minus_INR by lia. simpl (INR 1). field. lra.
Qed.
End Tab.

Theorem tab_force_refuted : exists c xi l w g, equidistant c /\ updated_ed c xi 1 0 /\
  tab_table (splint_comb_ed c xi) (begin c) (endr c) 11 = Some l /\ In w l /\
  splint_grad_ed c xi (w_r w) = Some g /\ w_f w = g /\ w_f w <> - g.
Proof.
  destruct (tab_table_rows (ex_eq ex_eqd) ex_xi (ex_equidistant _) 11) as (l & L & N & A); [lia|simpl; lra|].
  exists (ex_eq ex_eqd), ex_xi, l. destruct l as [|w l]; [discriminate|]. exists w.
  assert (W : w_r w = 1).
  { unfold tab_table in L. cbn [tab_rows] in L. destruct (Nat.eqb 0 (11 - 1)) eqn:X; [discriminate|]. 
    destruct (splint_comb_ed _ _ _) as [[v g]|]; [|discriminate]. match type of L with match ?t with _ => _ end = _ => destruct t; [|discriminate] end. injection L as <- _. reflexivity. }
  destruct (A w) as (_ & _ & G); [left; auto|].
  destruct (smooth_ed (ex_eq ex_eqd) ex_xi 1 0 (ex_equidistant _) ex_eq_updated) as ((v & g & w' & H1 & _ & H3 & _) & _).
  assert (G1 : w_f w = 1).
  { destruct (H1 (w_r w)) as (_ & G'); [rewrite W; simpl; lra|]. rewrite G in G'. injection G' as ->. rewrite W. change 1 with (begin (ex_eq ex_eqd)) at 1. apply H3. unfold NATURAL. lra. }
  exists 1. split; [apply ex_equidistant|]. split; [apply ex_eq_updated|]. split; auto. split; [left; auto|]. rewrite G, G1. split; auto. split; auto. lra.
Qed.

(** ** setfl files *)
Lemma apot_block_nth : forall fv cut smooth by_r dr cnt r i, (i < cnt)%nat -> 
  (r + INR i * dr = 0 -> fv 0 <> None) ->
  nth_error (apot_block_loop fv cut smooth by_r dr cnt r) i =
  Some (option_map (fun v => scale_r by_r (r + INR i * dr) (if smooth then v * cut (r + INR i * dr) else v)) (fv (r + INR i * dr))).
Proof.
  induction cnt as [|cnt IH]; intros r i H F; [lia|]. destruct i as [|i].
  - cbn [apot_block_loop nth_error]. simpl INR in *. rewrite Rmult_0_l, Rplus_0_r in *.
    destruct (Req_EM_T r 0) as [E|E].
    + specialize (F E). rewrite <- E in F. destruct (fv r); [|tauto]. destruct smooth; auto.
    + destruct (fv r), smooth; auto.
  - cbn [apot_block_loop nth_error]. rewrite S_INR in *. rewrite IH; [|lia|intros Z; apply F; rewrite <- Z; ring].
    replace (r + dr + INR i * dr) with (r + (INR i + 1) * dr) by ring. auto.
Qed.
Theorem apot_block_values : forall fv cut smooth by_r dr steps i, (i < steps)%nat -> dr <> 0 -> fv 0 <> None ->
  nth_error (apot_block fv cut smooth by_r dr steps) i =
  Some (option_map (fun v => scale_r by_r (INR i * dr) (if smooth then v * cut (INR i * dr) else v)) (fv (INR i * dr))).
Proof. intros. unfold apot_block. rewrite apot_block_nth by auto. rewrite Rplus_0_l. auto. Qed.

Theorem adp_scaled : forall u cut dr steps i, (i < steps)%nat -> dr <> 0 ->
  nth_error (adp_apot_block (fun r => Some (u r)) cut false dr steps) i = Some (Some (INR i * dr * u (INR i * dr))).
Proof. intros u cut dr steps i H D. unfold adp_apot_block. rewrite apot_block_values by (auto; discriminate). reflexivity. Qed.
(** equidistant tables that begin after the first step: the program stops *)
Theorem tab_block_stops : forall c xi adp by_r eps dr steps, (2 <= steps)%nat -> 0 <= eps -> begin c <> 0 -> dr < begin c ->
  tab_block (splint_ed c xi) (begin c) adp by_r eps dr steps = None.
Proof.
  intros c xi adp by_r eps dr steps S E N L. unfold tab_block. destruct (Req_EM_T _ _); [tauto|].
  destruct steps as [|[|steps]]; try lia. cbn [Nat.sub]. replace (steps - 0)%nat with steps by lia.
  cbn [tab_block_loop]. set (r := if Nat.eqb 0 _ then _ else _).
  assert (Rr : r < begin c) by (unfold r; destruct (Nat.eqb _ _); lra). 
  assert (Q : splint_ed c xi r = None). { unfold splint_ed, ed_slot. destruct (Rlt_dec (r - begin c) 0); [auto|lra]. }
  rewrite Q. auto.
Qed.

(** the step in the header has six decimals *)
Theorem header_step : forall pf : R -> R, (forall x, exists m : Z, pf x = IZR m / 10 ^ 6) ->
  exists endr steps, (1 < steps)%nat /\ pf (endr / (INR steps - 1)) <> endr / (INR steps - 1).
Proof.
  intros pf H. exists 7, 500%nat. split; [lia|]. destruct (H (7 / (INR 500 - 1))) as (m & ->). intros E.
  assert (I : INR 500 = 500) by (rewrite INR_IZR_INZ; reflexivity). rewrite I in E.
  assert (Q : IZR (499 * m) = IZR 7000000) by (rewrite mult_IZR; lra). apply eq_IZR in Q. lia.
Qed.

(** order of the blocks *)
Theorem pair_blocks_order : forall n, pair_blocks n = map (fun q => col n (fst q) (snd q)) (setfl_pairs n).
Proof.
  intros n. unfold pair_blocks, setfl_pairs. generalize (seq 0 n). induction l as [|i l IH]; simpl; auto.
  rewrite map_app, IH. f_equal. rewrite map_map. auto.
Qed.
Lemma adp_order_refuted : dipole_blocks 3 <> map (fun q => (pcol 3 + 2 * 3 + col 3 (fst q) (snd q))%nat) (setfl_pairs 3) /\
  quad_blocks 3 <> map (fun q => (2 * (pcol 3 + 3) + col 3 (fst q) (snd q))%nat) (setfl_pairs 3).
Proof. split; vm_compute; discriminate. Qed.
Lemma adp_order_small : forall n, (n <= 2)%nat -> 
  dipole_blocks n = map (fun q => (pcol n + 2 * n + col n (fst q) (snd q))%nat) (setfl_pairs n) /\
  quad_blocks n = map (fun q => (2 * (pcol n + n) + col n (fst q) (snd q))%nat) (setfl_pairs n).
Proof. intros n H. assert (n = 0 \/ n = 1 \/ n = 2)%nat as [-> | [-> | ->]] by lia; split; reflexivity. Qed.
