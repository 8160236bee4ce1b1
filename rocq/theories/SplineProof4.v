(** The spline theorems for equidistant tables. *)
From Coq Require Import Reals ZArith List Lia Lra.
From Verif Require Import LoopUtil SplineModel SplineProof SplineProof2 SplineProof3.
Local Open Scope R_scope.

Section ED.
Variable c : column.
Variable xi : arr.
Variables yp1 ypn : R.
Variable junk : arr.
Hypothesis EQ : equidistant c.
Let n := (last c - first c + 1)%nat.
Let x := grid (begin c) (step c).
Let y := shift xi (first c).
Let d := shift (d2tab c) (first c).
(** the second derivatives come from spline_ed (update_splines, force_common.c:236-239) *)
Hypothesis D2 : forall i, (i < n)%nat -> d2tab c (first c + i)%nat = spline_ed (step c) y n yp1 ypn junk i.

Lemma ed_n2 : (2 <= n)%nat.
Proof. destruct EQ as (_ & _ & L & _). unfold n. lia. Qed.
Lemma ed_inc : increasing x n.
Proof. apply grid_increasing. apply EQ. Qed.
Lemma ed_gap : forall k, x (k + 1)%nat - x k = step c.
Proof. intros. unfold x. rewrite grid_diff, plus_INR. simpl. ring. Qed.
Lemma ed_sys : system x y n yp1 ypn d.
Proof.
  destruct EQ as (SP & _). pose proof (spline_ne_system x y n ed_n2 ed_inc yp1 ypn junk) as [A B C D E]. pose proof ed_n2.
  assert (Q : forall i, (i < n)%nat -> d i = spline_ne x y n yp1 ypn junk i).
  { intros i Hi. unfold d, shift. rewrite D2 by auto. apply spline_ed_is_ne; auto. }
  constructor.
  - intros i Hi. rewrite !Q by lia. apply A; auto.
  - intros K. rewrite Q by lia. auto.
  - intros K. rewrite !Q by lia. auto.
  - intros K. rewrite Q by lia. auto.
  - intros K. rewrite !Q by lia. auto.
Qed.
Lemma ed_ends : x 0%nat = begin c /\ x (n - 1)%nat = endr c.
Proof. destruct EQ as (_ & _ & _ & E). unfold x, grid, n. simpl. rewrite E. replace (last c - first c + 1 - 1)%nat with (last c - first c)%nat by lia. split; [ring|auto]. Qed.

Definition look_ed (r : R) : nat := trunc ((r - begin c) * invstep c).
Definition curv_ed (r : R) : R := pc x d (look_ed r) r.

Lemma eval_ed : forall r, begin c <= r < endr c -> exists k, (k + 1 < n)%nat /\ look_ed r = k /\
  splint_ed c xi r = Some (pv x y d k r) /\ splint_grad_ed c xi r = Some (pg x y d k r) /\
  splint_comb_ed c xi r = Some (pv x y d k r, pg x y d k r) /\
  slot_ed c r = Some ((first c + k)%nat, (r - x k) / step c, step c) /\ x k <= r < x (k + 1)%nat.
Proof.
  intros r H. destruct (ed_slot_spec c r EQ ltac:(lra)) as (k & b & E & K & B & I & L & _).
  specialize (L (proj2 H)). exists k. 
  assert (LK : look_ed r = k).
  { unfold ed_slot in E. destruct (Rlt_dec (r - begin c) 0); [discriminate|]. injection E as E _. unfold look_ed. lia. }
  destruct EQ as (SP & IS & _ & _).
  unfold splint_ed, splint_grad_ed, splint_comb_ed, slot_ed, left_of_last. rewrite E.
  replace (Nat.leb (last c) (first c + k)) with false by (symmetry; apply Nat.leb_gt; lia).
  assert (V : forall P Q, P = pv x y d k r -> Q = pg x y d k r ->
    Some P = Some (pv x y d k r) /\ Some Q = Some (pg x y d k r) /\ Some (P, Q) = Some (pv x y d k r, pg x y d k r)) by (intros P Q -> ->; auto).
  edestruct V as (V1 & V2 & V3); [| |split; [unfold n; lia|split; [exact LK|split; [exact V1|split; [exact V2|split; [exact V3|split; [rewrite B; reflexivity|exact I]]]]]]].
  - unfold pv, splint_dir. rewrite ed_gap. fold x in B. rewrite <- B, IS. unfold y, d, shift.
    replace (first c + (k + 1))%nat with (first c + k + 1)%nat by lia. field. lra.
  - unfold pg, splint_grad_dir. rewrite ed_gap. fold x in B. rewrite <- B, IS. unfold y, d, shift.
    replace (first c + (k + 1))%nat with (first c + k + 1)%nat by lia. field. lra.
Qed.

Lemma look_ed_ok : forall r, x 0%nat <= r < x (n - 1)%nat -> (look_ed r + 1 < n)%nat /\ x (look_ed r) <= r < x (look_ed r + 1)%nat.
Proof.
  intros r H. destruct ed_ends as [X0 X1]. destruct (eval_ed r ltac:(lra)) as (k & K & E & _ & _ & _ & _ & A). rewrite E. auto.
Qed.

(** at the right end of the table *)
Lemma eval_ed_end : ed_slot c (endr c) = Some (last c, 0) /\
  splint_ed c xi (endr c) = Some (xi (last c)) /\
  splint_grad_ed c xi (endr c) = Some (pg x y d (n - 2) (endr c)) /\
  slot_ed c (endr c) = Some ((last c - 1)%nat, 1, step c).
Proof.
  assert (BE : begin c <= endr c).
  { destruct EQ as (SP & _ & L & E). rewrite E. pose proof (pos_INR (last c - first c)). nra. }
  destruct (ed_slot_spec c (endr c) EQ ltac:(lra)) as (k & b & E & _ & B & _ & _ & Z). specialize (Z eq_refl).
  destruct EQ as (SP & IS & L & EE).
  assert (Hb : b = 0). { rewrite B, Z. unfold grid. rewrite EE. field. lra. }
  assert (Hk : (first c + k)%nat = last c) by lia. rewrite Hk, Hb in E.
  unfold splint_ed, splint_grad_ed, slot_ed, left_of_last. rewrite E.
  rewrite Nat.leb_refl. split; [auto|]. split; [f_equal; field; rewrite IS; apply Rgt_not_eq, Rdiv_lt_0_compat; lra|].
  split; [|f_equal; f_equal; f_equal; ring].
  unfold pg, splint_grad_dir. rewrite ed_gap. f_equal.
  replace ((endr c - x (n - 2)%nat) / step c) with 1.
  - rewrite IS. unfold y, d, shift, n. replace (first c + (last c - first c + 1 - 2 + 1))%nat with (last c) by lia.
    replace (first c + (last c - first c + 1 - 2))%nat with (last c - 1)%nat by lia. replace (last c - 1 + 1)%nat with (last c) by lia. field. lra.
  - rewrite EE. unfold x, grid, n. replace (last c - first c + 1 - 2)%nat with (last c - first c - 1)%nat by lia. rewrite (minus_INR _ 1) by lia. simpl. field. lra.
Qed.

Theorem ed_interpolates : forall i, (first c <= i <= last c)%nat ->
  splint_ed c xi (begin c + INR (i - first c) * step c) = Some (xi i).
Proof.
  intros i Hi. destruct ed_ends as [X0 X1]. pose proof ed_n2 as N2.
  destruct (Nat.eq_dec i (last c)) as [->|NE].
  - destruct EQ as (_ & _ & _ & EE). rewrite <- EE. apply eval_ed_end.
  - change (begin c + INR (i - first c) * step c) with (x (i - first c)%nat).
    assert (In1 : (i - first c + 1 < n)%nat) by (unfold n; lia).
    pose proof (inc1 x n N2 ed_inc _ In1) as I2.
    assert (R1 : begin c <= x (i - first c)%nat).
    { unfold x, grid. destruct EQ as (SP & _). pose proof (pos_INR (i - first c)). nra. }
    assert (R2 : x (i - first c)%nat < endr c).
    { destruct EQ as (SP & _ & _ & EE). rewrite EE. unfold x, grid. assert (INR (i - first c) < INR (last c - first c)) by (apply lt_INR; lia). nra. }
    destruct (eval_ed _ (conj R1 R2)) as (k & K & E & V & _). rewrite V. f_equal.
    rewrite <- E, (look_unique x n N2 ed_inc look_ed look_ed_ok (x (i - first c)%nat) (i - first c) In1) by lra.
    rewrite pv_left by auto. unfold y, shift. f_equal. lia.
Qed.

(** value, slope and curvature of the interpolation *)
Theorem ed_smooth : exists v g w : R -> R,
  (forall r, begin c <= r <= endr c -> splint_ed c xi r = Some (v r) /\ splint_grad_ed c xi r = Some (g r)) /\
  (forall r, begin c < r < endr c -> derivable_pt_lim v r (g r) /\ derivable_pt_lim g r (w r) /\ continuity_pt w r) /\
  (yp1 <= NATURAL -> g (begin c) = yp1) /\ (NATURAL < yp1 -> w (begin c) = 0) /\
  (ypn <= NATURAL -> g (endr c) = ypn) /\ (NATURAL < ypn -> w (endr c) = 0).
Proof.
  destruct ed_ends as [X0 X1]. pose proof ed_n2 as N2.
  set (lk := fun r => if Rlt_dec r (endr c) then look_ed r else (n - 2)%nat).
  assert (LK : forall r, x 0%nat <= r < x (n - 1)%nat -> (lk r + 1 < n)%nat /\ x (lk r) <= r < x (lk r + 1)%nat).
  { intros r Hr. unfold lk. destruct (Rlt_dec r (endr c)); [apply look_ed_ok; auto|lra]. }
  exists (fv x y d lk), (fg x y d lk), (fc x d lk).
  assert (BE : begin c < endr c).
  { destruct EQ as (SP & _ & L & E). rewrite E. assert (0 < INR (last c - first c)) by (apply lt_0_INR; lia). nra. }
  assert (LE : lk (endr c) = (n - 2)%nat) by (unfold lk; destruct (Rlt_dec (endr c) (endr c)); [lra|auto]).
  assert (LB : lk (begin c) = 0%nat).
  { apply (look_unique x n N2 ed_inc lk LK); [unfold n in *; lia|]. rewrite <- X0. split; [lra|]. apply (inc1 x n N2 ed_inc); lia. }
  split; [|split].
  - intros r Hr. unfold fv, fg. destruct (Req_dec r (endr c)) as [->|NE].
    + rewrite LE. destruct eval_ed_end as (_ & V & G & _). rewrite V, G. split; auto. f_equal.
      replace (endr c) with (x (n - 2 + 1)%nat) by (rewrite <- X1; f_equal; lia).
      rewrite pv_right by (apply (inc1 x n N2 ed_inc); lia). unfold y, shift, n. f_equal. destruct EQ as (_ & _ & L & _). lia.
    + destruct (eval_ed r ltac:(lra)) as (k & _ & E & V & G & _). rewrite V, G.
      assert (lk r = k) by (unfold lk; destruct (Rlt_dec r (endr c)); [auto|lra]). rewrite H. auto.
  - intros r Hr. apply (twice_differentiable x y d n N2 ed_inc yp1 ypn ed_sys lk LK r). lra.
  - destruct (end_conditions x y d n N2 ed_inc yp1 ypn ed_sys) as (A & B & C & D).
    unfold fg, fc. rewrite LB, LE. rewrite <- X0, <- X1. auto.
Qed.

(** precomputed slots *)
Theorem ed_slot_neighbour : forall r, begin c <= r <= endr c -> exists k b,
  slot_ed c r = Some (k, b, step c) /\ (first c <= k < last c)%nat /\ 0 <= b <= 1 /\
  begin c + (INR (k - first c) + b) * step c = r /\
  splint_ed c xi r = Some (splint_dir (d2tab c) xi k b (step c)) /\
  splint_grad_ed c xi r = Some (splint_grad_dir (d2tab c) xi k b (step c)).
Proof.
  intros r Hr. destruct ed_ends as [X0 X1]. destruct (Req_dec r (endr c)) as [->|NE].
  - destruct eval_ed_end as (_ & V & G & SL). rewrite V, G, SL. exists (last c - 1)%nat, 1.
    destruct EQ as (SP & _ & L & EE). split; [auto|]. split; [lia|]. split; [lra|]. split; [|split].
    + rewrite EE. replace (last c - first c)%nat with (last c - 1 - first c + 1)%nat by lia. rewrite plus_INR. simpl. ring.
    + f_equal. unfold splint_dir. replace (last c - 1 + 1)%nat with (last c) by lia. field.
    + f_equal. unfold pg. rewrite ed_gap. 
      replace ((endr c - x (n - 2)%nat) / step c) with 1.
      * unfold splint_grad_dir, y, d, shift, n. replace (first c + (last c - first c + 1 - 2 + 1))%nat with (last c) by lia.
        replace (first c + (last c - first c + 1 - 2))%nat with (last c - 1)%nat by lia. replace (last c - 1 + 1)%nat with (last c) by lia. auto.
      * rewrite EE. unfold x, grid, n. replace (last c - first c + 1 - 2)%nat with (last c - first c - 1)%nat by lia. rewrite (minus_INR _ 1) by lia. simpl. field. lra.
  - destruct (eval_ed r ltac:(lra)) as (k & K & E & V & G & _ & SL & I).
    exists (first c + k)%nat, ((r - x k) / step c). rewrite V, G, SL. pose proof (ed_gap k) as GP. destruct EQ as (SP & _ & L & EE).
    split; [auto|]. split; [unfold n in K; lia|]. split; [|split; [|split]].
    + split; [apply Rmult_le_pos; [lra|left; apply Rinv_0_lt_compat; lra]|].
      apply Rmult_le_reg_r with (step c); [lra|]. unfold Rdiv. rewrite Rmult_assoc, Rinv_l by lra. lra.
    + unfold x, grid. replace (first c + k - first c)%nat with k by lia. field. lra.
    + f_equal. unfold pv, splint_dir. rewrite ed_gap. unfold y, d, shift. rewrite Nat.add_assoc. auto.
    + f_equal. unfold pg, splint_grad_dir. rewrite ed_gap. unfold y, d, shift. rewrite Nat.add_assoc. auto.
Qed.

Theorem comb_ed : forall r, begin c <= r < endr c -> exists v g,
  splint_ed c xi r = Some v /\ splint_grad_ed c xi r = Some g /\ splint_comb_ed c xi r = Some (v, g).
Proof. intros r Hr. destruct (eval_ed r Hr) as (k & _ & _ & V & G & C & _). eauto. Qed.
End ED.

(** Below the table all functions stop. *)
Lemma ed_short : forall c xi r, r < begin c ->
  splint_ed c xi r = None /\ splint_grad_ed c xi r = None /\ splint_comb_ed c xi r = None /\ slot_ed c r = None.
Proof.
  intros c xi r H. unfold splint_ed, splint_grad_ed, splint_comb_ed, slot_ed, ed_slot.
  destruct (Rlt_dec (r - begin c) 0); [auto|lra].
Qed.

(** At the right end splint_comb_ed has no correction like the one of splint_grad_ed and
    takes its gradient from the entries behind the column. *)
Definition one_column (xi_behind : R) : column := mk_col 0 1 1 (1 / 1) 0 1 (fun _ => 0) (fun _ => 0).
Definition table_behind (v : R) : arr := fun i => if Nat.eqb i 2 then v else 0.
Lemma one_column_equidistant : forall v, equidistant (one_column v).
Proof. intros v. unfold equidistant, one_column; simpl. repeat split; try lra. lia. Qed.
Lemma comb_ed_end : forall v, splint_comb_ed (one_column v) (table_behind v) 1 = Some (0, v).
Proof.
  intros v. destruct (eval_ed_end (one_column v) (table_behind v) (one_column_equidistant v)) as (E & _).
  unfold splint_comb_ed. change 1 with (endr (one_column v)) at 1. rewrite E. unfold one_column, table_behind; simpl. f_equal. f_equal; field.
Qed.
