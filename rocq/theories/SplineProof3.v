(** Interval lookup, and the spline theorems for the functions of splines.c. *)
From Coq Require Import Reals ZArith List Lia Lra.
From Verif Require Import LoopUtil SplineModel SplineProof SplineProof2.
Local Open Scope R_scope.

Definition shift (a : arr) (k : nat) : arr := fun i => a (k + i)%nat.

(** ** Bisection *)
Lemma div2_between : forall a b, (1 < b - a)%nat -> (a < Nat.div2 (b + a) < b)%nat.
Proof. intros a b H. rewrite Nat.div2_div. split; [apply Nat.div_le_lower_bound; lia|apply Nat.div_lt_upper_bound; lia]. Qed.

Lemma bisect_spec : forall x r fst0 lst0 fuel lo hi, (lo < hi)%nat -> (hi - lo <= fuel + 1)%nat ->
  (fst0 <= lo)%nat -> (hi <= lst0)%nat ->
  (x lo <= r \/ lo = fst0) -> (r < x hi \/ hi = lst0) ->
  exists k, bisect x r fuel lo hi = (k, (k + 1)%nat) /\ (lo <= k)%nat /\ (k + 1 <= hi)%nat /\
    (x k <= r \/ k = fst0) /\ (r < x (k + 1)%nat \/ (k + 1)%nat = lst0).
Proof.
  induction fuel; intros lo hi L F A B P Q; simpl.
  - exists lo. replace (lo + 1)%nat with hi by lia. repeat split; auto; lia.
  - destruct (Nat.ltb_spec 1 (hi - lo)) as [H|H].
    + pose proof (div2_between lo hi H) as D. destruct (Rlt_dec r (x (Nat.div2 (hi + lo)))) as [K|K].
      * destruct (IHfuel lo (Nat.div2 (hi + lo))) as (k & E & K1 & K2 & K3 & K4); auto; try lia.
        exists k. repeat split; auto; try lia.
      * destruct (IHfuel (Nat.div2 (hi + lo)) hi) as (k & E & K1 & K2 & K3 & K4); auto; try lia.
        { left. lra. }
        exists k. repeat split; auto; try lia.
    + exists lo. replace (lo + 1)%nat with hi by lia. repeat split; auto; lia.
Qed.

Lemma ne_find_spec : forall c r, listed c -> exists k, ne_find c r = (k, (k + 1)%nat) /\
  (first c <= k < last c)%nat /\
  (begin c <= r -> xcoord c k <= r) /\ (r < endr c -> r < xcoord c (k + 1)%nat) /\
  (r <= begin c -> k = first c) /\ (endr c <= r -> (k + 1)%nat = last c).
Proof.
  intros c r (L & B & E & I). unfold ne_find.
  assert (MON : forall i j, (first c <= i)%nat -> (i < j)%nat -> (j <= last c)%nat -> xcoord c i < xcoord c j).
  { intros i j Hi Hij. induction Hij; intros Hj; [apply I; lia|]. apply Rlt_trans with (xcoord c m); [apply IHHij; lia|apply I; lia]. }
  destruct (bisect_spec (xcoord c) r (first c) (last c) (last c - first c) (first c) (last c)) as (k & F & K1 & K2 & K3 & K4); auto; try lia.
  exists k. split; [exact F|]. split; [lia|]. split; [|split; [|split]].
  - intros H. destruct K3 as [K3| ->]; [auto|lra].
  - intros H. destruct K4 as [K4|K4]; [auto|rewrite K4; lra].
  - intros H. destruct K3 as [K3|K3]; [|auto]. destruct (Nat.eq_dec k (first c)); auto. exfalso.
    pose proof (MON (first c) k ltac:(lia) ltac:(lia) ltac:(lia)). lra.
  - intros H. destruct K4 as [K4|K4]; [|auto]. destruct (Nat.eq_dec (k + 1) (last c)); auto. exfalso.
    pose proof (MON (k + 1)%nat (last c) ltac:(lia) ltac:(lia) ltac:(lia)). lra.
Qed.

(** ** Equidistant lookup *)
Lemma trunc_spec : forall x, 0 <= x -> INR (trunc x) <= x < INR (trunc x) + 1.
Proof.
  intros x H. unfold trunc. destruct (base_Int_part x) as [A B].
  assert (P : (0 <= Int_part x)%Z).
  { apply le_IZR. assert (-1 < IZR (Int_part x)) by lra. apply (lt_IZR (-1)) in H0. apply IZR_le. lia. }
  rewrite INR_IZR_INZ, Z2Nat.id by auto. lra.
Qed.

Lemma ed_slot_spec : forall c r, equidistant c -> begin c <= r <= endr c -> exists k b,
  ed_slot c r = Some ((first c + k)%nat, b) /\ (k <= last c - first c)%nat /\
  b = (r - grid (begin c) (step c) k) / step c /\
  grid (begin c) (step c) k <= r < grid (begin c) (step c) (k + 1)%nat /\
  (r < endr c -> (k < last c - first c)%nat) /\ (r = endr c -> k = (last c - first c)%nat).
Proof.
  intros c r (S & I & L & E) [H1 H2]. unfold ed_slot.
  destruct (Rlt_dec (r - begin c) 0) as [N|_]; [lra|].
  set (rr := r - begin c) in *. set (k := trunc (rr * invstep c)).
  assert (T : INR k <= rr * invstep c < INR k + 1).
  { apply trunc_spec. rewrite I. unfold rr. assert (0 <= 1 / step c). { left. apply Rdiv_lt_0_compat; lra. } nra. }
  assert (Q : rr * invstep c * step c = rr) by (rewrite I; field; lra).
  assert (B1 : INR k * step c <= rr) by (rewrite <- Q; apply Rmult_le_compat_r; lra).
  assert (B2 : rr < (INR k + 1) * step c) by (rewrite <- Q at 1; apply Rmult_lt_compat_r; lra).
  assert (KL : (k <= last c - first c)%nat).
  { destruct (Nat.le_gt_cases k (last c - first c)) as [|G]; auto. exfalso.
    assert (INR (last c - first c) + 1 <= INR k) by (rewrite <- S_INR; apply le_INR; lia). unfold rr in *. nra. }
  exists k, ((r - grid (begin c) (step c) k) / step c). split; [|split; [exact KL|split; [reflexivity|split; [|split]]]].
  - rewrite (Nat.add_comm k). f_equal. f_equal. unfold grid, rr. rewrite I. field. lra.
  - unfold grid. rewrite plus_INR. simpl. unfold rr in *. lra.
  - intros H. destruct (Nat.eq_dec k (last c - first c)) as [EQ|]; [|lia]. exfalso. rewrite EQ in B1. unfold rr in *. lra.
  - intros H. destruct (Nat.le_gt_cases (last c - first c) k) as [|G]; [lia|]. exfalso.
    assert (INR k + 1 <= INR (last c - first c)) by (rewrite <- S_INR; apply le_INR; lia). unfold rr in *. nra.
Qed.

(** ** Tables with listed coordinates *)
Section NE.
Variable c : column.
Variable xi : arr.
Variables yp1 ypn : R.
Variable junk : arr.
Hypothesis LI : listed c.
Let n := (last c - first c + 1)%nat.
Let x := shift (xcoord c) (first c).
Let y := shift xi (first c).
Let d := shift (d2tab c) (first c).
(** the second derivatives come from spline_ne (update_splines, force_common.c:242-244) *)
Hypothesis D2 : forall i, (i < n)%nat -> d2tab c (first c + i)%nat = spline_ne x y n yp1 ypn junk i.

Lemma n2 : (2 <= n)%nat.
Proof. destruct LI as (L & _). unfold n. lia. Qed.
Lemma inc : increasing x n.
Proof. destruct LI as (_ & _ & _ & I). intros i Hi. unfold x, shift, n in *. replace (first c + S i)%nat with (S (first c + i)) by lia. apply I. lia. Qed.
Lemma sys : system x y n yp1 ypn d.
Proof.
  pose proof (spline_ne_system x y n n2 inc yp1 ypn junk) as [A B C D E]. pose proof n2.
  assert (Q : forall i, (i < n)%nat -> d i = spline_ne x y n yp1 ypn junk i) by (intros i Hi; apply D2; auto).
  constructor.
  - intros i Hi. rewrite !Q by lia. apply A; auto.
  - intros K. rewrite Q by lia. auto.
  - intros K. rewrite !Q by lia. auto.
  - intros K. rewrite Q by lia. auto.
  - intros K. rewrite !Q by lia. auto.
Qed.

Definition look_ne (r : R) : nat := (fst (ne_find c r) - first c)%nat.
(** second derivative at r *)
Definition curv_ne (r : R) : R :=
  let '(klo, khi) := ne_find c r in
  let b := (r - xcoord c klo) / (xcoord c khi - xcoord c klo) in
  (1 - b) * d2tab c klo + b * d2tab c khi.

Lemma eval_ne : forall r, exists k, (k + 1 < n)%nat /\ look_ne r = k /\
  splint_ne c xi r = pv x y d k r /\ splint_grad_ne c xi r = pg x y d k r /\ curv_ne r = pc x d k r /\
  slot_ne c r = ((first c + k)%nat, (r - x k) / (x (k + 1)%nat - x k), x (k + 1)%nat - x k) /\
  (begin c <= r -> x k <= r) /\ (r < endr c -> r < x (k + 1)%nat) /\
  (r <= begin c -> k = 0%nat) /\ (endr c <= r -> k = (n - 2)%nat).
Proof.
  intros r. destruct (ne_find_spec c r LI) as (k & F & K & A & B & C & D).
  exists (k - first c)%nat. unfold look_ne, splint_ne, splint_grad_ne, curv_ne, slot_ne, left_of_last. rewrite F. simpl fst.
  replace (Nat.leb (last c) k) with false by (symmetry; apply Nat.leb_gt; lia).
  unfold n, pv, pg, pc, splint_dir, splint_grad_dir, x, y, d, shift.
  replace (first c + (k - first c))%nat with k by lia.
  replace (first c + (k - first c + 1))%nat with (k + 1)%nat by lia.
  repeat split; auto; try lia; intros H; [apply C in H|apply D in H]; lia.
Qed.

Lemma look_ne_ok : forall r, x 0%nat <= r < x (n - 1)%nat -> (look_ne r + 1 < n)%nat /\ x (look_ne r) <= r < x (look_ne r + 1)%nat.
Proof.
  intros r H. destruct (eval_ne r) as (k & K & E & _ & _ & _ & _ & A & B & _). rewrite E. destruct LI as (L & Hb & He & _).
  assert (X0 : x 0%nat = begin c) by (unfold x, shift; rewrite Nat.add_0_r; auto).
  assert (X1 : x (n - 1)%nat = endr c) by (unfold x, shift, n; rewrite He; f_equal; lia).
  split; [auto|]. split; [apply A; lra|apply B; lra].
Qed.

Lemma ends_ne : x 0%nat = begin c /\ x (n - 1)%nat = endr c.
Proof. destruct LI as (L & Hb & He & _). unfold x, shift, n. rewrite Nat.add_0_r. split; auto. rewrite He. f_equal. lia. Qed.

Theorem ne_interpolates : forall i, (first c <= i <= last c)%nat -> splint_ne c xi (xcoord c i) = xi i.
Proof.
  intros i Hi. destruct ends_ne as [X0 X1]. destruct (eval_ne (xcoord c i)) as (k & K & E & V & _ & _ & _ & A & B & _ & Z).
  rewrite V. pose proof (inc1 x n n2 inc k K) as IK. 
  destruct (Nat.eq_dec i (last c)) as [->|NE].
  - destruct LI as (_ & _ & He & _). rewrite Z by lra. rewrite <- He, <- X1.
    replace (n - 1)%nat with (n - 2 + 1)%nat by (pose proof n2; lia). rewrite pv_right.
    + unfold y, shift, n. f_equal. pose proof n2. unfold n in *. lia.
    + apply (inc1 x n n2 inc). pose proof n2. lia.
  - assert (Xi : xcoord c i = x (i - first c)%nat) by (unfold x, shift; f_equal; lia). rewrite Xi in *.
    assert (In1 : (i - first c + 1 < n)%nat) by (unfold n; lia).
    pose proof (inc1 x n n2 inc _ In1) as I2.
    rewrite <- E. rewrite (look_unique x n n2 inc look_ne look_ne_ok (x (i - first c)%nat) (i - first c) In1) by lra.
    rewrite pv_left by auto. unfold y, shift. f_equal. lia.
Qed.

Lemma dlim_eq : forall f g h t l, (forall r, f r = g r) -> derivable_pt_lim g t l -> l = h t -> derivable_pt_lim f t (h t).
Proof. intros f g h t l E H <-. apply (dlim_ext g); auto. Qed.

Theorem ne_smooth : forall r, begin c < r < endr c ->
  derivable_pt_lim (splint_ne c xi) r (splint_grad_ne c xi r) /\
  derivable_pt_lim (splint_grad_ne c xi) r (curv_ne r) /\ continuity_pt curv_ne r.
Proof.
  intros r Hr. destruct ends_ne as [X0 X1].
  destruct (twice_differentiable x y d n n2 inc yp1 ypn sys look_ne look_ne_ok r ltac:(lra)) as (A & B & C).
  assert (V : forall t, splint_ne c xi t = fv x y d look_ne t) by (intros t; destruct (eval_ne t) as (k & _ & E & V' & _); unfold fv; congruence).
  assert (G : forall t, splint_grad_ne c xi t = fg x y d look_ne t) by (intros t; destruct (eval_ne t) as (k & _ & E & _ & V' & _); unfold fg; congruence).
  assert (W : forall t, curv_ne t = fc x d look_ne t) by (intros t; destruct (eval_ne t) as (k & _ & E & _ & _ & V' & _); unfold fc; congruence).
  split; [|split].
  - rewrite G. apply (dlim_ext (fv x y d look_ne)); auto.
  - rewrite W. apply (dlim_ext (fg x y d look_ne)); auto.
  - intros eps He. destruct (C eps He) as (al & P & Q). exists al. split; auto. intros t Ht. rewrite !W. apply Q; auto.
Qed.

Theorem ne_ends :
  (yp1 <= NATURAL -> splint_grad_ne c xi (begin c) = yp1) /\ (NATURAL < yp1 -> curv_ne (begin c) = 0) /\
  (ypn <= NATURAL -> splint_grad_ne c xi (endr c) = ypn) /\ (NATURAL < ypn -> curv_ne (endr c) = 0).
Proof.
  destruct ends_ne as [X0 X1]. destruct (end_conditions x y d n n2 inc yp1 ypn sys) as (A & B & C & D).
  destruct (eval_ne (begin c)) as (k & _ & _ & _ & G1 & W1 & _ & _ & _ & Z1 & _). specialize (Z1 ltac:(lra)). subst k.
  destruct (eval_ne (endr c)) as (k & _ & _ & _ & G2 & W2 & _ & _ & _ & _ & Z2). specialize (Z2 ltac:(lra)). subst k.
  rewrite G1, W1, G2, W2. rewrite <- X0, <- X1. auto.
Qed.

(** precomputed slots *)
Theorem ne_slot : forall r k b st, slot_ne c r = (k, b, st) ->
  (first c <= k < last c)%nat /\ xcoord c k + b * st = r /\ xcoord c (k + 1)%nat = xcoord c k + st /\
  (begin c <= r <= endr c -> 0 <= b <= 1) /\
  splint_dir (d2tab c) xi k b st = splint_ne c xi r /\ splint_grad_dir (d2tab c) xi k b st = splint_grad_ne c xi r.
Proof.
  intros r k b st H. destruct (eval_ne r) as (j & J & _ & V & G & _ & SL & A & B & _ & Z).
  rewrite SL in H. injection H as <- <- <-. pose proof (inc1 x n n2 inc j J) as IJ.
  unfold n in J. split; [lia|]. rewrite V, G.
  split; [change (xcoord c (first c + j)%nat) with (x j); field; lra|].
  split; [change (xcoord c (first c + j)%nat) with (x j); replace (first c + j + 1)%nat with (first c + (j + 1))%nat by lia; unfold x, shift; ring|].
  split.
  - intros [H1 H2]. specialize (A H1). assert (r <= x (j + 1)%nat).
    { destruct (Req_dec r (endr c)) as [->|NE]; [|left; apply B; lra].
      rewrite (Z ltac:(lra)). destruct ends_ne as [_ X1]. pose proof n2. replace (n - 2 + 1)%nat with (n - 1)%nat by lia. lra. }
    split; [apply Rmult_le_pos; [lra|left; apply Rinv_0_lt_compat; lra]|].
    apply Rmult_le_reg_r with (x (j + 1)%nat - x j); [lra|]. unfold Rdiv. rewrite Rmult_assoc, Rinv_l by lra. lra.
  - unfold pv, pg, splint_dir, splint_grad_dir, y, d, shift.
    replace (first c + j + 1)%nat with (first c + (j + 1))%nat by lia. split; reflexivity.
Qed.
End NE.

(** Evaluation of value and gradient together agrees with the separate functions. *)
Theorem comb_ne : forall c xi r, splint_comb_ne c xi r = (splint_ne c xi r, splint_grad_ne c xi r).
Proof. intros. unfold splint_comb_ne, splint_ne, splint_grad_ne. destruct (ne_find c r). reflexivity. Qed.
Theorem comb_dir : forall d2 xi k b st, splint_comb_dir d2 xi k b st = (splint_dir d2 xi k b st, splint_grad_dir d2 xi k b st).
Proof. reflexivity. Qed.

(** ** Linear extrapolation, splint_ne_lin *)
Section Lin.
Variable c : column.
Variable xi : arr.
Hypothesis LI : listed c.

Lemma lin_inside : forall r, begin c <= r <= endr c -> splint_ne_lin c xi r = splint_ne c xi r.
Proof.
  intros r H. unfold splint_ne_lin, splint_ne. destruct (ne_find c r).
  destruct (Rlt_dec r (begin c)); [lra|]. destruct (Rlt_dec (endr c) r); [lra|]. reflexivity.
Qed.
Lemma lin_left : forall r, r < begin c ->
  splint_ne_lin c xi r = splint_ne c xi (begin c) + splint_grad_ne c xi (begin c) * (r - begin c).
Proof.
  intros r H. destruct (ne_find_spec c r LI) as (k & F & K & _ & _ & C & _).
  destruct (ne_find_spec c (begin c) LI) as (k' & F' & K' & _ & _ & C' & _).
  rewrite (C' ltac:(lra)) in *. rewrite (C ltac:(lra)) in *. clear C C'. destruct LI as (L & Hb & He & I).
  unfold splint_ne_lin, splint_ne, splint_grad_ne. rewrite F, F'. rewrite Hb.
  destruct (Rlt_dec r (xcoord c (first c))); [|lra].
  pose proof (I (first c) ltac:(lia)). replace (first c + 1)%nat with (S (first c)) by lia. field. lra.
Qed.
Lemma lin_right : forall r, endr c < r ->
  splint_ne_lin c xi r = splint_ne c xi (endr c) + splint_grad_ne c xi (endr c) * (r - endr c).
Proof.
  intros r H. destruct (ne_find_spec c r LI) as (k & F & K & _ & _ & _ & C).
  destruct (ne_find_spec c (endr c) LI) as (k' & F' & K' & _ & _ & _ & C').
  specialize (C' ltac:(lra)). specialize (C ltac:(lra)). assert (k' = k) by lia. subst k'. destruct LI as (L & Hb & He & I).
  unfold splint_ne_lin, splint_ne, splint_grad_ne. rewrite F, F'.
  assert (B : begin c < endr c).
  { rewrite Hb, He. assert (G : forall j, (first c < j)%nat -> (j <= last c)%nat -> xcoord c (first c) < xcoord c j).
    { intros j Hj. induction Hj; intros; [apply I; lia|]. apply Rlt_trans with (xcoord c m); [apply IHHj; lia|apply I; lia]. }
    apply G; lia. }
  destruct (Rlt_dec r (begin c)); [lra|]. destruct (Rlt_dec (endr c) r); [|lra]. rewrite C, He.
  pose proof (I k ltac:(lia)). replace (S k) with (last c) in H0 by lia. field. lra.
Qed.
End Lin.
