(** Normalisation of parameters, smooth cutoff, punishments. *)
From Coq Require Import Reals ZArith List Bool Lia Lra Floats.SpecFloat.
From Verif Require Import LoopUtil Vec FuncModel FuncSpec.
Import ListNotations.
Local Open Scope R_scope.

(** ** Normalisation of parameters *)
Lemma two_pi_pos : 0 < 2 * PI.
Proof. pose proof PI_RGT_0. lra. Qed.

Lemma angle_down_spec N : forall x, x <= 2 * PI * INR (S N) ->
  exists n y k, (forall m, (n <= m)%nat -> angle_down m x = Some y) /\ y <= 2 * PI /\ (0 <= x -> 0 <= y) /\ (x <= 2 * PI -> y = x) /\ y + 2 * PI * INR k = x.
Proof.
  pose proof two_pi_pos as P.
  induction N as [|N IH]; intros x Hx.
  - exists O, x, O. simpl in *. repeat split; try lra. intros m _. destruct m; simpl; destruct (Rlt_dec (2 * PI) x); try reflexivity; lra.
  - destruct (Rlt_dec (2 * PI) x) as [L|L].
    + destruct (IH (x - 2 * PI)) as (n & y & k & H1 & H2 & H3 & H4 & H5).
      { rewrite (S_INR (S N)) in Hx. lra. }
      exists (S n), y, (S k). split; [|split; [lra|split; [intros; apply H3; lra|split; [lra|rewrite S_INR; lra]]]].
      intros [|m] Hm; [lia|]. simpl. destruct (Rlt_dec (2 * PI) x); [|contradiction]. apply H1. lia.
    + exists O, x, O. simpl. repeat split; try lra. intros m _. destruct m; simpl; destruct (Rlt_dec (2 * PI) x); try reflexivity; contradiction.
Qed.
Lemma angle_up_spec N : forall x, - (2 * PI * INR N) <= x ->
  exists n y k, (forall m, (n <= m)%nat -> angle_up m x = Some y) /\ 0 <= y /\ (x <= 2 * PI -> y <= 2 * PI) /\ (0 <= x -> y = x) /\ y - 2 * PI * INR k = x.
Proof.
  pose proof two_pi_pos as P.
  induction N as [|N IH]; intros x Hx.
  - exists O, x, O. simpl in *. repeat split; try lra. intros m _. destruct m; simpl; destruct (Rlt_dec x 0); try reflexivity; lra.
  - destruct (Rlt_dec x 0) as [L|L].
    + destruct (IH (x + 2 * PI)) as (n & y & k & H1 & H2 & H3 & H4 & H5).
      { rewrite (S_INR N) in Hx. lra. }
      exists (S n), y, (S k). split; [|split; [lra|split; [intros; apply H3; lra|split; [lra|rewrite S_INR; lra]]]].
      intros [|m] Hm; [lia|]. simpl. destruct (Rlt_dec x 0); [|contradiction]. apply H1. lia.
    + exists O, x, O. simpl. repeat split; try lra. intros m _. destruct m; simpl; destruct (Rlt_dec x 0); try reflexivity; contradiction.
Qed.
Lemma reach_nat x : exists N, x <= 2 * PI * INR N.
Proof.
  pose proof two_pi_pos as P.
  exists (Z.to_nat (up (x / (2 * PI)))).
  destruct (archimed (x / (2 * PI))) as [A _].
  destruct (Rle_dec x 0) as [L|L].
  - pose proof (pos_INR (Z.to_nat (up (x / (2 * PI))))). nra.
  - assert (x / (2 * PI) > 0) by (apply Rdiv_lt_0_compat; lra).
    rewrite INR_IZR_INZ, Z2Nat.id.
    + apply Rmult_lt_compat_l with (r := 2 * PI) in A; [|lra]. replace (2 * PI * (x / (2 * PI))) with x in A by (field; lra). lra.
    + apply le_IZR. lra.
Qed.
Lemma norm_angle_spec x : exists n y z, (forall m, (n <= m)%nat -> norm_angle m x = Some y) /\ 0 <= y <= 2 * PI /\
  y = x + 2 * PI * IZR z /\ (0 <= x <= 2 * PI -> y = x).
Proof.
  pose proof two_pi_pos as P.
  destruct (reach_nat x) as [N HN].
  destruct (angle_down_spec N x) as (n1 & y1 & k1 & A1 & A2 & A3 & A4 & A5).
  { rewrite S_INR. lra. }
  destruct (reach_nat (- y1)) as [N2 HN2].
  destruct (angle_up_spec N2 y1) as (n2 & y2 & k2 & B1 & B2 & B3 & B4 & B5); [lra|].
  exists (max n1 n2), y2, (Z.of_nat k2 - Z.of_nat k1)%Z. split; [|split; [lra|split]].
  - intros m Hm. unfold norm_angle. rewrite A1 by lia. apply B1. lia.
  - rewrite minus_IZR, <- !INR_IZR_INZ. lra.
  - intros Hx. rewrite B4; [apply A4; lra|apply A3; lra].
Qed.
Lemma cos_shift x z : cos (x + 2 * PI * IZR z) = cos x.
Proof.
  assert (H : forall k y, cos (y + 2 * PI * INR k) = cos y) by (intros k y; replace (y + 2 * PI * INR k) with (y + 2 * INR k * PI) by ring; apply cos_period).
  destruct (Z_le_gt_dec 0 z) as [L|L].
  - rewrite <- (Z2Nat.id z L), <- INR_IZR_INZ. apply H.
  - rewrite <- (H (Z.to_nat (- z)) (x + 2 * PI * IZR z)). f_equal. rewrite INR_IZR_INZ, Z2Nat.id, opp_IZR by lia. ring.
Qed.

Lemma setp_same p i x : setp p i x i = x.
Proof. unfold setp. now rewrite Nat.eqb_refl. Qed.
Lemma setp_other p i x k : k <> i -> setp p i x k = p k.
Proof. unfold setp. intros H. rewrite (proj2 (Nat.eqb_neq k i) H). reflexivity. Qed.

Lemma check_one_spec tersoff k j p : exists n p', (forall m, (n <= m)%nat -> check_one m tersoff k j p = Some p') /\
  (forall a, (a < j \/ j + num_par k <= a)%nat -> p' a = p a) /\ normal_form tersoff k (at_ p j) (at_ p' j).
Proof.
  destruct k as [| | |n]; cbn [check_one num_par normal_form].
  - destruct (norm_angle_spec (p (j + 5)%nat)) as (n & y & z & H1 & H2 & H3 & H4).
    exists n, (setp p (j + 5) y). split; [intros m Hm; rewrite (H1 m Hm); reflexivity|]. split; [intros a Ha; apply setp_other; lia|].
    unfold at_. rewrite setp_same. repeat split; try tauto.
    + intros pw r. unfold eopp_value. rewrite !setp_other by lia. rewrite setp_same, H3.
      rewrite <- (Rplus_assoc (_ * r)), cos_shift. reflexivity.
    + intros m Hm _. apply setp_other. lia.
  - destruct (norm_angle_spec (p (j + 2)%nat)) as (n & y & z & H1 & H2 & H3 & H4).
    exists n, (setp p (j + 2) y). split; [intros m Hm; rewrite (H1 m Hm); reflexivity|]. split; [intros a Ha; apply setp_other; lia|].
    unfold at_. rewrite setp_same. repeat split; try tauto.
    + intros pw r. unfold csw2_value. rewrite (setp_other p _ _ (j + 0)), (setp_other p _ _ (j + 1)), (setp_other p _ _ (j + 3)) by lia. rewrite setp_same, H3.
      rewrite <- (Rplus_assoc (_ * r)), cos_shift. reflexivity.
    + intros m Hm _. apply setp_other. lia.
  - exists O. destruct tersoff.
    + destruct (Rlt_dec (p (j + 9)%nat) (p (j + 10)%nat)) as [L|L].
      * eexists. split; [reflexivity|]. split; [intros a Ha; rewrite !setp_other by lia; reflexivity|].
        unfold at_. split; [split|].
        -- rewrite setp_other by lia. rewrite setp_same. symmetry. apply Rmax_right. lra.
        -- rewrite setp_same. symmetry. apply Rmin_left. lra.
        -- intros m H9 H10 _. rewrite !setp_other by lia. reflexivity.
      * exists p. split; [reflexivity|]. split; [reflexivity|]. unfold at_. split; [split|reflexivity].
        -- symmetry. apply Rmax_left. lra.
        -- symmetry. apply Rmin_right. lra.
    + exists p. split; [reflexivity|]. split; [reflexivity|]. split; [split; reflexivity|reflexivity].
  - exists O, p. split; [reflexivity|]. split; reflexivity.
Qed.

Lemma normal_form_ext tersoff k q1 q2 q1' q2' : (forall m, (m <= num_par k)%nat -> q1 m = q2 m) -> (forall m, (m <= num_par k)%nat -> q1' m = q2' m) ->
  normal_form tersoff k q1 q1' -> normal_form tersoff k q2 q2'.
Proof.
  intros E E'. destruct k as [| | |n]; cbn [num_par] in *; cbn [normal_form].
  - intros (A & B & C & D). rewrite <- (E' 5%nat), <- (E 5%nat) by lia. repeat split; try tauto.
    + intros pw r. specialize (B pw r). unfold eopp_value in *. rewrite <- !E, <- !E' by lia. exact B.
    + intros m Hm L. rewrite <- E, <- E' by lia. now apply D.
  - intros (A & B & C & D). rewrite <- (E' 2%nat), <- (E 2%nat) by lia. repeat split; try tauto.
    + intros pw r. specialize (B pw r). unfold csw2_value in *. rewrite <- !E, <- !E' by lia. exact B.
    + intros m Hm L. rewrite <- E, <- E' by lia. now apply D.
  - intros (A & D). rewrite <- (E' 9%nat), <- (E' 10%nat), <- (E 9%nat), <- (E 10%nat) by lia. split; [exact A|].
    intros m H9 H10 L. rewrite <- E, <- E' by lia. now apply D.
  - intros D m L. rewrite <- E, <- E' by lia. now apply D.
Qed.

Lemma offset_ge pots : forall j i, (j <= offset j pots i)%nat.
Proof.
  induction pots as [|[k s] pots IH]; intros j [|i]; simpl; try lia.
  specialize (IH (j + S (S (num_par k + (if s then 1 else 0))))%nat i). lia.
Qed.

Lemma check_loop_spec tersoff pots : forall j p, exists n p',
  (forall m, (n <= m)%nat -> check_loop m tersoff pots j p = Some p') /\
  (forall a, (a < j)%nat -> p' a = p a) /\
  forall i k s, nth_error pots i = Some (k, s) ->
    normal_form tersoff k (at_ p (offset j pots i)) (at_ p' (offset j pots i)) /\
    forall a, (offset j pots i + num_par k <= a < offset j pots i + (2 + num_par k + (if s then 1 else 0)))%nat -> p' a = p a.
Proof.
  induction pots as [|[k0 s0] pots IH]; intros j p.
  - exists O, p. split; [reflexivity|]. split; [reflexivity|]. intros [|i] k s H; discriminate H.
  - destruct (check_one_spec tersoff k0 j p) as (n1 & p1 & A1 & A2 & A3).
    set (j' := (j + (2 + num_par k0 + (if s0 then 1 else 0)))%nat).
    destruct (IH j' p1) as (n2 & p2 & B1 & B2 & B3).
    exists (max n1 n2), p2. split; [|split].
    + intros m Hm. cbn [check_loop]. rewrite A1 by lia. apply B1. lia.
    + intros a Ha. rewrite B2 by (unfold j'; lia). apply A2. lia.
    + intros [|i] k s H.
      * injection H as -> ->. simpl offset. split.
        -- apply (normal_form_ext tersoff k (at_ p j) (at_ p j) (at_ p1 j)); [reflexivity| |exact A3].
           intros m Hm. unfold at_. symmetry. apply B2. unfold j'. lia.
        -- intros a Ha. rewrite B2 by (unfold j'; lia). apply A2. lia.
      * cbn [nth_error] in H. destruct (B3 i k s H) as [C1 C2]. cbn [offset]. fold j'.
        pose proof (offset_ge pots j' i) as G.
        assert (T : forall a, (j' <= a)%nat -> p1 a = p a) by (intros a Ha; apply A2; unfold j' in Ha; lia).
        split.
        -- apply (normal_form_ext tersoff k (at_ p1 (offset j' pots i)) _ (at_ p2 (offset j' pots i))); [|reflexivity|exact C1].
           intros m _. unfold at_. apply T. lia.
        -- intros a Ha. rewrite C2 by exact Ha. apply T. lia.
Qed.

Lemma normalised tersoff pots p : exists n p',
  (forall m, (n <= m)%nat -> apot_check_params m tersoff pots p = Some p') /\
  forall i k s, nth_error pots i = Some (k, s) ->
    normal_form tersoff k (at_ p (offset 2 pots i)) (at_ p' (offset 2 pots i)) /\
    forall a, (offset 2 pots i + num_par k <= a < offset 2 pots i + (2 + num_par k + (if s then 1 else 0)))%nat -> p' a = p a.
Proof.
  destruct (check_loop_spec tersoff pots 2 p) as (n & p' & A & _ & B). exists n, p'. split; [exact A|exact B].
Qed.

(** a normalised angle can leave its bounds *)
Lemma leaves_bounds : exists (lo hi x : R) n y, lo <= x <= hi /\ (forall m, (n <= m)%nat -> norm_angle m x = Some y) /\ hi < y.
Proof.
  pose proof PI2_1. pose proof two_pi_pos as P.
  assert (P3 : 2 < 2 * PI) by lra.
  exists (-1), 1, (-1), 1%nat, (2 * PI - 1). split; [lra|]. split; [|lra].
  intros [|m] Hm; [lia|]. unfold norm_angle. cbn [angle_down].
  destruct (Rlt_dec (2 * PI) (-1)); [lra|]. cbn [angle_up].
  destruct (Rlt_dec (-1) 0); [|lra].
  replace (-1 + 2 * PI) with (2 * PI - 1) by ring.
  destruct m; simpl; destruct (Rlt_dec (2 * PI - 1) 0); try lra; reflexivity.
Qed.

(** with rounding the subtraction has no effect on large numbers: x = 2^60 *)
Definition huge : spec_float := S754_finite false 4503599627370496 8.
Lemma never_ends fuel : angle_down64 fuel huge = None.
Proof.
  assert (A : SFltb two_pi64 huge = true) by reflexivity.
  assert (B : SFsub 53 1024 huge two_pi64 = huge) by reflexivity.
  induction fuel as [|f IH]; cbn [angle_down64]; rewrite A; [reflexivity|]. now rewrite B.
Qed.

(** ** Smooth cutoff *)
Definition dcut (r r0 h : R) : R :=
  if Rle_dec 0 (r - r0) then 0
  else let x := (r - r0) / h in 4 * (x * x * x) / h / ((1 + x * x * (x * x)) * (1 + x * x * (x * x))).

Lemma cut_beyond r r0 h : r0 <= r -> apot_cutoff r r0 h = 0.
Proof. intros H. unfold apot_cutoff. destruct (Rle_dec 0 (r - r0)); [reflexivity|lra]. Qed.
Lemma cut_range r r0 h : 0 <= apot_cutoff r r0 h < 1.
Proof.
  unfold apot_cutoff. destruct (Rle_dec 0 (r - r0)); [lra|].
  set (x := (r - r0) / h). set (v := x * x * (x * x)).
  assert (0 <= v) by (unfold v; nra).
  split; [apply Rmult_le_pos; [lra|left; apply Rinv_0_lt_compat; lra]|].
  apply (Rmult_lt_reg_r (1 + v)); [lra|]. unfold Rdiv. rewrite Rmult_assoc, Rinv_l by lra. lra.
Qed.
Lemma cut_positive r r0 h : h <> 0 -> r < r0 -> 0 < apot_cutoff r r0 h.
Proof.
  intros H L. unfold apot_cutoff. destruct (Rle_dec 0 (r - r0)); [lra|].
  set (x := (r - r0) / h). assert (x <> 0).
  { unfold x. intros E. apply Rmult_integral in E. destruct E as [E|E]; [lra|]. now apply (Rinv_neq_0_compat h). }
  set (v := x * x * (x * x)). assert (0 < x * x) by nra. assert (0 < v) by (unfold v; nra).
  apply Rdiv_lt_0_compat; lra.
Qed.

Lemma deriv_local f g x l : (exists d, 0 < d /\ forall y, Rabs (y - x) < d -> f y = g y) -> derivable_pt_lim g x l -> derivable_pt_lim f x l.
Proof.
  intros (d & Hd & E) D eps He. destruct (D eps He) as [d2 H2].
  assert (P : 0 < Rmin d d2) by (apply Rmin_glb_lt; [exact Hd|apply cond_pos]).
  exists (mkposreal _ P). intros t T1 T2. simpl in T2.
  rewrite (E (x + t)), (E x).
  - apply H2; [exact T1|]. eapply Rlt_le_trans; [exact T2|apply Rmin_r].
  - rewrite Rminus_diag_eq by reflexivity. now rewrite Rabs_R0.
  - replace (x + t - x) with t by ring. eapply Rlt_le_trans; [exact T2|apply Rmin_l].
Qed.

Definition c0 (r0 h r : R) : R := let x := (r - r0) / h in x * x * (x * x) / (1 + x * x * (x * x)).
Lemma c0_deriv r0 h r : h <> 0 -> derivable_pt_lim (c0 r0 h) r (let x := (r - r0) / h in 4 * (x * x * x) / h / ((1 + x * x * (x * x)) * (1 + x * x * (x * x)))).
Proof.
  intros H. unfold c0. set (x := (r - r0) / h).
  assert (Dx : derivable_pt_lim (fun r => (r - r0) / h) r (/ h)).
  { assert (E : derivable_pt_lim (mult_real_fct (/ h) (fun r => r - r0)) r (/ h * (1 - 0))).
    { apply derivable_pt_lim_scal. apply (derivable_pt_lim_minus id (fct_cte r0)); [apply derivable_pt_lim_id|apply derivable_pt_lim_const]. }
    replace (/ h) with (/ h * (1 - 0)) by ring. eapply deriv_local; [|exact E]. exists 1. split; [lra|]. intros y _. unfold mult_real_fct. field. exact H. }
  assert (D2 : derivable_pt_lim (fun r => ((r - r0) / h) * ((r - r0) / h)) r (/ h * x + x * / h)) by (apply (derivable_pt_lim_mult _ _ _ _ _ Dx Dx)).
  assert (D4 : derivable_pt_lim (fun r => (((r - r0) / h) * ((r - r0) / h)) * (((r - r0) / h) * ((r - r0) / h))) r
     ((/ h * x + x * / h) * (x * x) + (x * x) * (/ h * x + x * / h))) by (apply (derivable_pt_lim_mult _ _ _ _ _ D2 D2)).
  assert (N : 1 + x * x * (x * x) <> 0) by nra.
  assert (D1 : derivable_pt_lim (fun r => 1 + ((r - r0) / h) * ((r - r0) / h) * (((r - r0) / h) * ((r - r0) / h))) r (0 + ((/ h * x + x * / h) * (x * x) + (x * x) * (/ h * x + x * / h)))).
  { apply (derivable_pt_lim_plus (fct_cte 1)); [apply derivable_pt_lim_const|exact D4]. }
  pose proof (derivable_pt_lim_div _ _ _ _ _ D4 D1 N) as D. unfold div_fct in D.
  match type of D with derivable_pt_lim _ _ ?l => replace l with (4 * (x * x * x) / h / ((1 + x * x * (x * x)) * (1 + x * x * (x * x)))) in D end; [exact D|].
  change ((r - r0) / h) with x. unfold Rsqr. field. repeat split; first [exact H|exact N|clearbody x; nra].
Qed.

Lemma cut_left r0 h r : r < r0 -> apot_cutoff r r0 h = c0 r0 h r.
Proof. intros L. unfold apot_cutoff, c0. destruct (Rle_dec 0 (r - r0)); [lra|reflexivity]. Qed.

(** near the end the cutoff is of fourth order *)
Lemma cut_small r r0 h : h <> 0 -> apot_cutoff r r0 h <= Rabs (r - r0) * (Rabs (r - r0) * Rabs (r - r0) * Rabs (r - r0)) / (h * h * (h * h)).
Proof.
  intros H. set (t := Rabs (r - r0)). assert (T : 0 <= t) by apply Rabs_pos.
  assert (HH : 0 < h * h) by nra.
  assert (R0 : 0 <= t * (t * t * t) / (h * h * (h * h))).
  { apply Rmult_le_pos; [|left; apply Rinv_0_lt_compat; nra]. apply Rmult_le_pos; [exact T|]. apply Rmult_le_pos; [|exact T]. nra. }
  destruct (Rle_lt_dec r0 r) as [L|L]; [now rewrite cut_beyond by exact L|].
  rewrite cut_left by exact L. unfold c0. set (x := (r - r0) / h).
  assert (E : x * x * (x * x) = t * (t * t * t) / (h * h * (h * h))).
  { assert (Q : t * t = (r - r0) * (r - r0)) by (unfold t; rewrite <- Rabs_mult; apply Rabs_right; nra).
    replace (t * (t * t * t)) with ((t * t) * (t * t)) by ring. rewrite Q. unfold x. field. exact H. }
  rewrite <- E. assert (V : 0 <= x * x * (x * x)) by nra.
  apply (Rmult_le_reg_r (1 + x * x * (x * x))); [lra|]. unfold Rdiv. rewrite Rmult_assoc, Rinv_l by lra. nra.
Qed.

Lemma cut_deriv r r0 h : h <> 0 -> derivable_pt_lim (fun r => apot_cutoff r r0 h) r (dcut r r0 h).
Proof.
  intros H. destruct (Rtotal_order r r0) as [L|[E|G]].
  - eapply deriv_local with (g := c0 r0 h).
    + exists (r0 - r). split; [lra|]. intros y Hy. apply cut_left. apply Rabs_def2 in Hy. lra.
    + replace (dcut r r0 h) with (let x := (r - r0) / h in 4 * (x * x * x) / h / ((1 + x * x * (x * x)) * (1 + x * x * (x * x)))); [now apply c0_deriv|].
      unfold dcut. destruct (Rle_dec 0 (r - r0)); [lra|reflexivity].
  - subst r. replace (dcut r0 r0 h) with 0 by (unfold dcut; destruct (Rle_dec 0 (r0 - r0)); [reflexivity|lra]).
    intros eps He. set (K := h * h * (h * h)). assert (HH : 0 < h * h) by nra. assert (KP : 0 < K) by (unfold K; nra).
    assert (P : 0 < Rmin 1 (eps * K)) by (apply Rmin_glb_lt; [lra|nra]).
    exists (mkposreal _ P). intros t T1 T2. simpl in T2.
    rewrite (cut_beyond r0) by lra. rewrite !Rminus_0_r. unfold Rdiv. rewrite Rabs_mult, Rabs_inv.
    rewrite (Rabs_right (apot_cutoff _ _ _)) by (apply Rle_ge, cut_range).
    pose proof (cut_small (r0 + t) r0 h H) as S. replace (r0 + t - r0) with t in S by ring. fold K in S.
    assert (A : 0 < Rabs t) by (now apply Rabs_pos_lt).
    assert (A1 : Rabs t < 1) by (eapply Rlt_le_trans; [exact T2|apply Rmin_l]).
    assert (A2 : Rabs t < eps * K) by (eapply Rlt_le_trans; [exact T2|apply Rmin_r]).
    apply (Rmult_lt_reg_r (Rabs t)); [exact A|]. rewrite Rmult_assoc, Rinv_l by lra. rewrite Rmult_1_r.
    eapply Rle_lt_trans; [exact S|].
    apply (Rmult_lt_reg_r K); [exact KP|]. unfold Rdiv. rewrite Rmult_assoc, Rinv_l by lra.
    set (a := Rabs t) in *. assert (a * a * a <= a) by nra. nra.
  - eapply deriv_local with (g := fct_cte 0).
    + exists (r - r0). split; [lra|]. intros y Hy. apply Rabs_def2 in Hy. rewrite cut_beyond by lra. reflexivity.
    + replace (dcut r r0 h) with 0 by (unfold dcut; destruct (Rle_dec 0 (r - r0)); [reflexivity|lra]).
      apply derivable_pt_lim_const.
Qed.

Lemma dcut_small r r0 h : h <> 0 -> Rabs (dcut r r0 h) <= 4 * (Rabs (r - r0) * Rabs (r - r0) * Rabs (r - r0)) / (Rabs h * Rabs h * (Rabs h * Rabs h)).
Proof.
  intros H. assert (AH : 0 < Rabs h) by (now apply Rabs_pos_lt).
  set (t := Rabs (r - r0)). assert (T : 0 <= t) by apply Rabs_pos.
  assert (K4 : 0 < Rabs h * Rabs h * (Rabs h * Rabs h)) by (apply Rmult_lt_0_compat; apply Rmult_lt_0_compat; exact AH).
  assert (T3 : 0 <= t * t * t) by (apply Rmult_le_pos; [apply Rmult_le_pos; exact T|exact T]).
  unfold dcut. destruct (Rle_dec 0 (r - r0)).
  - rewrite Rabs_R0. apply Rmult_le_pos; [nra|]. left. now apply Rinv_0_lt_compat.
  - set (x := (r - r0) / h). set (w := 1 + x * x * (x * x)). assert (W : 1 <= w) by (unfold w; nra).
    unfold Rdiv. rewrite !Rabs_mult. fold t.
    assert (X : Rabs x = t / Rabs h).
    { unfold x, t, Rdiv. rewrite Rabs_mult, Rabs_inv. reflexivity. }
    rewrite X. rewrite (Rabs_right 4) by lra. rewrite !Rabs_inv. rewrite (Rabs_right (w * w)) by nra.
    assert (I : / (w * w) <= 1). { rewrite <- Rinv_1. apply Rinv_le_contravar; nra. }
    assert (Q : 0 <= 4 * (t / Rabs h * (t / Rabs h) * (t / Rabs h)) * / Rabs h).
    { assert (0 <= t / Rabs h) by (apply Rmult_le_pos; [exact T|left; now apply Rinv_0_lt_compat]).
      apply Rmult_le_pos; [|left; now apply Rinv_0_lt_compat]. apply Rmult_le_pos; [lra|]. apply Rmult_le_pos; [nra|assumption]. }
    replace (4 * (t * t * t) * / (Rabs h * Rabs h * (Rabs h * Rabs h))) with (4 * (t / Rabs h * (t / Rabs h) * (t / Rabs h)) * / Rabs h * 1) by (field; lra).
    apply Rmult_le_compat_l; [exact Q|exact I].
Qed.

Lemma dcut_cont r r0 h : h <> 0 -> continuity_pt (fun r => dcut r r0 h) r.
Proof.
  intros H.
  assert (LOC : forall f g x, (exists d, 0 < d /\ forall y, Rabs (y - x) < d -> f y = g y) -> continuity_pt g x -> continuity_pt f x).
  { intros f g x (d & Hd & E) C eps He. destruct (C eps He) as (a & Ha & Q). exists (Rmin d a). split; [now apply Rmin_glb_lt|].
    intros y [D B]. unfold dist in *; simpl in *. unfold R_dist in *.
    rewrite (E y), (E x).
    - apply Q. split; [exact D|]. eapply Rlt_le_trans; [exact B|apply Rmin_r].
    - rewrite Rminus_diag_eq by reflexivity. now rewrite Rabs_R0.
    - eapply Rlt_le_trans; [exact B|apply Rmin_l]. }
  destruct (Rtotal_order r r0) as [L|[E|G]].
  - apply (LOC _ (fun r => 4 * (((r - r0) / h) * ((r - r0) / h) * ((r - r0) / h)) / h / ((1 + ((r - r0) / h) * ((r - r0) / h) * (((r - r0) / h) * ((r - r0) / h))) * (1 + ((r - r0) / h) * ((r - r0) / h) * (((r - r0) / h) * ((r - r0) / h)))))).
    + exists (r0 - r). split; [lra|]. intros y Hy. apply Rabs_def2 in Hy. unfold dcut. destruct (Rle_dec 0 (y - r0)); [lra|reflexivity].
    + assert (Cx : continuity_pt (fun r => (r - r0) / h) r).
      { apply (continuity_pt_mult (fun r => r - r0) (fct_cte (/ h))); [|apply continuity_pt_const; intros ? ?; reflexivity].
        apply (continuity_pt_minus id (fct_cte r0)); [apply derivable_continuous_pt, derivable_pt_id|apply continuity_pt_const; intros ? ?; reflexivity]. }
      assert (C2 : continuity_pt (fun r => ((r - r0) / h) * ((r - r0) / h)) r) by (now apply continuity_pt_mult).
      assert (C1 : continuity_pt (fun r => 1 + ((r - r0) / h) * ((r - r0) / h) * (((r - r0) / h) * ((r - r0) / h))) r).
      { apply (continuity_pt_plus (fct_cte 1)); [apply continuity_pt_const; intros ? ?; reflexivity|]. now apply (continuity_pt_mult (fun r => ((r - r0) / h) * ((r - r0) / h))). }
      apply (continuity_pt_div (fun r => 4 * (((r - r0) / h) * ((r - r0) / h) * ((r - r0) / h)) / h)).
      * apply (continuity_pt_mult (fun r => 4 * (((r - r0) / h) * ((r - r0) / h) * ((r - r0) / h))) (fct_cte (/ h))); [|apply continuity_pt_const; intros ? ?; reflexivity].
        apply (continuity_pt_mult (fct_cte 4)); [apply continuity_pt_const; intros ? ?; reflexivity|].
        now apply (continuity_pt_mult (fun r => ((r - r0) / h) * ((r - r0) / h))).
      * now apply (continuity_pt_mult (fun r => 1 + ((r - r0) / h) * ((r - r0) / h) * (((r - r0) / h) * ((r - r0) / h)))).
      * set (x := (r - r0) / h). nra.
  - subst r. intros eps He. assert (AH : 0 < Rabs h) by (now apply Rabs_pos_lt).
    set (K := Rabs h * Rabs h * (Rabs h * Rabs h)). assert (KP : 0 < K) by (apply Rmult_lt_0_compat; apply Rmult_lt_0_compat; exact AH).
    exists (Rmin 1 (eps * K / 4)). split; [apply Rmin_glb_lt; [lra|nra]|].
    intros y [_ B]. unfold dist in *; simpl in *. unfold R_dist in *.
    assert (Z : dcut r0 r0 h = 0) by (unfold dcut; destruct (Rle_dec 0 (r0 - r0)); [reflexivity|lra]).
    rewrite Z, Rminus_0_r. eapply Rle_lt_trans; [now apply dcut_small|]. fold K.
    set (t := Rabs (y - r0)) in *. assert (T : 0 <= t) by apply Rabs_pos.
    assert (A1 : t < 1) by (eapply Rlt_le_trans; [exact B|apply Rmin_l]).
    assert (A2 : t < eps * K / 4) by (eapply Rlt_le_trans; [exact B|apply Rmin_r]).
    apply (Rmult_lt_reg_r K); [exact KP|]. unfold Rdiv. rewrite Rmult_assoc, Rinv_l by lra.
    assert (t * t * t <= t) by nra. lra.
  - apply (LOC _ (fct_cte 0)).
    + exists (r - r0). split; [lra|]. intros y Hy. apply Rabs_def2 in Hy. unfold dcut. destruct (Rle_dec 0 (y - r0)); [reflexivity|lra].
    + apply continuity_pt_const. intros ? ?. reflexivity.
Qed.

(** the product that is tabulated *)
Lemma cut_product f df r0 h : h <> 0 -> (forall r, derivable_pt_lim f r (df r)) -> (forall r, continuity_pt df r) ->
  exists d, (forall r, derivable_pt_lim (fun r => f r * apot_cutoff r r0 h) r (d r)) /\ (forall r, continuity_pt d r) /\
  forall r, r0 <= r -> f r * apot_cutoff r r0 h = 0 /\ d r = 0.
Proof.
  intros H Df Cf. exists (fun r => df r * apot_cutoff r r0 h + f r * dcut r r0 h). split; [|split].
  - intros r. apply (derivable_pt_lim_mult f (fun r => apot_cutoff r r0 h)); [apply Df|now apply cut_deriv].
  - intros r.
    assert (C1 : continuity_pt (fun r => apot_cutoff r r0 h) r) by (apply derivable_continuous_pt; exists (dcut r r0 h); now apply cut_deriv).
    assert (C2 : continuity_pt f r) by (apply derivable_continuous_pt; exists (df r); apply Df).
    apply (continuity_pt_plus (fun r => df r * apot_cutoff r r0 h)); [now apply (continuity_pt_mult df)|].
    apply (continuity_pt_mult f); [exact C2|now apply dcut_cont].
  - intros r L. rewrite cut_beyond by exact L. unfold dcut. destruct (Rle_dec 0 (r - r0)); [|lra]. split; ring.
Qed.
