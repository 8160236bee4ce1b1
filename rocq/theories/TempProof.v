(** Proofs about the start temperature. *)
From Coq Require Import Reals List Lia Lra Floats.SpecFloat.
From Verif Require Import TempModel TempSpec.
Import ListNotations.
Local Open Scope R_scope.

Lemma trial_fold : forall F costs m d,
  fold_left (trial F) costs (m, d) = ((m + downhill F costs)%nat, d + fold_right Rplus 0 (rises F costs)).
Proof.
  intros F costs. induction costs as [|x l IH]; intros m d.
  - cbn. rewrite Nat.add_0_r, Rplus_0_r. reflexivity.
  - cbn [fold_left]. unfold trial at 2. unfold downhill, rises. cbn [filter fst snd].
    destruct (Rle_dec x F).
    + rewrite IH. f_equal. unfold downhill. cbn [length]. lia.
    + rewrite IH. f_equal. unfold rises. cbn [map fold_right]. ring.
Qed.
Lemma counts : forall F costs, length costs = (downhill F costs + length (rises F costs))%nat.
Proof.
  intros F costs. unfold downhill, rises. rewrite map_length. induction costs as [|x l IH]; [reflexivity|]. cbn [filter].
  destruct (Rle_dec x F); cbn [length]; lia.
Qed.
Lemma rises_pos : forall F costs, (0 < length (rises F costs))%nat -> 0 < fold_right Rplus 0 (rises F costs).
Proof.
  intros F costs. unfold rises. induction costs as [|x l IH]; cbn [filter]; [cbn; lia|].
  destruct (Rle_dec x F) as [L|L]; [exact IH|]. intros _. cbn [map fold_right].
  destruct (map (fun x0 => x0 - F) (filter (fun x0 => if Rle_dec x0 F then false else true) l)) as [|y r].
  - cbn. lra.
  - cbn [length] in IH. specialize (IH ltac:(lia)). lra.
Qed.

Section T.
Variables (F : R) (costs : list R).
Let m1 := downhill F costs.
Let u := length (rises F costs).
Let M1 := INR m1.
Let U := INR u.
Let A := U / (U * (4 / 5) + (1 - 4 / 5) * M1).

Lemma auto_form : auto_temperature F costs =
  if Nat.eqb u 0 then None else if Req_EM_T (ln A) 0 then None
  else Some (if Rlt_dec (mean (rises F costs) / ln A) 0 then - (mean (rises F costs) / ln A) else mean (rises F costs) / ln A).
Proof.
  unfold auto_temperature. rewrite trial_fold. cbn [Nat.add]. rewrite Rplus_0_l.
  replace (length costs - downhill F costs)%nat with u by (rewrite (counts F costs); unfold u; lia). reflexivity.
Qed.
Lemma U_pos : u <> 0%nat -> 0 < U.
Proof. intro N. unfold U. apply lt_0_INR. lia. Qed.
Lemma M_pos : 0 <= M1.
Proof. apply pos_INR. Qed.
Lemma A_pos : u <> 0%nat -> 0 < A.
Proof.
  intro N. pose proof (U_pos N). pose proof M_pos. unfold A. apply Rdiv_lt_0_compat; nra.
Qed.
Lemma mean_pos : u <> 0%nat -> 0 < mean (rises F costs).
Proof.
  intro N. unfold mean. apply Rdiv_lt_0_compat; [apply rises_pos; fold u; lia|]. apply U_pos. exact N.
Qed.
Lemma A_one : u <> 0%nat -> (A = 1 <-> m1 = u).
Proof.
  intro N. pose proof (U_pos N). pose proof M_pos. unfold A. split.
  - intro E. apply INR_eq. fold M1 U.
    assert (X : U = U * (4 / 5) + (1 - 4 / 5) * M1); [|lra].
    apply (f_equal (fun x => x * (U * (4 / 5) + (1 - 4 / 5) * M1))) in E. unfold Rdiv in E at 1. rewrite Rmult_assoc, Rinv_l in E; nra.
  - intro E. unfold M1. rewrite E. fold U. field. lra.
Qed.
Lemma ln_zero : u <> 0%nat -> (ln A = 0 <-> m1 = u).
Proof.
  intro N. rewrite <- (A_one N). split; intro E.
  - rewrite <- ln_1 in E. apply ln_inv; [apply A_pos; exact N|lra|exact E].
  - rewrite E. apply ln_1.
Qed.
Lemma fails : auto_temperature F costs = None <-> u = 0%nat \/ m1 = u.
Proof.
  rewrite auto_form. destruct (Nat.eqb_spec u 0) as [E|N]; [split; auto|].
  destruct (Req_EM_T (ln A) 0) as [E|E].
  - split; [|reflexivity]. intros _. right. apply (ln_zero N). exact E.
  - split; [discriminate|]. intros [X|X]; [contradiction|]. exfalso. apply E. apply (ln_zero N). exact X.
Qed.
Lemma positive : forall T, auto_temperature F costs = Some T -> 0 < T.
Proof.
  intro T. rewrite auto_form. destruct (Nat.eqb_spec u 0) as [E|N]; [discriminate|].
  destruct (Req_EM_T (ln A) 0) as [E|E]; [discriminate|]. intro H. injection H as <-.
  pose proof (mean_pos N) as P. destruct (Rlt_dec (mean (rises F costs) / ln A) 0) as [L|L]; [lra|].
  apply Rnot_lt_le in L. destruct L as [L|L]; [exact L|]. exfalso. symmetry in L. unfold Rdiv in L. apply Rmult_integral in L.
  destruct L as [L|L]; [lra|]. apply Rinv_neq_0_compat in E. contradiction.
Qed.
Lemma total : INR (length costs) = M1 + U.
Proof. rewrite (counts F costs), plus_INR. reflexivity. Qed.
Lemma exponent : forall d a, d <> 0 -> a <> 0 -> - d / (d / a) = - a.
Proof. intros d a D E. field. auto. Qed.
Lemma share_less : (m1 < u)%nat -> exists T, auto_temperature F costs = Some T /\
  share F costs T = 4 / 5 + 2 / 5 * (M1 / INR (length costs)).
Proof.
  intro L. assert (N : u <> 0%nat) by lia. pose proof (U_pos N) as PU. pose proof M_pos as PM. pose proof (mean_pos N) as PD. pose proof (A_pos N) as PA.
  assert (E : ln A <> 0) by (intro X; apply (ln_zero N) in X; lia).
  assert (MU : M1 < U) by (apply lt_INR; exact L).
  assert (A1 : 1 < A).
  { unfold A. apply Rmult_lt_reg_r with (U * (4 / 5) + (1 - 4 / 5) * M1); [nra|]. unfold Rdiv at 3. rewrite Rmult_assoc, Rinv_l by nra. nra. }
  assert (LA : 0 < ln A) by (rewrite <- ln_1; apply ln_increasing; lra).
  exists (mean (rises F costs) / ln A). split.
  - rewrite auto_form. destruct (Nat.eqb_spec u 0); [contradiction|]. destruct (Req_EM_T (ln A) 0); [contradiction|].
    destruct (Rlt_dec (mean (rises F costs) / ln A) 0) as [X|X]; [|reflexivity].
    exfalso. pose proof (Rdiv_lt_0_compat _ _ PD LA). lra.
  - unfold share. fold m1 u M1 U. rewrite exponent by lra. rewrite exp_Ropp, exp_ln by exact PA. rewrite total. unfold A. field.
    repeat split; nra.
Qed.
Lemma share_more : (u < m1)%nat -> u <> 0%nat -> exists T, auto_temperature F costs = Some T /\
  share F costs T = (M1 + U * U / (4 / 5 * U + 1 / 5 * M1)) / INR (length costs).
Proof.
  intros L N. pose proof (U_pos N) as PU. pose proof M_pos as PM. pose proof (mean_pos N) as PD. pose proof (A_pos N) as PA.
  assert (E : ln A <> 0) by (intro X; apply (ln_zero N) in X; lia).
  assert (MU : U < M1) by (apply lt_INR; exact L).
  assert (A1 : A < 1).
  { unfold A. apply Rmult_lt_reg_r with (U * (4 / 5) + (1 - 4 / 5) * M1); [nra|]. unfold Rdiv at 1. rewrite Rmult_assoc, Rinv_l by nra. nra. }
  assert (LA : ln A < 0) by (rewrite <- ln_1; apply ln_increasing; lra).
  assert (NT : mean (rises F costs) / ln A < 0).
  { unfold Rdiv. pose proof (Rinv_lt_0_compat _ LA). nra. }
  exists (- (mean (rises F costs) / ln A)). split.
  - rewrite auto_form. destruct (Nat.eqb_spec u 0); [contradiction|]. destruct (Req_EM_T (ln A) 0); [contradiction|].
    destruct (Rlt_dec (mean (rises F costs) / ln A) 0) as [X|X]; [reflexivity|contradiction].
  - unfold share. fold m1 u M1 U.
    replace (- mean (rises F costs) / - (mean (rises F costs) / ln A)) with (ln A) by (field; lra).
    rewrite exp_ln by exact PA. unfold A. f_equal. f_equal. field. nra.
Qed.
End T.

Lemma half64 : arg64 (f64 5629499534213120 (-50)) (f64 5629499534213120 (-50)) = one64.
Proof. vm_compute. reflexivity. Qed.

Lemma share_none : forall F costs, downhill F costs = 0%nat -> costs <> [] ->
  exists T, auto_temperature F costs = Some T /\ share F costs T = 4 / 5.
Proof.
  intros F costs D N. pose proof (counts F costs) as C. destruct costs as [|x l]; [contradiction|].
  destruct (share_less F (x :: l)) as (T & H & E).
  - rewrite D in *. cbn [length] in C. lia.
  - exists T. split; [exact H|]. rewrite E, D. change (INR 0) with 0. unfold Rdiv. ring.
Qed.
Ltac counted := unfold downhill, rises; cbn [filter]; repeat (match goal with |- context [Rle_dec ?a ?b] => destruct (Rle_dec a b); try (exfalso; lra) end); cbn [length map].
Definition three : list R := [0; 0; 0; 2; 2; 2; 2; 2; 2; 2].
Lemma three_down : downhill 1 three = 3%nat.
Proof. unfold three. counted. reflexivity. Qed.
Lemma three_rises : rises 1 three = repeat (2 - 1) 7.
Proof. unfold three. counted. reflexivity. Qed.
Lemma share_refuted : exists F costs T T', auto_temperature F costs = Some T /\ share F costs T = 92 / 100 /\
  0 < T' /\ share F costs T' = 4 / 5.
Proof.
  destruct (share_less 1 three) as (T & H & E); [rewrite three_down, three_rises; cbn; lia|].
  assert (L : 0 < ln (7 / 5)) by (rewrite <- ln_1; apply ln_increasing; lra).
  exists 1, three, T, (1 / ln (7 / 5)). split; [exact H|]. split; [|split].
  - rewrite E, three_down. unfold three. cbn [length]. rewrite !INR_IZR_INZ. cbn. field.
  - apply Rdiv_lt_0_compat; lra.
  - unfold share, mean. rewrite three_down, three_rises, repeat_length.
    replace (fold_right Rplus 0 (repeat (2 - 1) 7) / INR 7) with 1 by (rewrite INR_IZR_INZ; cbn; field).
    rewrite exponent by lra. rewrite exp_Ropp, exp_ln by lra. unfold three. cbn [length]. rewrite !INR_IZR_INZ. cbn. field.
Qed.
Lemma half_refuted : exists F costs, length costs = 10%nat /\ rises F costs <> [] /\ auto_temperature F costs = None.
Proof.
  exists 1, [0; 0; 0; 0; 0; 2; 2; 2; 2; 2]. split; [reflexivity|]. split.
  - counted. discriminate.
  - apply fails. right. counted. reflexivity.
Qed.
Lemma given : forall T, (0 <= T -> given_temperature T = Some T) /\ (T < 0 -> given_temperature T = None).
Proof. intro T. unfold given_temperature. destruct (Rlt_dec T 0); split; intro H; try reflexivity; exfalso; lra. Qed.
Lemma temp_ex : downhill 1 [2; 3; 2; 3] = 0%nat /\ (downhill 1%R [2; 0; 3]%R < length (rises 1%R [2; 0; 3]%R))%nat /\
  (length (rises 1%R [2; 0; 1; 1]%R) < downhill 1%R [2; 0; 1; 1]%R)%nat.
Proof. counted. repeat split; lia. Qed.
