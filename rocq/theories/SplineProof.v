(** Proofs about splines (C22-C24, C67): the tridiagonal system. *)
From Coq Require Import Reals ZArith List Lia Lra.
From Verif Require Import LoopUtil SplineModel.
Local Open Scope R_scope.

Lemma setr_eq : forall a i x, setr a i x i = x.
Proof. intros. unfold setr. rewrite Nat.eqb_refl. reflexivity. Qed.
Lemma setr_neq : forall a i x k, k <> i -> setr a i x k = a k.
Proof. intros. unfold setr. destruct (Nat.eqb_spec k i); [contradiction|reflexivity]. Qed.

(** Strictly increasing sampling points 0 .. n-1. *)
Definition increasing (x : arr) (n : nat) : Prop := forall i, (S i < n)%nat -> x i < x (S i).

Section NE.
Variables x y : arr.
Variable n : nat.
Hypothesis N2 : (2 <= n)%nat.
Hypothesis INC : increasing x n.

Definition sig (i : nat) : R := (x i - x (i - 1)%nat) / (x (i + 1)%nat - x (i - 1)%nat).
Definition rhs (i : nat) : R :=
  6 * ((y (i + 1)%nat - y i) / (x (i + 1)%nat - x i) - (y i - y (i - 1)%nat) / (x i - x (i - 1)%nat))
  / (x (i + 1)%nat - x (i - 1)%nat).

Lemma gaps : forall i, (1 <= i < n - 1)%nat -> x (i - 1)%nat < x i /\ x i < x (i + 1)%nat.
Proof.
  intros i H. split.
  - replace i with (S (i - 1)) at 2 by lia. apply INC. lia.
  - replace (i + 1)%nat with (S i) by lia. apply INC. lia.
Qed.

Lemma sig_01 : forall i, (1 <= i < n - 1)%nat -> 0 < sig i < 1.
Proof.
  intros i H. destruct (gaps i H) as [A B]. unfold sig. split.
  - apply Rdiv_lt_0_compat; lra.
  - apply Rmult_lt_reg_r with (x (i + 1)%nat - x (i - 1)%nat); [lra|].
    unfold Rdiv. rewrite Rmult_assoc, Rinv_l by lra. lra.
Qed.

Variables yp1 : R.
Definition u_first : R := if Rlt_dec NATURAL yp1 then 0 else 3 / (x 1%nat - x 0%nat) * ((y 1%nat - y 0%nat) / (x 1%nat - x 0%nat) - yp1).
Definition y_first : R := if Rlt_dec NATURAL yp1 then 0 else - (1/2).

Definition fwd (t : nat) (s : arr * arr) : Prop :=
  let '(Y, U) := s in
  Y 0%nat = y_first /\ U 0%nat = u_first /\
  (forall j, (j < t)%nat -> -1 < Y j <= 0) /\
  (forall j, (1 <= j < t)%nat ->
     Y j * (sig j * Y (j - 1)%nat + 2) = sig j - 1 /\
     U j * (sig j * Y (j - 1)%nat + 2) = rhs j - sig j * U (j - 1)%nat).

Lemma forward_ok : forall y2 u, fwd (n - 1) (for_up 1 (n - 1) (ne_forward x y) (ne_start x y yp1 y2 u)).
Proof.
  intros y2 u. apply (for_up_inv fwd); [lia| |].
  - unfold fwd, ne_start, y_first, u_first. destruct (Rlt_dec NATURAL yp1); rewrite !setr_eq;
    (split; [reflexivity|]; split; [reflexivity|]; split; [|intros; lia]);
    intros j Hj; replace j with 0%nat by lia; rewrite setr_eq; lra.
  - intros i [Y U] Hi (A & B & C & D). unfold ne_forward. cbv zeta. fold (sig i).
    destruct (sig_01 i Hi) as [S0 S1]. pose proof (C (i - 1)%nat ltac:(lia)) as [C0 C1].
    assert (P : 1 < sig i * Y (i - 1)%nat + 2) by nra.
    unfold fwd. split; [rewrite setr_neq by lia; auto|]. split; [rewrite setr_neq by lia; auto|]. split.
    + intros j Hj. destruct (Nat.eq_dec j i) as [->|NE]; [|rewrite setr_neq by auto; apply C; lia].
      rewrite setr_eq. split.
      * apply Rmult_lt_reg_r with (sig i * Y (i - 1)%nat + 2); [lra|].
        unfold Rdiv. rewrite Rmult_assoc, Rinv_l by lra. nra.
      * apply Rmult_le_reg_r with (sig i * Y (i - 1)%nat + 2); [lra|].
        unfold Rdiv. rewrite Rmult_assoc, Rinv_l by lra. nra.
    + intros j Hj. destruct (Nat.eq_dec j i) as [->|NE].
      * rewrite !setr_eq, !setr_neq by lia. split; [field; lra|]. unfold rhs. field.
        destruct (gaps i Hi). repeat split; lra.
      * rewrite !setr_neq by lia. apply D. lia.
Qed.

Lemma finish_spec : forall qn un Y U,
  let D := finish n qn un (Y, U) in
  D (n - 1)%nat = (un - qn * U (n - 2)%nat) / (qn * Y (n - 2)%nat + 1) /\
  forall k, (k < n - 1)%nat -> D k = Y k * D (k + 1)%nat + U k.
Proof.
  intros qn un Y U. cbv zeta. unfold finish.
  set (L := (un - qn * U (n - 2)%nat) / (qn * Y (n - 2)%nat + 1)).
  pose (P := fun t (D : arr) => D (n - 1)%nat = L /\ (forall k, (k < t)%nat -> D k = Y k) /\
     forall k, (t <= k < n - 1)%nat -> D k = Y k * D (k + 1)%nat + U k).
  assert (Q : P 0%nat (for_down 0 (n - 1) (back U) (setr Y (n - 1) L))).
  { apply (for_down_inv P); [lia| |]; unfold P.
    - split; [apply setr_eq|]. split; [|intros; lia]. intros k Hk. apply setr_neq. lia.
    - intros i D Hi (A & B & C). unfold back. split; [rewrite setr_neq by lia; auto|]. split.
      + intros k Hk. rewrite setr_neq by lia. apply B. lia.
      + intros k Hk. destruct (Nat.eq_dec k i) as [->|NE].
        * rewrite setr_eq, setr_neq by lia. rewrite B by lia. reflexivity.
        * rewrite !setr_neq by lia. apply C. lia. }
  destruct Q as (A & _ & C). split; [exact A|]. intros k Hk. apply C. lia.
Qed.

(** The system of equations solved by spline_ne. *)
Record system (yp1 ypn : R) (d : arr) : Prop := {
  sys_mid : forall i, (1 <= i < n - 1)%nat ->
     sig i * d (i - 1)%nat + 2 * d i + (1 - sig i) * d (i + 1)%nat = rhs i;
  sys_left_nat : NATURAL < yp1 -> d 0%nat = 0;
  sys_left : yp1 <= NATURAL -> 2 * d 0%nat + d 1%nat =
     6 / (x 1%nat - x 0%nat) * ((y 1%nat - y 0%nat) / (x 1%nat - x 0%nat) - yp1);
  sys_right_nat : NATURAL < ypn -> d (n - 1)%nat = 0;
  sys_right : ypn <= NATURAL -> d (n - 2)%nat + 2 * d (n - 1)%nat =
     6 / (x (n - 1)%nat - x (n - 2)%nat) *
     (ypn - (y (n - 1)%nat - y (n - 2)%nat) / (x (n - 1)%nat - x (n - 2)%nat)) }.

Lemma spline_ne_system : forall ypn y2, system yp1 ypn (spline_ne x y n yp1 ypn y2).
Proof.
  intros ypn y2. unfold spline_ne.
  pose proof (forward_ok y2 (fun _ => 0)) as F.
  destruct (for_up 1 (n - 1) (ne_forward x y) (ne_start x y yp1 y2 (fun _ => 0))) as [Y U].
  destruct F as (F0 & F1 & F2 & F3).
  destruct (ne_end x y n ypn) as [qn un] eqn:EE.
  destruct (finish_spec qn un Y U) as [L B].
  set (D := finish n qn un (Y, U)) in *. clearbody D.
  pose proof (F2 (n - 2)%nat ltac:(lia)) as [YL YR].
  assert (B0 : D (n - 2)%nat = Y (n - 2)%nat * D (n - 1)%nat + U (n - 2)%nat).
  { rewrite (B (n - 2)%nat) by lia. replace (n - 2 + 1)%nat with (n - 1)%nat by lia. reflexivity. }
  constructor.
  - intros i Hi. destruct (F3 i Hi) as [E1 E2]. pose proof (B i ltac:(lia)) as Bi.
    pose proof (B (i - 1)%nat ltac:(lia)) as Bj. replace (i - 1 + 1)%nat with i in Bj by lia.
    rewrite Bj.
    replace (sig i * (Y (i - 1)%nat * D i + U (i - 1)%nat) + 2 * D i + (1 - sig i) * D (i + 1)%nat) with
      ((sig i * Y (i - 1)%nat + 2) * D i + sig i * U (i - 1)%nat + (1 - sig i) * D (i + 1)%nat) by ring.
    rewrite Bi at 1.
    replace ((sig i * Y (i - 1)%nat + 2) * (Y i * D (i + 1)%nat + U i)) with
      ((Y i * (sig i * Y (i - 1)%nat + 2)) * D (i + 1)%nat + U i * (sig i * Y (i - 1)%nat + 2)) by ring.
    rewrite E1, E2. ring.
  - intros H. rewrite (B 0%nat) by lia. rewrite F0, F1. unfold y_first, u_first. destruct (Rlt_dec NATURAL yp1); [ring|contradiction].
  - intros H. pose proof (B 0%nat ltac:(lia)) as E. rewrite F0, F1 in E. unfold y_first, u_first in E.
    destruct (Rlt_dec NATURAL yp1); [lra|]. rewrite E. change (0 + 1)%nat with 1%nat. pose proof (INC 0%nat ltac:(lia)). field. lra.
  - intros H. rewrite L. unfold ne_end in EE. destruct (Rlt_dec NATURAL ypn); [|contradiction]. injection EE as <- <-. field.
  - intros H. unfold ne_end in EE. destruct (Rlt_dec NATURAL ypn); [lra|]. injection EE as <- <-.
    assert (E : D (n - 1)%nat * (1/2 * Y (n - 2)%nat + 1) = 3 / (x (n - 1)%nat - x (n - 2)%nat) * (ypn - (y (n - 1)%nat - y (n - 2)%nat) / (x (n - 1)%nat - x (n - 2)%nat)) - 1/2 * U (n - 2)%nat).
    { rewrite L. unfold Rdiv at 1. rewrite Rmult_assoc, Rinv_l by lra. ring. }
    rewrite B0. 
    assert (x (n - 2)%nat < x (n - 1)%nat) by (replace (n - 1)%nat with (S (n - 2)) by lia; apply INC; lia).
    replace (6 / (x (n - 1)%nat - x (n - 2)%nat) * (ypn - (y (n - 1)%nat - y (n - 2)%nat) / (x (n - 1)%nat - x (n - 2)%nat))) with
      (2 * (3 / (x (n - 1)%nat - x (n - 2)%nat) * (ypn - (y (n - 1)%nat - y (n - 2)%nat) / (x (n - 1)%nat - x (n - 2)%nat)))) by (field; lra).
    lra.
Qed.
End NE.

(** spline_ed is spline_ne for equidistant points. *)
Lemma for_up_ext_rel : forall {S T : Type} (R : S -> T -> Prop) lo hi (b1 : nat -> S -> S) (b2 : nat -> T -> T) s t,
  R s t -> (forall i s t, (lo <= i < hi)%nat -> R s t -> R (b1 i s) (b2 i t)) -> R (for_up lo hi b1 s) (for_up lo hi b2 t).
Proof.
  intros S T R lo hi b1 b2 s t H Hs. unfold for_up.
  assert (G : forall l s t, (forall i, In i l -> (lo <= i < hi)%nat) -> R s t -> R (fold_left (fun s i => b1 i s) l s) (fold_left (fun s i => b2 i s) l t)).
  { induction l; intros s0 t0 Hl Hr; simpl; auto. apply IHl; [intros; apply Hl; right; auto|]. apply Hs; auto. apply Hl; left; auto. }
  apply G; auto. intros i Hi. apply in_seq in Hi. lia.
Qed.

Definition grid (b st : R) : arr := fun i => b + INR i * st.
Lemma grid_diff : forall b st i j, grid b st i - grid b st j = (INR i - INR j) * st.
Proof. intros. unfold grid. ring. Qed.

Lemma grid_increasing : forall b st n, 0 < st -> increasing (grid b st) n.
Proof. intros b st n H i _. unfold grid. rewrite S_INR. nra. Qed.

Lemma spline_ed_is_ne : forall b st y n yp1 ypn y2, 0 < st -> (2 <= n)%nat -> 
  forall k, spline_ed st y n yp1 ypn y2 k = spline_ne (grid b st) y n yp1 ypn y2 k.
Proof.
  intros b st y n yp1 ypn y2 H N k. unfold spline_ed, spline_ne.
  assert (D1 : forall i, grid b st (i + 1)%nat - grid b st i = st) by (intros; rewrite grid_diff, plus_INR; simpl; ring).
  assert (D2 : forall i, (1 <= i)%nat -> grid b st i - grid b st (i - 1)%nat = st) by (intros; rewrite grid_diff, minus_INR by lia; simpl; ring).
  assert (D3 : forall i, (1 <= i)%nat -> grid b st (i + 1)%nat - grid b st (i - 1)%nat = 2 * st) by (intros; rewrite grid_diff, plus_INR, minus_INR by lia; simpl; ring).
  assert (E1 : ne_start (grid b st) y yp1 y2 (fun _ => 0) = ed_start st y yp1 y2 (fun _ => 0)).
  { unfold ne_start, ed_start. rewrite (D1 0%nat : grid b st 1%nat - grid b st 0%nat = st). reflexivity. }
  assert (E2 : ne_end (grid b st) y n ypn = ed_end st y n ypn).
  { unfold ne_end, ed_end. replace (grid b st (n - 1)%nat - grid b st (n - 2)%nat) with st; [reflexivity|].
    replace (n - 1)%nat with (n - 2 + 1)%nat by lia. symmetry. apply D1. }
  rewrite E1, E2. destruct (ed_end st y n ypn) as [qn un].
  rewrite (for_up_ext 1 (n - 1) (ed_forward st y) (ne_forward (grid b st) y)); [reflexivity|]. intros i [Y U] Hi. unfold ed_forward, ne_forward. rewrite !D3, !D2, D1 by lia.
  assert (S : st / (2 * st) = 1/2) by (field; lra). rewrite S.
  replace (1/2 - 1) with (- (1/2)) by lra. reflexivity.
Qed.
