(** The EAM force routine: whole runs. *)
From Coq Require Import Reals ZArith List Bool Lia Lra.
From Verif Require Import Vec NbrModel NbrProof NbrProof2 NbrProof3 LoopUtil PairModel PairProof PairSpec PairProof2 ForceLoop BondProof EamModel EamProof EamSpec.
Import ListNotations.
Local Open Scope R_scope.

(** ** dummy constraints *)
Lemma flat_inj : forall n x y g h, (g < n)%nat -> (h < n)%nat -> (x * n + g = y * n + h)%nat -> x = y /\ g = h.
Proof.
  intros n x y g h G H E. assert (x = y).
  {
    replace x with ((x * n + g) / n)%nat by (rewrite Nat.div_add_l by lia; rewrite (Nat.div_small g n) by auto; lia).
    replace y with ((y * n + h) / n)%nat by (rewrite Nat.div_add_l by lia; rewrite (Nat.div_small h n) by auto; lia).
    rewrite E. auto. }
  subst. lia.
Qed.

Section Dummy.
Variable bld : ebuild.
Variables dF : nat -> nat -> R -> R.
Variables fbegin fend : nat -> nat -> R.
Variable dummy_0 : nat -> R.
Variables ntypes natoms : nat.
Notation nbd := (nbands bld).
Notation W := DUMMY_WEIGHT.
Definition gauge (b g : nat) : R :=
  if RESCALE bld then W * dF b g (1 / 2 * (fbegin b g + fend b g)) - dummy_0 (2 * b * ntypes + g)%nat else W * dF b g 1.
(** the entries that are not of the dummy part do not change *)
Definition others (s s' : est) : Prop :=
  frc (dv s') = frc (dv s) /\ en (dv s') = en (dv s) /\ str (dv s') = str (dv s) /\ rho s' = rho s /\ gradF s' = gradF s /\
  lim s' = lim s /\ rsum s' = rsum s.
Lemma others_refl : forall s, others s s.
Proof. intros s. repeat split. Qed.
Lemma others_trans : forall s t u, others s t -> others t u -> others s u.
Proof. intros s t u (A1 & A2 & A3 & A4 & A5 & A6 & A7) (B1 & B2 & B3 & B4 & B5 & B6 & B7). repeat split; congruence. Qed.

Lemma dummy_set_spec : forall g b s, let s' := dummy_set bld dF fbegin fend dummy_0 ntypes g b s in
  others s s' /\ dum s' = setf (setf (dum s) ((2 * b + 1) * ntypes + g) 0) (2 * b * ntypes + g) (gauge b g) /\ err (dv s') = err (dv s).
Proof. intros g b s. unfold dummy_set, set_dum, gauge. repeat split. Qed.
Lemma dummy_add_spec : forall g b s, let s' := dummy_add ntypes g b s in
  others s s' /\ dum s' = dum s /\ err (dv s') = err (dv s) + sq (dum s (2 * b * ntypes + g)%nat) + sq (dum s ((2 * b + 1) * ntypes + g)%nat).
Proof. intros g b s. unfold dummy_add, add_err, with_dv. repeat split. Qed.
Lemma dummy_type_spec : forall g s, (g < ntypes)%nat -> let s' := dummy_type bld dF fbegin fend dummy_0 ntypes g s in
  others s s' /\
  (forall b, (b < nbd)%nat -> dum s' (2 * b * ntypes + g)%nat = gauge b g /\ dum s' ((2 * b + 1) * ntypes + g)%nat = 0) /\
  (forall x h, (h < ntypes)%nat -> h <> g -> dum s' (x * ntypes + h)%nat = dum s (x * ntypes + h)%nat) /\
  err (dv s') = err (dv s) + rsumf (fun b => sq (gauge b g)) (seq 0 nbd).
Proof.
  intros g s G. cbv zeta. unfold dummy_type.
  assert (NE : forall x y, x <> y -> (x * ntypes + g <> y * ntypes + g)%nat).
  { intros x y N E. apply flat_inj in E; auto. tauto. }
  assert (NH : forall x y h, (h < ntypes)%nat -> h <> g -> (x * ntypes + h <> y * ntypes + g)%nat).
  { intros x y h H N E. apply flat_inj in E; auto. tauto. }
  pose (Q := fun n t => others s t /\ err (dv t) = err (dv s) /\
    (forall b, (b < n)%nat -> dum t (2 * b * ntypes + g)%nat = gauge b g /\ dum t ((2 * b + 1) * ntypes + g)%nat = 0) /\
    (forall x h, (h < ntypes)%nat -> h <> g -> dum t (x * ntypes + h)%nat = dum s (x * ntypes + h)%nat)).
  assert (I : Q nbd (for_up 0 nbd (dummy_set bld dF fbegin fend dummy_0 ntypes g) s)).
  { apply (for_up_inv Q); [lia| |].
    - split; [apply others_refl|]. split; [auto|]. split; [intros; lia|auto].
    - intros n t Hn (O & R & D & X). destruct (dummy_set_spec g n t) as (O' & D' & R'). unfold Q. split; [apply (others_trans _ _ _ O O')|]. split; [congruence|]. rewrite D'. split.
      + intros b Hb. destruct (Nat.eq_dec b n) as [->|N].
        * split; [apply setf_eq|]. rewrite setf_neq by (apply NE; lia). apply setf_eq.
        * rewrite !setf_neq by (apply NE; lia). apply D; lia.
      + intros x h H N. rewrite !setf_neq by (apply NH; auto). auto. }
  destruct I as (O & R & D & X). set (t := for_up 0 nbd _ s) in *. clearbody t.
  pose (Q2 := fun n u => others t u /\ dum u = dum t /\ err (dv u) = err (dv t) + rsumf (fun b => sq (gauge b g)) (seq 0 n)).
  assert (I : Q2 nbd (for_up 0 nbd (dummy_add ntypes g) t)).
  { apply (for_up_inv Q2); [lia| |].
    - split; [apply others_refl|]. split; [auto|]. unfold rsumf; simpl; ring.
    - intros n u Hn (O1 & D1 & R1). destruct (dummy_add_spec g n u) as (O' & D' & R'). split; [apply (others_trans _ _ _ O1 O')|]. split; [congruence|].
      rewrite R', R1, D1, seq_S, rsumf_snoc. destruct (D n ltac:(lia)) as [-> ->]. simpl (0 + n)%nat. unfold sq. ring. }
  destruct I as (O1 & D1 & R1). split; [apply (others_trans _ _ _ O O1)|]. rewrite D1. split; [auto|]. split; [auto|]. rewrite R1, R. auto.
Qed.

Lemma dummy_types_spec : forall s, let s' := for_up 0 ntypes (dummy_type bld dF fbegin fend dummy_0 ntypes) s in
  others s s' /\
  (forall b g, (b < nbd)%nat -> (g < ntypes)%nat -> dum s' (2 * b * ntypes + g)%nat = gauge b g /\ dum s' ((2 * b + 1) * ntypes + g)%nat = 0) /\
  err (dv s') = err (dv s) + rsumf (fun g => rsumf (fun b => sq (gauge b g)) (seq 0 nbd)) (seq 0 ntypes).
Proof.
  intros s. cbv zeta.
  pose (Q := fun n s' => (n <= ntypes)%nat /\ others s s' /\
    (forall b g, (b < nbd)%nat -> (g < n)%nat -> dum s' (2 * b * ntypes + g)%nat = gauge b g /\ dum s' ((2 * b + 1) * ntypes + g)%nat = 0) /\
    err (dv s') = err (dv s) + rsumf (fun g => rsumf (fun b => sq (gauge b g)) (seq 0 nbd)) (seq 0 n)).
  assert (I : Q ntypes (for_up 0 ntypes (dummy_type bld dF fbegin fend dummy_0 ntypes) s)).
  { apply (for_up_inv Q); [lia| |].
    - unfold Q. split; [lia|]. split; [apply others_refl|]. split; [intros; lia|]. unfold rsumf; simpl. ring.
    - intros n t Hn (_ & O & D & R). destruct (dummy_type_spec n t ltac:(lia)) as (O' & D1 & D2 & R'). unfold Q.
      split; [lia|]. split; [apply (others_trans _ _ _ O O')|]. split.
      + intros b g Hb Hg. destruct (Nat.eq_dec g n) as [->|N]; [auto|]. rewrite !D2 by lia. apply D; auto; lia.
      + rewrite R', R, seq_S, rsumf_snoc. simpl. ring. }
  destruct I as (_ & O & D & R). auto.
Qed.

Definition mean (s : est) (b : nat) : R := W * (rsum s b / INR natoms - 1).
Lemma dummy_mean_spec : forall b s, (0 < ntypes)%nat -> let s' := dummy_mean ntypes natoms b s in
  others s s' /\
  (dum s' ((2 * b + 1) * ntypes)%nat = if Rlt_dec 0 (rsum s b) then mean s b else dum s ((2 * b + 1) * ntypes)%nat) /\
  (forall x, x <> ((2 * b + 1) * ntypes)%nat -> dum s' x = dum s x) /\
  err (dv s') = err (dv s) + if Rlt_dec 0 (rsum s b) then sq (mean s b) else 0.
Proof.
  intros b s N. unfold dummy_mean, mean. destruct (Rlt_dec 0 (rsum s b)).
  - unfold add_err, set_dum, with_dv. cbn [dv rho gradF lim rsum dum frc en str err]. split; [repeat split|]. split; [apply setf_eq|]. split.
    + intros x X. apply setf_neq. auto.
    + rewrite setf_eq. auto.
  - split; [apply others_refl|]. split; [auto|]. split; [auto|]. ring.
Qed.
Lemma dummy_means_spec : forall s, (0 < ntypes)%nat -> let s' := for_up 0 nbd (dummy_mean ntypes natoms) s in
  others s s' /\
  (forall b, (b < nbd)%nat -> dum s' ((2 * b + 1) * ntypes)%nat = if Rlt_dec 0 (rsum s b) then mean s b else dum s ((2 * b + 1) * ntypes)%nat) /\
  (forall x, (forall b, (b < nbd)%nat -> x <> ((2 * b + 1) * ntypes)%nat) -> dum s' x = dum s x) /\
  err (dv s') = err (dv s) + rsumf (fun b => if Rlt_dec 0 (rsum s b) then sq (mean s b) else 0) (seq 0 nbd).
Proof.
  intros s N. cbv zeta.
  pose (Q := fun n s' => others s s' /\
    (forall b, (b < n)%nat -> dum s' ((2 * b + 1) * ntypes)%nat = if Rlt_dec 0 (rsum s b) then mean s b else dum s ((2 * b + 1) * ntypes)%nat) /\
    (forall x, (forall b, (b < n)%nat -> x <> ((2 * b + 1) * ntypes)%nat) -> dum s' x = dum s x) /\
    err (dv s') = err (dv s) + rsumf (fun b => if Rlt_dec 0 (rsum s b) then sq (mean s b) else 0) (seq 0 n)).
  change (Q nbd (for_up 0 nbd (dummy_mean ntypes natoms) s)). apply (for_up_inv Q); [lia| |].
  - unfold Q. split; [apply others_refl|]. split; [intros; lia|]. split; [auto|]. unfold rsumf; simpl. ring.
  - intros n t Hn (O & D1 & D2 & R). destruct (dummy_mean_spec n t N) as (O' & E1 & E2 & R'). unfold Q.
    assert (RS : rsum t = rsum s) by (apply O). assert (MS : mean t n = mean s n) by (unfold mean; rewrite RS; auto). rewrite RS, MS in E1, R'.
    split; [apply (others_trans _ _ _ O O')|]. split; [|split].
    + intros b Hb. destruct (Nat.eq_dec b n) as [->|NB].
      * rewrite E1. destruct (Rlt_dec 0 (rsum s n)); auto. apply D2. intros b Hb' E. apply Nat.mul_cancel_r in E; lia.
      * rewrite E2; [apply D1; lia|]. intros E. apply Nat.mul_cancel_r in E; lia.
    + intros x X. rewrite E2 by (apply X; lia). apply D2. intros; apply X; lia.
    + rewrite R', R, seq_S, rsumf_snoc. simpl. ring.
Qed.

Lemma sum_swap_idx : forall (f : nat -> R) n, 
  rsumf f (seq 0 (2 * nbd * n)) = rsumf (fun g => rsumf (fun b => f (2 * b * n + g)%nat + f ((2 * b + 1) * n + g)%nat) (seq 0 nbd)) (seq 0 n).
Proof.
  intros f n. assert (SH : forall k, rsumf f (seq k n) = rsumf (fun g => f (k + g)%nat) (seq 0 n)).
  { intros k. rewrite <- (rsumf_map f (fun g => k + g)%nat). f_equal. clear. revert k. induction n; intros k; simpl; auto. f_equal; [lia|].
    rewrite (IHn (S k)), <- (seq_shift n 0), map_map. apply map_ext. intros; lia. }
  unfold nbands. destruct (TBEAM bld).
  - replace (2 * 2 * n)%nat with (n + (n + (n + n)))%nat by lia. rewrite !seq_app, !rsumf_app, (SH 0%nat), (SH (0 + n)%nat), (SH (0 + n + n)%nat), (SH (0 + n + n + n)%nat), <- !rsumf_plus. apply rsumf_ext. intros g _.
    unfold rsumf; cbn [seq map rsum fold_right]. 
    replace (2 * 0 * n + g)%nat with (0 + g)%nat by lia. replace ((2 * 0 + 1) * n + g)%nat with (0 + n + g)%nat by lia.
    replace (2 * 1 * n + g)%nat with (0 + n + n + g)%nat by lia. replace ((2 * 1 + 1) * n + g)%nat with (0 + n + n + n + g)%nat by lia. cbn [Nat.add]. unfold Vec.rsum; cbn [fold_right]. ring.
  - replace (2 * 1 * n)%nat with (n + n)%nat by lia. rewrite !seq_app, !rsumf_app, (SH 0%nat), (SH (0 + n)%nat), <- !rsumf_plus. apply rsumf_ext. intros g _.
    unfold rsumf; cbn [seq map rsum fold_right]. 
    replace (2 * 0 * n + g)%nat with (0 + g)%nat by lia. replace ((2 * 0 + 1) * n + g)%nat with (0 + n + g)%nat by lia. cbn [Nat.add]. unfold Vec.rsum; cbn [fold_right]. ring.
Qed.

(** values of the dummy entries, and what they add to the error sum *)
Theorem dummy_spec : forall s, (0 < ntypes)%nat -> let s' := dummy bld dF fbegin fend dummy_0 ntypes natoms s in
  others s s' /\
  (NOPUNISH bld = true -> s' = s) /\
  (NOPUNISH bld = false ->
    (forall b g, (b < nbd)%nat -> (g < ntypes)%nat -> dum s' (2 * b * ntypes + g)%nat = gauge b g /\
       dum s' ((2 * b + 1) * ntypes + g)%nat = if (negb (RESCALE bld) && Nat.eqb g 0)%bool then if Rlt_dec 0 (rsum s b) then mean s b else 0 else 0) /\
    err (dv s') = err (dv s) + rsumf (fun k => sq (dum s' k)) (seq 0 (2 * nbd * ntypes))).
Proof.
  intros s N. cbv zeta. unfold dummy. destruct (NOPUNISH bld); [split; [apply others_refl|]; split; [auto|discriminate]|].
  destruct (dummy_types_spec s) as (O & D & R). set (t := for_up 0 ntypes _ s) in *. clearbody t.
  destruct (RESCALE bld) eqn:RS; simpl negb; cbn [andb].
  - split; [auto|]. split; [discriminate|]. intros _. split; [exact D|]. rewrite R. f_equal.
    rewrite sum_swap_idx. apply rsumf_ext. intros g Hg. apply in_seq in Hg. apply rsumf_ext. intros b Hb. apply in_seq in Hb.
    destruct (D b g) as [-> ->]; try lia. unfold sq. ring.
  - destruct (dummy_means_spec t N) as (O' & D1 & D2 & R'). set (u := for_up 0 nbd _ t) in *. clearbody u.
    assert (RT : rsum t = rsum s) by (apply O).
    assert (MT : forall b, mean t b = mean s b) by (intros; unfold mean; rewrite RT; auto).
    assert (DD : forall b g, (b < nbd)%nat -> (g < ntypes)%nat -> dum u (2 * b * ntypes + g)%nat = gauge b g /\
       dum u ((2 * b + 1) * ntypes + g)%nat = if (Nat.eqb g 0)%bool then if Rlt_dec 0 (rsum s b) then mean s b else 0 else 0).
    { intros b g Hb Hg. split.
      - rewrite D2; [apply D; auto|]. intros b' Hb' E. replace ((2 * b' + 1) * ntypes)%nat with ((2 * b' + 1) * ntypes + 0)%nat in E by lia. apply flat_inj in E; lia.
      - destruct (Nat.eqb_spec g 0) as [->|G].
        + rewrite Nat.add_0_r. rewrite D1 by auto. rewrite RT, MT. destruct (Rlt_dec 0 (rsum s b)); auto. destruct (D b 0%nat Hb N) as [_ Z]. rewrite Nat.add_0_r in Z. auto.
        + rewrite D2; [apply D; auto|]. intros b' Hb' E. replace ((2 * b' + 1) * ntypes)%nat with ((2 * b' + 1) * ntypes + 0)%nat in E by lia. apply flat_inj in E; lia. }
    split; [apply (others_trans _ _ _ O O')|]. split; [discriminate|]. intros _. split; [exact DD|].
    rewrite R', R, sum_swap_idx.
    rewrite (rsumf_ext (fun g => rsumf (fun b => sq (dum u (2 * b * ntypes + g)%nat) + sq (dum u ((2 * b + 1) * ntypes + g)%nat)) (seq 0 nbd))
      (fun g => rsumf (fun b => sq (gauge b g)) (seq 0 nbd) + (if Nat.eqb g 0 then rsumf (fun b => if Rlt_dec 0 (rsum s b) then sq (mean s b) else 0) (seq 0 nbd) else 0))).
    + rewrite rsumf_plus. rewrite (pick (fun _ => rsumf (fun b => if Rlt_dec 0 (rsum s b) then sq (mean s b) else 0) (seq 0 nbd)) 0%nat (seq 0 ntypes)) by (try apply seq_NoDup; apply in_seq; lia).
      rewrite Rplus_assoc. do 2 f_equal. apply rsumf_ext. intros b _. rewrite RT, MT. auto.
    + intros g Hg. apply in_seq in Hg. 
      replace (if Nat.eqb g 0 then rsumf (fun b => if Rlt_dec 0 (rsum s b) then sq (mean s b) else 0) (seq 0 nbd) else 0)
        with (rsumf (fun b => if Nat.eqb g 0 then if Rlt_dec 0 (rsum s b) then sq (mean s b) else 0 else 0) (seq 0 nbd)).
      * rewrite <- rsumf_plus. apply rsumf_ext. intros b Hb. apply in_seq in Hb. destruct (DD b g) as [-> ->]; try lia.
        destruct (Nat.eqb g 0); [destruct (Rlt_dec 0 (rsum s b))|]; unfold sq; ring.
      * destruct (Nat.eqb g 0); auto. apply rsumf_zero. auto.
Qed.
End Dummy.
