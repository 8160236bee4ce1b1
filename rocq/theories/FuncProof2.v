(** Punishments, electrostatic tails, chemical potential. *)
From Coq Require Import Reals ZArith List Bool Lia Lra Permutation Sorted.
From Verif Require Import LoopUtil Vec FuncModel FuncSpec FuncProof.
Import ListNotations.
Local Open Scope R_scope.

(** ** Punishments *)
Lemma bounds_sum ndim idx pmin pmax par_p params forces :
  (forall i, (i < ndim)%nat -> pmin i <= pmax i) ->
  let s := for_up 0 ndim (punish_bounds idx pmin pmax par_p params) (mk_punished 0 forces false) in
  psum s = rsumf (fun i => APOT_PUNISH * (outside (params (idx i)) (pmin i) (pmax i) * outside (params (idx i)) (pmin i) (pmax i))) (seq 0 ndim) /\
  pinf s = false /\
  forall k, pforces s k = if (Nat.leb par_p k && Nat.ltb k (par_p + ndim))%bool
     then let i := (k - par_p)%nat in
          if Rlt_dec 0 (outside (params (idx i)) (pmin i) (pmax i))
          then APOT_PUNISH * (outside (params (idx i)) (pmin i) (pmax i) * outside (params (idx i)) (pmin i) (pmax i)) else forces k
     else forces k.
Proof.
  intros B.
  pose (Q := fun n (s : punished) => psum s = rsumf (fun i => APOT_PUNISH * (outside (params (idx i)) (pmin i) (pmax i) * outside (params (idx i)) (pmin i) (pmax i))) (seq 0 n) /\
    pinf s = false /\
    forall k, pforces s k = if (Nat.leb par_p k && Nat.ltb k (par_p + n))%bool
     then let i := (k - par_p)%nat in
          if Rlt_dec 0 (outside (params (idx i)) (pmin i) (pmax i))
          then APOT_PUNISH * (outside (params (idx i)) (pmin i) (pmax i) * outside (params (idx i)) (pmin i) (pmax i)) else forces k
     else forces k).
  change (Q ndim (for_up 0 ndim (punish_bounds idx pmin pmax par_p params) (mk_punished 0 forces false))).
  apply (for_up_inv Q).
  - lia.
  - split; [reflexivity|]. split; [reflexivity|]. intros k. simpl.
    destruct (Nat.leb par_p k && Nat.ltb k (par_p + 0))%bool eqn:E; [|reflexivity].
    apply andb_prop in E. destruct E as [E1 E2]. apply Nat.leb_le in E1. apply Nat.ltb_lt in E2. lia.
  - intros i s Hi (S1 & S2 & S3).
    set (o := outside (params (idx i)) (pmin i) (pmax i)).
    assert (O : (o = 0 /\ punish_bounds idx pmin pmax par_p params i s = s) \/
                (0 < o /\ punish_bounds idx pmin pmax par_p params i s = mk_punished (psum s + APOT_PUNISH * (o * o)) (setp (pforces s) (par_p + i) (APOT_PUNISH * (o * o))) (pinf s))).
    { specialize (B i ltac:(lia)). unfold punish_bounds, o, outside.
      destruct (Rlt_dec (params (idx i)) (pmin i)) as [L|L].
      - right. rewrite (Rmax_left (pmin i - _)) by lra. rewrite Rmax_right by lra. split; [lra|].
        f_equal; [ring|f_equal; ring].
      - destruct (Rlt_dec (pmax i) (params (idx i))) as [G|G].
        + right. rewrite (Rmax_right (pmin i - _)) by lra. rewrite Rmax_right by lra. split; [lra|].
          f_equal; [ring|f_equal; ring].
        + left. split; [|reflexivity]. apply Rmax_left. apply Rmax_lub; lra. }
    split; [|split].
    + rewrite seq_S, rsumf_app. rewrite <- S1. unfold rsumf at 1. simpl. fold o.
      destruct O as [[Z ->]|[P ->]]; [rewrite Z; ring|cbn [psum]; ring].
    + destruct O as [[Z ->]|[P ->]]; exact S2.
    + intros k. destruct (Nat.eq_dec k (par_p + i)) as [E|NE].
      * subst k. replace (Nat.leb par_p (par_p + i)) with true by (symmetry; apply Nat.leb_le; lia).
        replace (Nat.ltb (par_p + i) (par_p + S i)) with true by (symmetry; apply Nat.ltb_lt; lia). cbn [andb].
        replace (par_p + i - par_p)%nat with i by lia. cbv zeta. fold o.
        destruct O as [[Z ->]|[P ->]].
        -- rewrite S3. replace (Nat.ltb (par_p + i) (par_p + i)) with false by (symmetry; apply Nat.ltb_ge; lia). rewrite andb_false_r.
           destruct (Rlt_dec 0 o); [lra|reflexivity].
        -- cbn [pforces]. rewrite setp_same. destruct (Rlt_dec 0 o); [reflexivity|lra].
      * transitivity (pforces s k).
        -- destruct O as [[Z ->]|[P ->]]; [reflexivity|]. cbn [pforces]. now apply setp_other.
        -- rewrite S3. destruct (Nat.leb par_p k) eqn:E1; [|reflexivity]. apply Nat.leb_le in E1. cbn [andb].
           destruct (Nat.ltb k (par_p + i)) eqn:E2, (Nat.ltb k (par_p + S i)) eqn:E3; try reflexivity.
           ++ apply Nat.ltb_lt in E2. apply Nat.ltb_ge in E3. lia.
           ++ apply Nat.ltb_ge in E2. apply Nat.ltb_lt in E3. lia.
Qed.

(** the sum returned, for any number of functions with special punishments *)
Lemma eopp_fold pot_p pvalue first params l : forall s,
  let s' := fold_left (punish_eopp pot_p pvalue first params) l s in
  psum s' = psum s + rsumf (fun k => eopp_pen pvalue (params (first k + 1)%nat - params (first k + 3)%nat)) l /\ pinf s' = pinf s.
Proof.
  induction l as [|k l IH]; intros s; cbn [fold_left]; [split; [unfold rsumf; simpl; ring|reflexivity]|].
  destruct (IH (punish_eopp pot_p pvalue first params s k)) as [A B]. cbv zeta in *. rewrite A, B. rewrite rsumf_cons.
  unfold punish_eopp, eopp_pen. destruct (Rlt_dec _ 0); cbn [psum pinf]; split; try reflexivity; ring.
Qed.
Lemma universal_fold pot_p pvalue first params l : forall s, pinf s = false ->
  let s' := fold_left (punish_universal pot_p pvalue first params) l s in
  let x k := Rabs (params (first k + 2)%nat - params (first k + 1)%nat) in
  (pinf s' = true <-> exists k, In k l /\ x k = 0) /\
  (pinf s' = false -> psum s' = psum s + rsumf (fun k => universal_pen pvalue (x k)) l).
Proof.
  assert (ST : forall l s, pinf s = true -> pinf (fold_left (punish_universal pot_p pvalue first params) l s) = true).
  { clear. induction l as [|k l IH]; intros s H; [exact H|]. cbn [fold_left]. apply IH. unfold punish_universal.
    destruct (Rlt_dec _ _); [|exact H]. destruct (Req_EM_T _ 0); [reflexivity|exact H]. }
  induction l as [|k l IH]; intros s H; cbn [fold_left].
  - split; [split; [rewrite H; discriminate|intros (k & [] & _)]|]. intros _. unfold rsumf. simpl. ring.
  - cbv zeta. set (x := fun k => Rabs (params (first k + 2)%nat - params (first k + 1)%nat)).
    destruct (Req_dec (x k) 0) as [Z|Z].
    + assert (P : pinf (punish_universal pot_p pvalue first params s k) = true).
      { unfold punish_universal. fold (x k). destruct (Rlt_dec (x k) (/ 10 ^ 6)) as [_|N].
        - destruct (Req_EM_T (x k) 0); [reflexivity|contradiction].
        - exfalso. apply N. rewrite Z. apply Rinv_0_lt_compat. apply pow_lt. lra. }
      rewrite (ST _ _ P). split; [split; [intros _; exists k; split; [now left|exact Z]|reflexivity]|discriminate].
    + assert (P : pinf (punish_universal pot_p pvalue first params s k) = false).
      { unfold punish_universal. fold (x k). destruct (Rlt_dec (x k) (/ 10 ^ 6)); [|exact H].
        destruct (Req_EM_T (x k) 0); [contradiction|exact H]. }
      destruct (IH _ P) as [A B]. cbv zeta in A, B. fold x in A, B. split.
      * rewrite A. split; [intros (k' & I & E); exists k'; split; [now right|exact E]|].
        intros (k' & [<-|I] & E); [contradiction|]. exists k'. split; assumption.
      * intros F. specialize (B F). etransitivity; [exact B|]. rewrite rsumf_cons. change (Rabs (params (first k + 2)%nat - params (first k + 1)%nat)) with (x k).
        unfold punish_universal, universal_pen. fold (x k). destruct (Rlt_dec (x k) (/ 10 ^ 6)); cbn [psum]; [|ring].
        destruct (Req_EM_T (x k) 0); [contradiction|]. cbn [psum]. ring.
Qed.

Lemma outside_nonneg v lo hi : 0 <= outside v lo hi.
Proof. apply Rmax_l. Qed.
Lemma outside_zero v lo hi : outside v lo hi = 0 <-> lo <= v <= hi.
Proof.
  unfold outside. split.
  - intros E. pose proof (Rmax_r 0 (Rmax (lo - v) (v - hi))) as A. rewrite E in A.
    pose proof (Rmax_l (lo - v) (v - hi)). pose proof (Rmax_r (lo - v) (v - hi)). lra.
  - intros [A B]. apply Rmax_left. apply Rmax_lub; lra.
Qed.

Section Pun.
Variables (ndim : nat) (idx : nat -> nat) (pmin pmax : nat -> R) (par_p pot_p : nat) (pvalue : R) (first : nat -> nat).
Hypothesis B : forall i, (i < ndim)%nat -> pmin i <= pmax i.

(** without functions that have special punishments *)
Lemma punish_bounds_only params forces :
  let s := apot_punish ndim idx pmin pmax par_p pot_p pvalue first [] [] params forces in
  psum s = rsumf (fun i => APOT_PUNISH * (outside (params (idx i)) (pmin i) (pmax i) * outside (params (idx i)) (pmin i) (pmax i))) (seq 0 ndim) /\
  (psum s = 0 <-> forall i, (i < ndim)%nat -> pmin i <= params (idx i) <= pmax i) /\ 0 <= psum s.
Proof.
  unfold apot_punish. cbn [fold_left]. destruct (bounds_sum ndim idx pmin pmax par_p params forces B) as (E & _ & _).
  cbv zeta in E. rewrite E.
  assert (P : 0 < APOT_PUNISH) by (unfold APOT_PUNISH; assert (0 < 10 ^ 6) by (apply pow_lt; lra); lra).
  set (f := fun i => APOT_PUNISH * (outside (params (idx i)) (pmin i) (pmax i) * outside (params (idx i)) (pmin i) (pmax i))).
  assert (F : forall i, 0 <= f i) by (intros i; unfold f; pose proof (outside_nonneg (params (idx i)) (pmin i) (pmax i)); apply Rmult_le_pos; [lra|nra]).
  split; [reflexivity|]. split.
  - assert (G : forall l, rsumf f l = 0 <-> forall i, In i l -> f i = 0).
    { induction l as [|a l IH].
      - split; [intros _ i []|reflexivity].
      - rewrite rsumf_cons. assert (0 <= rsumf f l) by (apply rsumf_nonneg; intros; apply F). pose proof (F a).
        split; [intros S i [<-|I]; [lra|]; apply (proj1 IH); [lra|exact I]|].
        intros A. rewrite (proj2 IH) by (intros i I; apply A; now right). rewrite (A a) by (now left). ring. }
    rewrite G. split.
    + intros A i Hi. apply outside_zero. assert (I : In i (seq 0 ndim)) by (apply in_seq; lia). specialize (A i I). unfold f in A.
      apply Rmult_integral in A. destruct A as [A|A]; [lra|]. apply Rmult_integral in A. tauto.
    + intros A i Hi. apply in_seq in Hi. unfold f. rewrite (proj2 (outside_zero _ _ _) (A i ltac:(lia))). ring.
  - apply rsumf_nonneg. intros; apply F.
Qed.
(** in general *)
Lemma punish_sum eopps universals params forces :
  (forall k, In k universals -> params (first k + 2)%nat <> params (first k + 1)%nat) ->
  let s := apot_punish ndim idx pmin pmax par_p pot_p pvalue first eopps universals params forces in
  pinf s = false /\
  psum s = rsumf (fun i => APOT_PUNISH * (outside (params (idx i)) (pmin i) (pmax i) * outside (params (idx i)) (pmin i) (pmax i))) (seq 0 ndim)
    + rsumf (fun k => eopp_pen pvalue (params (first k + 1)%nat - params (first k + 3)%nat)) eopps
    + rsumf (fun k => universal_pen pvalue (Rabs (params (first k + 2)%nat - params (first k + 1)%nat))) universals.
Proof.
  intros U. unfold apot_punish.
  destruct (bounds_sum ndim idx pmin pmax par_p params forces B) as (E & I & _). cbv zeta in E, I.
  set (s1 := for_up 0 ndim (punish_bounds idx pmin pmax par_p params) (mk_punished 0 forces false)) in *. clearbody s1.
  destruct (eopp_fold pot_p pvalue first params eopps s1) as [E2 I2]. cbv zeta in E2, I2.
  set (s2 := fold_left (punish_eopp pot_p pvalue first params) eopps s1) in *. clearbody s2.
  rewrite I in I2. destruct (universal_fold pot_p pvalue first params universals s2 I2) as [P1 P2]. cbv zeta in P1, P2.
  assert (N : pinf (fold_left (punish_universal pot_p pvalue first params) universals s2) = false).
  { apply not_true_is_false. intros T. apply (proj1 P1) in T. destruct T as (k & Hk & Z). apply (U k Hk).
    destruct (Req_dec (params (first k + 2)%nat - params (first k + 1)%nat) 0) as [Y|Y]; [lra|]. now apply Rabs_no_R0 in Y. }
  cbv zeta. split; [exact N|]. rewrite (P2 N), E2, E. reflexivity.
Qed.
End Pun.

(** the punishment of the eopp function vanishes and decreases where it should grow *)
Lemma eopp_unpunished : exists (params : arr) (k : nat),
  params (k + 1)%nat < params (k + 3)%nat /\
  forall ndim idx pmin pmax par_p pot_p pvalue forces, (forall i, (i < ndim)%nat -> pmin i <= params (idx i) <= pmax i) ->
  psum (apot_punish ndim idx pmin pmax par_p pot_p pvalue (fun _ => k) [O] [] params forces) = 0.
Proof.
  exists (fun i => if Nat.eqb i 3 then 2 else 1), O. split; [simpl; lra|].
  intros ndim idx pmin pmax par_p pot_p pvalue forces H. set (params := fun i : nat => if Nat.eqb i 3 then 2 else 1) in *.
  assert (B : forall i, (i < ndim)%nat -> pmin i <= pmax i) by (intros i Hi; specialize (H i Hi); lra).
  destruct (punish_sum ndim idx pmin pmax par_p pot_p pvalue (fun _ => O) B [O] [] params forces) as [_ E]; [intros k []|].
  cbv zeta in E. rewrite E.
  assert (Z : rsumf (fun i => APOT_PUNISH * (outside (params (idx i)) (pmin i) (pmax i) * outside (params (idx i)) (pmin i) (pmax i))) (seq 0 ndim) = 0).
  { apply rsumf_zero. intros i Hi. apply in_seq in Hi. assert (Y : outside (params (idx i)) (pmin i) (pmax i) = 0) by (apply outside_zero, H; lia). rewrite Y. ring. }
  rewrite Z. rewrite rsumf_cons. unfold eopp_pen. change (params (0 + 1)%nat) with 1. change (params (0 + 3)%nat) with 2.
  unfold rsumf. simpl. destruct (Rlt_dec (1 - 2) 0); [ring|lra].
Qed.

(** entries of the deviation vector keep what an earlier evaluation has left *)
Lemma stale : exists (p1 p2 : arr) (par_p : nat),
  let run p f := pforces (apot_punish 1 (fun _ => O) (fun _ => 0) (fun _ => 1) par_p 5 1 (fun _ => O) [] [] p f) in
  psum (apot_punish 1 (fun _ => O) (fun _ => 0) (fun _ => 1) par_p 5 1 (fun _ => O) [] [] p2 (fun _ => 0)) = 0 /\
  run p2 (fun _ => 0) par_p = 0 /\ run p2 (run p1 (fun _ => 0)) par_p <> 0.
Proof.
  exists (fun _ => 2), (fun _ => 0), O. cbv zeta. unfold apot_punish. cbn [fold_left for_up].
  assert (B : forall i : nat, (i < 1)%nat -> (fun _ : nat => 0) i <= (fun _ : nat => 1) i) by (intros; lra).
  assert (O0 : outside 0 0 1 = 0) by (apply outside_zero; lra).
  assert (O2 : outside 2 0 1 = 1) by (unfold outside; rewrite (Rmax_right (0 - 2)) by lra; rewrite Rmax_right by lra; ring).
  destruct (bounds_sum 1 (fun _ => O) (fun _ => 0) (fun _ => 1) 0 (fun _ => 0) (fun _ => 0) B) as (A1 & _ & A3).
  cbv zeta in A1, A3. split; [|split].
  - rewrite A1. unfold rsumf. simpl. rewrite O0. ring.
  - rewrite A3. simpl. rewrite O0. destruct (Rlt_dec 0 0); [lra|reflexivity].
  - destruct (bounds_sum 1 (fun _ => O) (fun _ => 0) (fun _ => 1) 0 (fun _ => 2) (fun _ => 0) B) as (_ & _ & C3). cbv zeta in C3.
    destruct (bounds_sum 1 (fun _ => O) (fun _ => 0) (fun _ => 1) 0 (fun _ => 0)
      (pforces (for_up 0 1 (punish_bounds (fun _ => O) (fun _ => 0) (fun _ => 1) 0 (fun _ => 2)) (mk_punished 0 (fun _ => 0) false))) B) as (_ & _ & D3).
    cbv zeta in D3. rewrite D3. simpl Nat.leb. simpl Nat.ltb. cbn [andb]. rewrite O0. destruct (Rlt_dec 0 0); [lra|].
    rewrite C3. simpl. rewrite O2. destruct (Rlt_dec 0 1); [|lra]. unfold APOT_PUNISH. assert (0 < 10 ^ 6) by (apply pow_lt; lra). lra.
Qed.
(** an entry that is written reflects the current parameters *)
Lemma written_entries ndim idx pmin pmax par_p pot_p pvalue first params forces i :
  (forall i, (i < ndim)%nat -> pmin i <= pmax i) -> (i < ndim)%nat ->
  let f := pforces (apot_punish ndim idx pmin pmax par_p pot_p pvalue first [] [] params forces) in
  (~ pmin i <= params (idx i) <= pmax i -> f (par_p + i)%nat = APOT_PUNISH * (outside (params (idx i)) (pmin i) (pmax i) * outside (params (idx i)) (pmin i) (pmax i))) /\
  (pmin i <= params (idx i) <= pmax i -> f (par_p + i)%nat = forces (par_p + i)%nat).
Proof.
  intros B Hi. unfold apot_punish. cbn [fold_left]. destruct (bounds_sum ndim idx pmin pmax par_p params forces B) as (_ & _ & E).
  cbv zeta in *. specialize (E (par_p + i)%nat). rewrite E.
  replace (Nat.leb par_p (par_p + i)) with true by (symmetry; apply Nat.leb_le; lia).
  replace (Nat.ltb (par_p + i) (par_p + ndim)) with true by (symmetry; apply Nat.ltb_lt; lia). cbn [andb].
  replace (par_p + i - par_p)%nat with i by lia. cbv zeta.
  pose proof (outside_nonneg (params (idx i)) (pmin i) (pmax i)). pose proof (outside_zero (params (idx i)) (pmin i) (pmax i)).
  destruct (Rlt_dec 0 (outside (params (idx i)) (pmin i) (pmax i))) as [L|L].
  - split; [reflexivity|]. intros I. apply (proj2 H0) in I. lra.
  - split; [intros I; exfalso; apply I, (proj1 H0); lra|reflexivity].
Qed.
