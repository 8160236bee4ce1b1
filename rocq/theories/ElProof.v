(** The electrostatic force routine: charges; the loops over neighbours only add. *)
From Coq Require Import Reals ZArith List Bool Lia Lra.
From Verif Require Import Vec NbrModel NbrProof2 LoopUtil PairModel PairProof ForceLoop AddProof AddProof2 FuncModel ElModel.
Import ListNotations.
Local Open Scope R_scope.

Lemma nz_true : forall x, nz x = true <-> x <> 0.
Proof. intros x. unfold nz. destruct (Req_EM_T x 0); split; intros; auto; try discriminate; contradiction. Qed.
Lemma nz_false : forall x, nz x = false <-> x = 0.
Proof. intros x. unfold nz. destruct (Req_EM_T x 0); split; intros; auto; try discriminate; contradiction. Qed.

(** ** Charges *)
Lemma sum_charges_spec : forall ratio q n, sum_charges ratio q n = rsumf (fun i => ratio i * q i) (seq 0 n).
Proof.
  intros ratio q n. unfold sum_charges.
  pose (Q := fun i (s : R) => s = rsumf (fun i => ratio i * q i) (seq 0 i)).
  change (Q n (for_up 0 n (fun i s => if nz (q i) then s + ratio i * q i else s) 0)). apply (for_up_inv Q); [lia|reflexivity|].
  intros i s Hi E. unfold Q. rewrite seq_S, rsumf_snoc. simpl (0 + i)%nat. rewrite <- E.
  destruct (nz (q i)) eqn:Z; auto. apply nz_false in Z. rewrite Z. ring.
Qed.
Theorem charges_spec : forall ntypes ratio q, (0 < ntypes)%nat -> ratio (ntypes - 1)%nat <> 0 ->
  (forall i, (i < ntypes - 1)%nat -> charges ntypes ratio q i = q i) /\
  rsumf (fun i => ratio i * charges ntypes ratio q i) (seq 0 ntypes) = 0.
Proof.
  intros ntypes ratio q N R0.
  assert (A : forall i, (i < ntypes - 1)%nat -> charges ntypes ratio q i = q i).
  { intros i Hi. unfold charges. destruct (Nat.eqb_spec i (ntypes - 1)); [lia|]. destruct (nz (q i)) eqn:Z; auto. apply nz_false in Z. auto. }
  split; [auto|]. destruct ntypes as [|m]; [lia|]. simpl (S m - 1)%nat in *. rewrite Nat.sub_0_r in *.
  rewrite seq_S, rsumf_snoc. simpl (0 + m)%nat.
  rewrite (rsumf_ext _ (fun i => ratio i * q i)); [|intros i Hi; apply in_seq in Hi; rewrite A by lia; auto].
  unfold charges. simpl (S m - 1)%nat. rewrite Nat.sub_0_r. rewrite Nat.eqb_refl, sum_charges_spec. field. auto.
Qed.

(** ** Bodies of loops over neighbours *)
Lemma ext_body : forall B ci T P T' P' son, body_spec B ci T P son -> (forall i e, T i e = T' i e) -> (forall i e, P i e = P' i e) -> body_spec B ci T' P' son.
Proof.
  intros B ci T P T' P' son [A1 A2 A3 A4 A5] ET EP. constructor; intros; rewrite <- ?ET, <- ?EP; auto.
Qed.
(** energy [x] and force [t] under a condition *)
Lemma cond_spec : forall bld ci c (k : nat -> neigh -> bool) (x : nat -> neigh -> R) (t : nat -> neigh -> vec),
  body_spec (fun i s e => if k i e then (if uf c then push bld ci c i e (t i e) (add_en ci (x i e) s) else add_en ci (x i e) s) else s) ci
    (fun i e => if uf c then (if k i e then t i e else v0) else v0) (fun i e => if k i e then x i e else 0) (STRESS bld && us c).
Proof.
  intros bld ci c k x t. constructor.
  - intros i s e a. destruct (k i e); [|destruct (uf c), (Nat.eqb a i), (Nat.eqb (n_nr e) a); vring].
    destruct (uf c); simpl; [rewrite scatter_spec; auto|]. destruct (Nat.eqb a i), (Nat.eqb (n_nr e) a); vring.
  - intros i s e. destruct (k i e); [|ring]. destruct (uf c); simpl; apply setf_eq.
  - intros i s e b D. destruct (k i e); auto. destruct (uf c); simpl; apply setf_neq; auto.
  - intros i s e b l. destruct (k i e).
    + destruct (uf c); simpl.
      * destruct (STRESS bld), (us c); simpl; rewrite ?andb_false_r; simpl; auto.
        unfold setf. destruct (Nat.eqb_spec b ci) as [->|]; simpl; auto. destruct (Nat.ltb l 6); simpl; auto.
      * rewrite stress_v0. destruct (_ && _)%bool; [ring|auto].
    + destruct (uf c); rewrite stress_v0; destruct (_ && _)%bool; auto; ring.
  - intros i s e. destruct (k i e); auto. destruct (uf c); auto.
Qed.

(** a loop over all atoms and neighbours with such a body *)
Section Adds.
Variables (body : nat -> dev -> neigh -> dev) (ci : nat) (T : nat -> neigh -> vec) (P : nat -> neigh -> R) (son : bool).
Hypothesis BS : body_spec body ci T P son.
Variable c : conf.
Notation lo := (cnfstart c).
Notation hi := (cnfstart c + inconf c)%nat.
Definition bF (a : nat) : vec := vsumf (fun i => vsumf (fun e => vsub (if Nat.eqb a i then T i e else v0) (if Nat.eqb (n_nr e) a then T i e else v0)) (nb c i)) (seq lo (inconf c)).
Definition bE : R := rsumf (fun i => rsumf (P i) (nb c i)) (seq lo (inconf c)).
Definition bS (k : nat) : R := rsumf (fun i => rsumf (fun e => if (Nat.ltb k 6 && son)%bool then - stress_of (n_dist e) (T i e) k else 0) (nb c i)) (seq lo (inconf c)).
Lemma body_adds : adds ci (for_up lo hi (fun i s => fold_left (body i) (nb c i) s)) bF bE bS.
Proof.
  apply adds_up. intros i _.
  apply (adds_fold ci (body i) (fun e a => vsub (if Nat.eqb a i then T i e else v0) (if Nat.eqb (n_nr e) a then T i e else v0)) (P i)
    (fun e k => if (Nat.ltb k 6 && son)%bool then - stress_of (n_dist e) (T i e) k else 0)).
  intros e _. constructor.
  - intros s a. rewrite (bs_frc _ _ _ _ _ BS). vring.
  - intros s b. destruct (Nat.eqb_spec b ci) as [->|N]; [apply (bs_en _ _ _ _ _ BS)|]. rewrite (bs_en' _ _ _ _ _ BS) by auto. ring.
  - intros s b k. rewrite (bs_str _ _ _ _ _ BS). destruct (Nat.eqb b ci), (Nat.ltb k 6), son; simpl; ring.
  - intros s. apply (bs_err _ _ _ _ _ BS).
Qed.
Lemma bF_in : forall a, (lo <= a < hi)%nat ->
  bF a = vsub (vsumf (T a) (nb c a)) (vsumf (fun k => vsumf (fun e => if Nat.eqb (n_nr e) a then T k e else v0) (nb c k)) (seq lo (inconf c))).
Proof.
  intros a Ha.
  assert (Q : forall (pr : vec -> R), (forall v w, pr (vsub v w) = pr v - pr w) -> pr v0 = 0 ->
    rsumf (fun i => rsumf (fun e => pr (vsub (if Nat.eqb a i then T i e else v0) (if Nat.eqb (n_nr e) a then T i e else v0))) (nb c i)) (seq lo (inconf c)) =
    rsumf (fun e => pr (T a e)) (nb c a) - rsumf (fun k => rsumf (fun e => pr (if Nat.eqb (n_nr e) a then T k e else v0)) (nb c k)) (seq lo (inconf c))).
  { intros pr SUB Z.
    rewrite (rsumf_ext _ (fun i => (if Nat.eqb i a then rsumf (fun e => pr (T i e)) (nb c i) else 0) +
        -1 * rsumf (fun e => pr (if Nat.eqb (n_nr e) a then T i e else v0)) (nb c i))).
    - rewrite rsumf_plus, rsumf_scale. rewrite (pick (fun i => rsumf (fun e => pr (T i e)) (nb c i)) a).
      + ring.
      + apply seq_NoDup.
      + apply in_seq. lia.
    - intros i _. rewrite <- rsumf_scale. rewrite (Nat.eqb_sym a i). destruct (Nat.eqb_spec i a) as [->|N].
      + rewrite <- rsumf_plus. apply rsumf_ext. intros e _. rewrite SUB. ring.
      + rewrite Rplus_0_l. apply rsumf_ext. intros e _. rewrite SUB, Z. ring. }
  apply vec_eq; [apply (Q vx)|apply (Q vy)|apply (Q vz)]; auto.
Qed.
Lemma bF_out : ordered c -> forall a, (a < lo)%nat \/ (hi <= a)%nat -> bF a = v0.
Proof.
  intros ORD a Ha. apply vsumf_zero. intros i Hi. apply in_seq in Hi. apply vsumf_zero. intros e He. pose proof (ORD i e ltac:(lia) He).
  destruct (Nat.eqb_spec a i); [lia|]. destruct (Nat.eqb_spec (n_nr e) a); [lia|]. vring.
Qed.
Lemma bS_eq : forall k, bS k = if (Nat.ltb k 6 && son)%bool then - rsumf (fun i => rsumf (fun e => stress_of (n_dist e) (T i e) k) (nb c i)) (seq lo (inconf c)) else 0.
Proof.
  intros k. unfold bS. destruct (_ && _)%bool.
  - transitivity (-1 * rsumf (fun i => rsumf (fun e => stress_of (n_dist e) (T i e) k) (nb c i)) (seq lo (inconf c))); [|ring]. rewrite <- rsumf_scale. apply rsumf_ext. intros i _. rewrite <- rsumf_scale. apply rsumf_ext. intros e _. ring.
  - apply rsumf_zero. intros i _. apply rsumf_zero. auto.
Qed.
End Adds.
