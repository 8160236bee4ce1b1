(** Loops over atoms and neighbours that add forces to an atom and its neighbour. *)
From Coq Require Import Reals ZArith List Bool Lia Lra.
From Verif Require Import Vec NbrModel LoopUtil PairModel PairProof.
Import ListNotations.
Local Open Scope R_scope.

(** What the body of a loop over neighbours does: force T, energy P, stress if [son]. *)
Record body_spec (body : nat -> dev -> neigh -> dev) (ci : nat) (T : nat -> neigh -> vec) (P : nat -> neigh -> R) (son : bool) : Prop := mk_bs {
  bs_frc : forall i s e a, frc (body i s e) a =
    vsub (vadd (frc s a) (if Nat.eqb a i then T i e else v0)) (if Nat.eqb (n_nr e) a then T i e else v0);
  bs_en : forall i s e, en (body i s e) ci = en s ci + P i e;
  bs_en' : forall i s e d, d <> ci -> en (body i s e) d = en s d;
  bs_str : forall i s e d k, str (body i s e) d k = if (Nat.eqb d ci && Nat.ltb k 6 && son)%bool then str s d k - stress_of (n_dist e) (T i e) k else str s d k;
  bs_err : forall i s e, err (body i s e) = err s }.

Section Loop.
Variables (body : nat -> dev -> neigh -> dev) (ci : nat) (T : nat -> neigh -> vec) (P : nat -> neigh -> R) (son : bool).
Hypothesis BS : body_spec body ci T P son.
Definition gto (a i : nat) (e : neigh) : vec := if Nat.eqb (n_nr e) a then T i e else v0.

Lemma fold_spec : forall i l s, let s' := fold_left (body i) l s in
  (forall a, frc s' a = vsub (vadd (frc s a) (if Nat.eqb a i then vsumf (T i) l else v0)) (vsumf (gto a i) l)) /\
  en s' ci = en s ci + rsumf (P i) l /\ (forall d, d <> ci -> en s' d = en s d) /\
  (forall d k, str s' d k = if (Nat.eqb d ci && Nat.ltb k 6 && son)%bool then str s d k - rsumf (fun e => stress_of (n_dist e) (T i e) k) l else str s d k) /\
  err s' = err s.
Proof.
  intros i. induction l as [|e l IH]; intros s.
  - cbn [fold_left]. cbv zeta. split; [|split; [|split; [auto|split; [|auto]]]].
    + intros a. change (vsumf (T i) []) with v0. change (vsumf (gto a i) []) with v0. destruct (Nat.eqb a i); vring.
    + unfold rsumf; simpl. ring.
    + intros d k. destruct (_ && _)%bool; auto. unfold rsumf; simpl. ring.
  - cbv zeta. cbn [fold_left]. destruct (IH (body i s e)) as (F & E & E2 & S & R). split; [|split; [|split; [|split]]].
    + intros a. rewrite F, (bs_frc _ _ _ _ _ BS), !vsumf_cons. unfold gto at 2. destruct (Nat.eqb a i); vring.
    + rewrite E, (bs_en _ _ _ _ _ BS), rsumf_cons. ring.
    + intros d D. rewrite E2, (bs_en' _ _ _ _ _ BS); auto.
    + intros d k. rewrite S, (bs_str _ _ _ _ _ BS), rsumf_cons. destruct (_ && _)%bool; [ring|auto].
    + rewrite R. apply (bs_err _ _ _ _ _ BS).
Qed.

Variable c : conf.
Notation lo := (cnfstart c).
Notation hi := (cnfstart c + inconf c)%nat.
Hypothesis ORD : ordered c.
Definition gown (a : nat) : vec := vsumf (T a) (nb c a).
Definition ggot (i a : nat) : vec := vsumf (fun k => vsumf (gto a k) (nb c k)) (seq lo (i - lo)).
Definition gen (i : nat) : R := rsumf (fun k => rsumf (P k) (nb c k)) (seq lo (i - lo)).
Definition gstr (k i : nat) : R := rsumf (fun j => rsumf (fun e => stress_of (n_dist e) (T j e) k) (nb c j)) (seq lo (i - lo)).

Lemma ggot_S : forall i a, (lo <= i)%nat -> ggot (S i) a = vadd (ggot i a) (vsumf (gto a i) (nb c i)).
Proof. intros i a H. unfold ggot. rewrite seq_snoc by auto. rewrite vsumf_app. rewrite vsumf_cons. f_equal. apply vec_eq; simpl; unfold rsumf; simpl; ring. Qed.
Lemma gen_S : forall i, (lo <= i)%nat -> gen (S i) = gen i + rsumf (P i) (nb c i).
Proof. intros i H. unfold gen. rewrite seq_snoc, rsumf_snoc by auto. auto. Qed.
Lemma gstr_S : forall k i, (lo <= i)%nat -> gstr k (S i) = gstr k i + rsumf (fun e => stress_of (n_dist e) (T i e) k) (nb c i).
Proof. intros k i H. unfold gstr. rewrite seq_snoc, rsumf_snoc by auto. auto. Qed.
Lemma ggot_lo : forall a, ggot lo a = v0.
Proof. intros. unfold ggot. rewrite Nat.sub_diag. auto. Qed.
Lemma gen_lo : gen lo = 0.
Proof. unfold gen. rewrite Nat.sub_diag. auto. Qed.
Lemma gstr_lo : forall k, gstr k lo = 0.
Proof. intros. unfold gstr. rewrite Nat.sub_diag. auto. Qed.
Lemma gto_zero : forall a k, (lo <= k < hi)%nat -> (a < k)%nat \/ (hi <= a)%nat -> vsumf (gto a k) (nb c k) = v0.
Proof.
  intros a k Hk Ha. apply vsumf_zero. intros e He. unfold gto. destruct (Nat.eqb_spec (n_nr e) a); auto. pose proof (ORD k e Hk He). lia.
Qed.
Lemma ggot_done : forall i a, (lo <= a < hi)%nat -> (a < i)%nat -> (i <= hi)%nat -> ggot i a = ggot hi a.
Proof.
  intros i a Ha L U. remember (hi - i)%nat as d eqn:D. revert i L U D. induction d; intros i L U D.
  - f_equal. lia.
  - rewrite <- (IHd (S i)) by lia. rewrite ggot_S by lia. rewrite gto_zero by lia. vring.
Qed.
Lemma ggot_out : forall i a, (lo <= i <= hi)%nat -> (a < lo)%nat \/ (hi <= a)%nat -> ggot i a = v0.
Proof. intros i a Hi Ha. apply vsumf_zero. intros k K. apply in_seq in K. apply gto_zero; lia. Qed.

(** loops that score the forces on atom i right after its neighbours *)
Variable bld : build.
Hypothesis UF : uf c = true.
Definition gfinal (base : nat -> vec) (a : nat) : vec := scl bld c a (vsub (vadd (base a) (gown a)) (ggot hi a)).
Definition gscore (base : nat -> vec) (a : nat) : R :=
  if (negb (CONTRIB bld) || contrib c a)%bool then conf_weight c * sqv (gfinal base a) else 0.
Definition satom (i : nat) (s : dev) : dev := score_atom bld c i (fold_left (body i) (nb c i) s).

Theorem scored_loop : forall s0, let s := for_up lo hi satom s0 in
  (forall a, (a < lo)%nat \/ (hi <= a)%nat -> frc s a = frc s0 a) /\
  (forall a, (lo <= a < hi)%nat -> frc s a = gfinal (frc s0) a) /\
  en s ci = en s0 ci + gen hi /\ (forall d, d <> ci -> en s d = en s0 d) /\
  (forall d k, str s d k = if (Nat.eqb d ci && Nat.ltb k 6 && son)%bool then str s0 d k - gstr k hi else str s0 d k) /\
  err s = err s0 + rsumf (gscore (frc s0)) (seq lo (inconf c)).
Proof.
  intros s0. cbv zeta.
  pose (Q := fun i s => 
    (forall a, (a < lo)%nat \/ (hi <= a)%nat -> frc s a = frc s0 a) /\
    (forall a, (lo <= a < i)%nat -> frc s a = gfinal (frc s0) a) /\
    (forall a, (i <= a < hi)%nat -> frc s a = vsub (frc s0 a) (ggot i a)) /\
    en s ci = en s0 ci + gen i /\ (forall d, d <> ci -> en s d = en s0 d) /\
    (forall d k, str s d k = if (Nat.eqb d ci && Nat.ltb k 6 && son)%bool then str s0 d k - gstr k i else str s0 d k) /\
    err s = err s0 + rsumf (gscore (frc s0)) (seq lo (i - lo))).
  assert (H : Q hi (for_up lo hi satom s0)).
  { apply (for_up_inv Q); [lia| |].
    - unfold Q. split; [auto|]. split; [intros; lia|]. split; [intros a _; rewrite ggot_lo; vring|]. split; [rewrite gen_lo; ring|]. split; [auto|]. split.
      + intros d k. destruct (_ && _)%bool; auto. rewrite gstr_lo. ring.
      + rewrite Nat.sub_diag. unfold rsumf; simpl. ring.
    - intros i s Hi (A & B & C & E & E2 & S & R). unfold satom.
      destruct (fold_spec i (nb c i) s) as (F1 & N1 & N2 & S1 & R1). set (s1 := fold_left _ (nb c i) s) in *.
      assert (FR : forall a, frc (score_atom bld c i s1) a = if Nat.eqb a i then scl bld c i (frc s1 i) else frc s1 a).
      { intros a. unfold score_atom, scl. rewrite UF; simpl.
        destruct (FWEIGHT bld); simpl; unfold setf; destruct (Nat.eqb_spec a i) as [->|]; auto. }
      assert (EN : en (score_atom bld c i s1) = en s1) by (unfold score_atom; rewrite UF; auto).
      assert (STR : str (score_atom bld c i s1) = str s1) by (unfold score_atom; rewrite UF; auto).
      assert (FI : frc (score_atom bld c i s1) i = gfinal (frc s0) i).
      { rewrite FR, Nat.eqb_refl, F1. unfold gfinal. rewrite <- (ggot_done (Datatypes.S i) i) by lia. rewrite ggot_S by lia.
        rewrite (C i) by lia. rewrite Nat.eqb_refl. unfold gown. f_equal. vring. }
      unfold Q. split; [|split; [|split; [|split; [|split; [|split]]]]].
      + intros a Ha. rewrite FR. destruct (Nat.eqb_spec a i); [lia|]. rewrite F1, A by auto. 
        destruct (Nat.eqb_spec a i); [lia|]. rewrite gto_zero by lia. vring.
      + intros a Ha. destruct (Nat.eq_dec a i) as [->|N]; [exact FI|]. rewrite FR. destruct (Nat.eqb_spec a i); [lia|]. rewrite F1, B by lia.
        destruct (Nat.eqb_spec a i); [lia|]. rewrite gto_zero by lia. vring.
      + intros a Ha. rewrite FR. destruct (Nat.eqb_spec a i); [lia|]. rewrite F1, C by lia. 
        destruct (Nat.eqb_spec a i); [lia|]. rewrite ggot_S by lia. vring.
      + rewrite EN, N1, E, gen_S by lia. ring.
      + intros d D. rewrite EN, N2, E2; auto.
      + intros d k. rewrite STR, S1, S, gstr_S by lia. destruct (_ && _)%bool; auto. ring.
      + rewrite seq_snoc by lia. rewrite rsumf_snoc.
        assert (G : err (score_atom bld c i s1) = err s1 + gscore (frc s0) i).
        { unfold gscore. rewrite <- FI, FR, Nat.eqb_refl. unfold score_atom, scl. rewrite UF; simpl. 
          destruct (negb (CONTRIB bld) || contrib c i)%bool; simpl; [|ring]. destruct (FWEIGHT bld); rewrite ?setf_eq; ring. }
        rewrite G, R1, R. ring. }
  destruct H as (A & B & _ & E & E2 & S & R). replace (hi - lo)%nat with (inconf c) in R by lia. auto 10.
Qed.
End Loop.

(** The pair part *)
Section Pair.
Variables (bld : build) (phi dphi : nat -> nat -> R -> R) (in_range : nat -> nat -> R -> bool) (ci : nat) (c : conf).
Definition pT (i : nat) (e : neigh) : vec := if uf c then T dphi in_range c i e else v0.
Lemma pair_body_spec : body_spec (neighbor_body bld phi dphi in_range ci c) ci pT (P phi in_range c) (STRESS bld && us c).
Proof.
  constructor.
  - intros i s e a. unfold neighbor_body, pT, T, wt. destruct (in_range _ _ _).
    + destruct (uf c); simpl; [rewrite scatter_spec; auto|]. destruct (Nat.eqb a i), (Nat.eqb (n_nr e) a); vring.
    + destruct (uf c), (Nat.eqb a i), (Nat.eqb (n_nr e) a); vring.
  - intros i s e. unfold neighbor_body, P, wt. destruct (in_range _ _ _); [|ring]. destruct (uf c); simpl; apply setf_eq.
  - intros i s e d D. unfold neighbor_body. destruct (in_range _ _ _); auto. destruct (uf c); simpl; apply setf_neq; auto.
  - intros i s e d k. unfold neighbor_body, pT, T, wt. destruct (in_range _ _ _).
    + destruct (uf c); simpl.
      * destruct (STRESS bld), (us c); simpl; rewrite ?andb_false_r; simpl; auto.
        unfold setf. destruct (Nat.eqb_spec d ci) as [->|]; simpl; auto. destruct (Nat.ltb k 6); simpl; auto.
      * rewrite stress_v0. destruct (_ && _)%bool; [ring|auto].
    + destruct (uf c); rewrite stress_v0; destruct (_ && _)%bool; auto; ring.
  - intros i s e. unfold neighbor_body. destruct (in_range _ _ _); auto. destruct (uf c); auto.
Qed.
End Pair.

(** Energy and stress of a configuration are scored last. *)
Section Tail.
Variables (bld : build) (eweight sweight : R) (ci : nat) (c : conf).
Lemma tail_spec : forall d, let s := score_stress bld sweight ci c (score_energy eweight ci c d) in
  frc s = frc d /\ en s ci = en d ci / INR (inconf c) - energy_0 c /\ (forall x, x <> ci -> en s x = en d x) /\
  (forall x k, str s x k = if (Nat.eqb x ci && Nat.ltb k 6 && stress_on bld c)%bool then str d ci k / conf_vol c - stress_0 c k else str d x k) /\
  err s = err d + conf_weight c * eweight * sq (en s ci) +
    (if stress_on bld c then rsumf (fun k => conf_weight c * sweight * sq (str s ci k)) (seq 0 6) else 0).
Proof.
  intros d. cbv zeta. unfold score_stress. fold (stress_on bld c).
  set (s1 := score_energy eweight ci c d).
  assert (E1 : en s1 ci = en d ci / INR (inconf c) - energy_0 c) by (unfold s1, score_energy; simpl; apply setf_eq).
  assert (E2 : forall x, x <> ci -> en s1 x = en d x) by (intros x X; unfold s1, score_energy; simpl; apply setf_neq; auto).
  assert (R1 : err s1 = err d + conf_weight c * eweight * sq (en s1 ci)) by (rewrite E1; unfold s1, score_energy; simpl; auto).
  destruct (stress_on bld c).
  - destruct (stress_loop sweight ci c s1) as (F & E & S & R). set (s2 := for_up 0 6 (score_stress_comp sweight ci c) s1) in *. clearbody s2.
    rewrite F, E. split; [auto|]. split; [auto|]. split; [auto|]. split.
    + intros x k. rewrite S, andb_true_r. auto.
    + rewrite R, R1. f_equal. apply rsumf_ext. intros k K. apply in_seq in K. rewrite S, Nat.eqb_refl. destruct (Nat.ltb_spec k 6); [auto|lia].
  - split; [auto|]. split; [auto|]. split; [auto|]. split.
    + intros x k. rewrite andb_false_r. auto.
    + rewrite R1. ring.
Qed.
End Tail.
