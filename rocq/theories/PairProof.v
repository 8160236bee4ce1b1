(** The pair force routine: closed form of the deviation vector and the error sum. *)
From Coq Require Import Reals ZArith List Bool Lia Lra.
From Verif Require Import Vec NbrModel LoopUtil PairModel.
Import ListNotations.
Local Open Scope R_scope.

Definition vsumf {A} (f : A -> vec) (l : list A) : vec :=
  V3 (rsumf (fun x => vx (f x)) l) (rsumf (fun x => vy (f x)) l) (rsumf (fun x => vz (f x)) l).
Lemma vsumf_cons : forall {A} (f : A -> vec) a l, vsumf f (a :: l) = vadd (f a) (vsumf f l).
Proof. intros. apply vec_eq; simpl; rewrite rsumf_cons; auto. Qed.
Lemma vsumf_zero : forall {A} (f : A -> vec) l, (forall x, In x l -> f x = v0) -> vsumf f l = v0.
Proof. intros A f l H. apply vec_eq; simpl; apply rsumf_zero; intros x X; rewrite H; auto. Qed.
Lemma vsumf_app : forall {A} (f : A -> vec) l m, vsumf f (l ++ m) = vadd (vsumf f l) (vsumf f m).
Proof. intros. apply vec_eq; simpl; apply rsumf_app. Qed.
Lemma vsumf_ext : forall {A} (f g : A -> vec) l, (forall x, In x l -> f x = g x) -> vsumf f l = vsumf g l.
Proof. intros A f g l H. apply vec_eq; simpl; apply rsumf_ext; intros x X; rewrite H; auto. Qed.

Lemma setf_eq : forall {A} (f : nat -> A) i x, setf f i x i = x.
Proof. intros. unfold setf. rewrite Nat.eqb_refl. auto. Qed.
Lemma setf_neq : forall {A} (f : nat -> A) i x k, k <> i -> setf f i x k = f k.
Proof. intros. unfold setf. destruct (Nat.eqb_spec k i); [contradiction|auto]. Qed.

Lemma seq_snoc : forall lo i, (lo <= i)%nat -> seq lo (S i - lo) = seq lo (i - lo) ++ [i].
Proof. intros lo i H. replace (S i - lo)%nat with (S (i - lo)) by lia. rewrite seq_S. do 2 f_equal. lia. Qed.

Lemma rsumf_snoc : forall {A} (f : A -> R) l a, rsumf f (l ++ [a]) = rsumf f l + f a.
Proof. intros. rewrite rsumf_app, rsumf_cons. unfold rsumf at 2; simpl. ring. Qed.

Section Pair.
Variable bld : build.
Variables phi dphi : nat -> nat -> R -> R.
Variable in_range : nat -> nat -> R -> bool.
Variables eweight sweight : R.
Variable cp_energy : nat -> R.
Variable punish : R.
Variable ci : nat.
Variable c : conf.
Notation lo := (cnfstart c).
Notation hi := (cnfstart c + inconf c)%nat.

Definition wt (i : nat) (e : neigh) : R := if Nat.eqb (n_nr e) i then 1 / 2 else 1.
(** energy and force of an entry in the list of atom i *)
Definition P (i : nat) (e : neigh) : R :=
  if in_range (typ c i) (n_type e) (n_r e) then phi (typ c i) (n_type e) (n_r e) * wt i e else 0.
Definition T (i : nat) (e : neigh) : vec :=
  if in_range (typ c i) (n_type e) (n_r e) then vscale (dphi (typ c i) (n_type e) (n_r e) * wt i e) (n_dist_r e) else v0.
Definition ST (k i : nat) (e : neigh) : R := stress_of (n_dist e) (T i e) k.
Definition to (a i : nat) (e : neigh) : vec := if Nat.eqb (n_nr e) a then T i e else v0.

Lemma stress_v0 : forall d k, stress_of d v0 k = 0.
Proof. intros d k. unfold stress_of. destruct k as [|[|[|[|[|]]]]]; simpl; ring. Qed.

Lemma scatter_spec : forall i e t f a,
  scatter i e t f a = vsub (vadd (f a) (if Nat.eqb a i then t else v0)) (if Nat.eqb (n_nr e) a then t else v0).
Proof.
  intros i e t f a. unfold scatter, setf. rewrite (Nat.eqb_sym (n_nr e) a).
  destruct (Nat.eqb_spec a (n_nr e)) as [E|N], (Nat.eqb_spec (n_nr e) i) as [E2|N2], (Nat.eqb_spec a i) as [E3|N3]; try congruence; rewrite <- ?E; rewrite ?E3; try vring.
Qed.

Lemma inner : forall i l s, let s' := fold_left (neighbor_body bld phi dphi in_range ci c i) l s in
  (forall a, frc s' a = if uf c then vsub (vadd (frc s a) (if Nat.eqb a i then vsumf (T i) l else v0)) (vsumf (to a i) l) else frc s a) /\
  en s' ci = en s ci + rsumf (P i) l /\ (forall d, d <> ci -> en s' d = en s d) /\
  (forall d k, str s' d k = if (Nat.eqb d ci && Nat.ltb k 6 && STRESS bld && us c && uf c)%bool then str s d k - rsumf (ST k i) l else str s d k) /\
  err s' = err s.
Proof.
  intros i. induction l as [|e l IH]; intros s.
  - simpl. repeat split.
    + intros a. destruct (uf c); auto. change (vsumf (T i) []) with v0. change (vsumf (to a i) []) with v0. destruct (Nat.eqb a i); vring.
    + unfold rsumf; simpl. ring.
    + intros d k. destruct (_ && _)%bool; auto. unfold rsumf; simpl. ring.
  - cbv zeta. cbn [fold_left]. specialize (IH (neighbor_body bld phi dphi in_range ci c i s e)). cbv zeta in IH.
    destruct IH as (F & E & E2 & S & R).
    set (s1 := neighbor_body bld phi dphi in_range ci c i s e) in *.
    assert (F1 : forall a, frc s1 a = if uf c then vsub (vadd (frc s a) (if Nat.eqb a i then T i e else v0)) (to a i e) else frc s a).
    { intros a. unfold s1, neighbor_body, T, to, T, wt. destruct (in_range _ _ _).
      - destruct (uf c); simpl; auto. rewrite scatter_spec. auto.
      - destruct (uf c); auto. destruct (Nat.eqb a i), (Nat.eqb (n_nr e) a); vring. }
    assert (E1 : en s1 ci = en s ci + P i e).
    { unfold s1, neighbor_body, P, wt. destruct (in_range _ _ _); [|ring]. destruct (uf c); simpl; apply setf_eq. }
    assert (E1' : forall d, d <> ci -> en s1 d = en s d).
    { intros d D. unfold s1, neighbor_body. destruct (in_range _ _ _); auto. destruct (uf c); simpl; apply setf_neq; auto. }
    assert (S1 : forall d k, str s1 d k = if (Nat.eqb d ci && Nat.ltb k 6 && STRESS bld && us c && uf c)%bool then str s d k - ST k i e else str s d k).
    { intros d k. unfold s1, neighbor_body, ST, T, wt. destruct (in_range _ _ _).
      - destruct (uf c); simpl; [|rewrite andb_false_r; auto].
        destruct (STRESS bld), (us c); simpl; rewrite ?andb_false_r; simpl; auto.
        unfold setf. destruct (Nat.eqb_spec d ci) as [->|]; simpl; auto. destruct (Nat.ltb k 6); simpl; auto.
      - rewrite stress_v0. destruct (_ && _)%bool; [ring|auto]. }
    assert (R1 : err s1 = err s) by (unfold s1, neighbor_body; destruct (in_range _ _ _); [destruct (uf c)|]; auto).
    split; [|split; [|split; [|split]]].
    + intros a. rewrite F, F1. destruct (uf c); auto. rewrite !vsumf_cons. destruct (Nat.eqb a i); vring.
    + rewrite E, E1, rsumf_cons. ring.
    + intros d D. rewrite E2, E1'; auto.
    + intros d k. rewrite S, S1, rsumf_cons. destruct (_ && _)%bool; [ring|auto].
    + rewrite R, R1. auto.
Qed.

(** entries of list i point to atoms i, i+1, ... of the configuration *)
Definition ordered : Prop := forall i e, (lo <= i < hi)%nat -> In e (nb c i) -> (i <= n_nr e < hi)%nat.
Hypothesis ORD : ordered.

Definition own (a : nat) : vec := vsumf (T a) (nb c a).
(** what atom a got as a neighbour of the atoms lo..i-1 *)
Definition got (i a : nat) : vec := vsumf (fun k => vsumf (to a k) (nb c k)) (seq lo (i - lo)).
Definition scl (a : nat) (v : vec) : vec := if FWEIGHT bld then vscale (/ (FORCE_EPS + absforce c a)) v else v.
Definition final (a : nat) : vec := if uf c then scl a (vsub (vadd (vscale (-1) (force_0 c a)) (own a)) (got hi a)) else v0.
Definition scored (a : nat) : bool := (uf c && (negb (CONTRIB bld) || contrib c a))%bool.
Definition score (a : nat) : R := if scored a then conf_weight c * sqv (final a) else 0.

Lemma got_S : forall i a, (lo <= i)%nat -> got (S i) a = vadd (got i a) (vsumf (to a i) (nb c i)).
Proof. intros i a H. unfold got. rewrite seq_snoc by auto. rewrite vsumf_app. rewrite vsumf_cons. f_equal. apply vec_eq; simpl; unfold rsumf; simpl; ring. Qed.
Lemma got_done : forall i a, (lo <= a < hi)%nat -> (a < i)%nat -> (i <= hi)%nat -> got i a = got hi a.
Proof.
  intros i a Ha L U. remember (hi - i)%nat as d eqn:D. revert i L U D. induction d; intros i L U D.
  - f_equal. lia.
  - rewrite <- (IHd (S i)) by lia. rewrite got_S by lia. rewrite (vsumf_zero (to a i)); [vring|].
    intros e E. unfold to. destruct (Nat.eqb_spec (n_nr e) a); auto. pose proof (ORD i e ltac:(lia) E). lia.
Qed.

(** state before atom i is treated *)
Definition inv (s0 : dev) (i : nat) (s : dev) : Prop :=
  (forall a, (a < lo)%nat \/ (hi <= a)%nat -> frc s a = frc s0 a) /\
  (forall a, (lo <= a < i)%nat -> frc s a = final a) /\
  (forall a, (i <= a < hi)%nat -> frc s a = if uf c then vsub (vscale (-1) (force_0 c a)) (got i a) else v0) /\
  en s ci = en s0 ci + rsumf (fun k => rsumf (P k) (nb c k)) (seq lo (i - lo)) /\
  (forall d, d <> ci -> en s d = en s0 d) /\
  (forall d k, str s d k = if (Nat.eqb d ci && Nat.ltb k 6 && STRESS bld && us c && uf c)%bool
     then str s0 d k - rsumf (fun j => rsumf (ST k j) (nb c j)) (seq lo (i - lo)) else str s0 d k) /\
  err s = err s0 + rsumf score (seq lo (i - lo)).

Lemma got_lo : forall a, got lo a = v0.
Proof. intros. unfold got. rewrite Nat.sub_diag. auto. Qed.

Lemma inv_step : forall s0 i s, (lo <= i < hi)%nat -> inv s0 i s -> inv s0 (S i) (atom_body bld phi dphi in_range ci c i s).
Proof.
  intros s0 i s Hi (A & B & C & E & E2 & S & R). unfold atom_body.
  destruct (inner i (nb c i) s) as (F1 & N1 & N2 & S1 & R1). set (s1 := fold_left _ (nb c i) s) in *.
  assert (FR : forall a, frc (score_atom bld c i s1) a = if Nat.eqb a i then (if uf c then scl i (frc s1 i) else frc s1 i) else frc s1 a).
  { intros a. unfold score_atom, scl. destruct (uf c); simpl.
    - destruct (FWEIGHT bld); simpl; unfold setf; destruct (Nat.eqb_spec a i) as [->|]; auto.
    - destruct (Nat.eqb_spec a i) as [->|]; auto. }
  assert (EN : en (score_atom bld c i s1) = en s1) by (unfold score_atom; destruct (uf c); auto).
  assert (STR : str (score_atom bld c i s1) = str s1) by (unfold score_atom; destruct (uf c); auto).
  assert (ZERO : forall a k, (lo <= k < hi)%nat -> (a < k)%nat \/ (hi <= a)%nat -> vsumf (to a k) (nb c k) = v0).
  { intros a k Hk Ha. apply vsumf_zero. intros e He. unfold to. destruct (Nat.eqb_spec (n_nr e) a); auto. pose proof (ORD k e Hk He). lia. }
  assert (FI : frc (score_atom bld c i s1) i = final i).
  { rewrite FR, Nat.eqb_refl, F1. unfold final. rewrite <- (got_done (Datatypes.S i) i) by lia. rewrite got_S by lia.
    rewrite (C i) by lia. rewrite Nat.eqb_refl. unfold own. destruct (uf c); auto. f_equal. vring. }
  split; [|split; [|split; [|split; [|split; [|split]]]]].
  - intros a Ha. rewrite FR. destruct (Nat.eqb_spec a i); [lia|]. rewrite F1, A by auto. destruct (uf c); auto.
    destruct (Nat.eqb_spec a i); [lia|]. rewrite ZERO by lia. vring.
  - intros a Ha. destruct (Nat.eq_dec a i) as [->|N]; [exact FI|]. rewrite FR. destruct (Nat.eqb_spec a i); [lia|]. rewrite F1, B by lia.
    unfold final at 2. unfold final. destruct (uf c); auto. destruct (Nat.eqb_spec a i); [lia|]. rewrite ZERO by lia. vring.
  - intros a Ha. rewrite FR. destruct (Nat.eqb_spec a i); [lia|]. rewrite F1, C by lia. destruct (uf c); auto.
    destruct (Nat.eqb_spec a i); [lia|]. rewrite got_S by lia. vring.
  - rewrite EN, N1, E, seq_snoc by lia. rewrite rsumf_snoc. ring.
  - intros d D. rewrite EN, N2, E2; auto.
  - intros d k. rewrite STR, S1, S, seq_snoc by lia. destruct (_ && _)%bool; auto. rewrite rsumf_snoc. ring.
  - rewrite seq_snoc by lia. rewrite rsumf_snoc.
    assert (G : err (score_atom bld c i s1) = err s1 + score i).
    { unfold score, scored. rewrite <- FI, FR, Nat.eqb_refl. unfold score_atom, scl. destruct (uf c); simpl; [|ring].
      destruct (negb (CONTRIB bld) || contrib c i)%bool; simpl; [|ring]. destruct (FWEIGHT bld); rewrite ?setf_eq; ring. }
    rewrite G, R1, R. ring.
Qed.

Lemma reset_spec : forall s, let s' := for_up lo hi (reset_atom c) s in
  (forall a, frc s' a = if (Nat.leb lo a && Nat.ltb a hi)%bool then (if uf c then vscale (-1) (force_0 c a) else v0) else frc s a) /\
  en s' = en s /\ str s' = str s /\ err s' = err s.
Proof.
  intros s. cbv zeta.
  pose (Q := fun i s' => (forall a, frc s' a = if (Nat.leb lo a && Nat.ltb a i)%bool then (if uf c then vscale (-1) (force_0 c a) else v0) else frc s a) /\
     en s' = en s /\ str s' = str s /\ err s' = err s).
  change (Q hi (for_up lo hi (reset_atom c) s)). apply (for_up_inv Q); [lia| |].
  - split; [|auto]. intros a. destruct (Nat.leb_spec lo a), (Nat.ltb_spec a lo); simpl; auto. lia.
  - intros i s1 Hi (A & B & C & D). split; [|auto]. intros a. unfold reset_atom; simpl. unfold setf. destruct (Nat.eqb_spec a i) as [->|N].
    + destruct (Nat.leb_spec lo i), (Nat.ltb_spec i (S i)); simpl; auto; lia.
    + rewrite A. destruct (Nat.leb_spec lo a), (Nat.ltb_spec a i), (Nat.ltb_spec a (S i)); simpl; auto; lia.
Qed.

Lemma stress_loop : forall s, let s' := for_up 0 6 (score_stress_comp sweight ci c) s in
  frc s' = frc s /\ en s' = en s /\
  (forall d k, str s' d k = if (Nat.eqb d ci && Nat.ltb k 6)%bool then str s ci k / conf_vol c - stress_0 c k else str s d k) /\
  err s' = err s + rsumf (fun k => conf_weight c * sweight * sq (str s ci k / conf_vol c - stress_0 c k)) (seq 0 6).
Proof.
  intros s. cbv zeta.
  pose (Q := fun i s' => frc s' = frc s /\ en s' = en s /\
    (forall d k, str s' d k = if (Nat.eqb d ci && Nat.ltb k i)%bool then str s ci k / conf_vol c - stress_0 c k else str s d k) /\
    err s' = err s + rsumf (fun k => conf_weight c * sweight * sq (str s ci k / conf_vol c - stress_0 c k)) (seq 0 i)).
  change (Q 6%nat (for_up 0 6 (score_stress_comp sweight ci c) s)). apply (for_up_inv Q); [lia| |].
  - unfold Q. repeat split; auto.
    + intros d k. rewrite andb_false_r. auto.
    + unfold rsumf; simpl. ring.
  - intros i s1 Hi (A & B & C & D). unfold score_stress_comp, Q; cbn [frc en str err]. split; [auto|]. split; [auto|].
    assert (X : str s1 ci i = str s ci i). { rewrite C. rewrite Nat.ltb_irrefl, andb_false_r. auto. }
    split.
    + intros d k. unfold setf. destruct (Nat.eqb_spec d ci) as [->|]; simpl.
      * destruct (Nat.eqb_spec k i) as [->|N].
        -- destruct (Nat.ltb_spec i (S i)); [|lia]. rewrite X. auto.
        -- rewrite C, Nat.eqb_refl; simpl. destruct (Nat.ltb_spec k i), (Nat.ltb_spec k (S i)); auto; lia.
      * rewrite C. destruct (Nat.eqb_spec d ci); [contradiction|auto].
    + rewrite D, X. rewrite seq_S, rsumf_snoc. simpl. ring.
Qed.

Definition energy_sum : R := rsumf (fun k => rsumf (P k) (nb c k)) (seq lo (inconf c)).
Definition stress_sum (k : nat) : R := rsumf (fun j => rsumf (ST k j) (nb c j)) (seq lo (inconf c)).
Definition final_en : R := (cp_energy ci + energy_sum) / INR (inconf c) - energy_0 c.
Definition stress_on : bool := (STRESS bld && uf c && us c)%bool.
Definition final_str (k : nat) : R := if stress_on then (- stress_sum k) / conf_vol c - stress_0 c k else 0.

Theorem config_closed_form : forall s,
  let s' := config_body bld phi dphi in_range eweight sweight cp_energy ci c s in
  (forall a, (a < lo)%nat \/ (hi <= a)%nat -> frc s' a = frc s a) /\
  (forall a, (lo <= a < hi)%nat -> frc s' a = final a) /\
  en s' ci = final_en /\ (forall d, d <> ci -> en s' d = en s d) /\
  (forall k, (k < 6)%nat -> STRESS bld = true -> str s' ci k = final_str k) /\
  (forall d k, d <> ci -> str s' d k = str s d k) /\
  err s' = err s + rsumf score (seq lo (inconf c)) + conf_weight c * eweight * sq final_en +
    (if stress_on then rsumf (fun k => conf_weight c * sweight * sq (final_str k)) (seq 0 6) else 0).
Proof.
  intros s. cbv zeta. unfold config_body.
  set (s1 := reset_conf bld cp_energy ci c s). 
  destruct (reset_spec s1) as (F2 & E2 & S2 & R2). set (s2 := for_up lo hi (reset_atom c) s1) in *.
  assert (I0 : inv s2 lo s2).
  { split; [auto|]. split; [intros; lia|]. split; [|split; [|split; [auto|split]]].
    - intros a Ha. rewrite F2, got_lo. destruct (Nat.leb_spec lo a), (Nat.ltb_spec a hi); simpl; try lia. destruct (uf c); auto. vring.
    - rewrite Nat.sub_diag. unfold rsumf; simpl. ring.
    - intros d k. destruct (_ && _)%bool; auto. rewrite Nat.sub_diag. unfold rsumf; simpl. ring.
    - rewrite Nat.sub_diag. unfold rsumf; simpl. ring. }
  assert (I1 : inv s2 hi (for_up lo hi (atom_body bld phi dphi in_range ci c) s2)).
  { apply (for_up_inv (inv s2)); [lia|exact I0|]. intros i t Hi Ht. apply inv_step; auto. }
  set (s3 := for_up lo hi (atom_body bld phi dphi in_range ci c) s2) in *.
  destruct I1 as (A & B & _ & E & E' & S & R). replace (hi - lo)%nat with (inconf c) in * by lia.
  assert (E3 : en s3 ci = cp_energy ci + energy_sum).
  { rewrite E, E2. unfold s1, reset_conf; simpl. rewrite setf_eq. unfold energy_sum. ring. }
  set (s4 := score_energy eweight ci c s3).
  assert (E4 : en s4 ci = final_en) by (unfold s4, score_energy; simpl; rewrite setf_eq, E3; auto).
  assert (X : forall d k, (k < 6)%nat -> STRESS bld = true -> str s4 d k = if Nat.eqb d ci then (if stress_on then - stress_sum k else 0) else str s d k).
  { intros d k K ON. unfold s4, score_energy; simpl. rewrite S, S2. unfold s1, reset_conf, stress_on; simpl. rewrite ON.
    unfold setf. destruct (Nat.eqb_spec d ci) as [->|]; simpl; auto. destruct (Nat.ltb_spec k 6); [simpl|lia].
    destruct (us c), (uf c); simpl; auto. unfold stress_sum. ring. }
  assert (Y : forall d k, d <> ci -> str s4 d k = str s d k).
  { intros d k D. unfold s4, score_energy; simpl. rewrite S, S2. destruct (Nat.eqb_spec d ci); [contradiction|]. simpl.
    unfold s1, reset_conf; simpl. destruct (STRESS bld); auto. rewrite setf_neq; auto. }
  assert (R4 : err s4 = err s + rsumf score (seq lo (inconf c)) + conf_weight c * eweight * sq final_en).
  { rewrite <- E4. unfold s4, score_energy; simpl. rewrite setf_eq, R, R2. unfold s1, reset_conf; simpl. auto. }
  assert (F4 : forall a, (a < lo)%nat \/ (hi <= a)%nat -> frc s4 a = frc s a).
  { intros a Ha. unfold s4, score_energy; simpl. rewrite A, F2 by auto. destruct (Nat.leb_spec lo a), (Nat.ltb_spec a hi); simpl; auto; lia. }
  assert (N4 : forall d, d <> ci -> en s4 d = en s d).
  { intros d D. unfold s4, score_energy; simpl. rewrite setf_neq, E', E2 by auto. unfold s1, reset_conf; simpl. apply setf_neq; auto. }
  unfold score_stress. fold stress_on. destruct stress_on eqn:ON.
  - destruct (stress_loop s4) as (F5 & E5 & S5 & R5). set (s5 := for_up 0 6 (score_stress_comp sweight ci c) s4) in *.
    assert (BO : STRESS bld = true) by (unfold stress_on in ON; destruct (STRESS bld); auto).
    assert (FS : forall k, (k < 6)%nat -> str s4 ci k / conf_vol c - stress_0 c k = final_str k).
    { intros k K. rewrite (X ci k K BO), Nat.eqb_refl. unfold final_str. rewrite ON. auto. }
    rewrite F5, E5. split; [auto|]. split; [exact B|]. split; [auto|]. split; [auto|]. split; [|split].
    + intros k K _. rewrite S5, Nat.eqb_refl. destruct (Nat.ltb_spec k 6); [simpl|lia]. apply FS; auto.
    + intros d k D. rewrite S5. destruct (Nat.eqb_spec d ci); [contradiction|simpl; apply Y; auto].
    + rewrite R5, R4. f_equal. apply rsumf_ext. intros k K. apply in_seq in K. rewrite FS by lia. auto.
  - split; [auto|]. split; [exact B|]. split; [auto|]. split; [auto|]. split; [|split].
    + intros k K ONS. rewrite (X ci k K ONS), Nat.eqb_refl. unfold final_str. rewrite ON. auto.
    + auto.
    + rewrite R4. ring.
Qed.
End Pair.
