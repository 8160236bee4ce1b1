(** Densities found by rescale, and their extrema. *)
From Coq Require Import Reals ZArith List Bool Lia Lra.
From Verif Require Import Vec NbrModel NbrProof NbrProof2 NbrProof3 LoopUtil PairModel PairProof PairSpec PairProof2 PairProof3 ForceLoop BondProof
  EamModel EamProof EamSpec EamProof2 EamProof3 RescaleModel.
Import ListNotations.
Local Open Scope R_scope.

Section Scan.
Variable dens : nat -> R -> R.
Variable reach : nat -> R -> bool.

Section One.
Variable c : conf.
Notation lo := (cnfstart c).
Notation hi := (cnfstart c + inconf c)%nat.
Hypothesis ORD : ordered c.
Hypothesis TYP : forall i e, (lo <= i < hi)%nat -> In e (nb c i) -> n_type e = typ c (n_nr e).

Definition sA (i : nat) (e : neigh) : R := if Nat.eqb (n_nr e) i then 0 else if reach (n_type e) (n_r e) then dens (n_type e) (n_r e) else 0.
Definition sB (i : nat) (e : neigh) : R := if Nat.eqb (n_nr e) i then 0 else if reach (typ c i) (n_r e) then dens (typ c i) (n_r e) else 0.

Lemma scan_neighbor_spec : forall i e f a, (i <= n_nr e)%nat -> n_type e = typ c (n_nr e) ->
  scan_neighbor dens reach c i f e a = f a + (if Nat.eqb a i then sA i e else 0) + (if Nat.eqb (n_nr e) a then sB i e else 0).
Proof.
  intros i e f a O TE. unfold scan_neighbor, sA, sB.
  destruct (Nat.ltb_spec i (n_nr e)) as [LT|GE].
  - destruct (Nat.eqb_spec (n_nr e) i); [lia|]. destruct (Nat.eqb_spec (n_type e) (typ c i)) as [E|E].
    + rewrite <- E. destruct (reach (n_type e) (n_r e)).
      * unfold setf. destruct (Nat.eqb_spec a (n_nr e)) as [->|N1].
        -- rewrite Nat.eqb_refl. destruct (Nat.eqb_spec (n_nr e) i); [lia|]. ring.
        -- destruct (Nat.eqb_spec (n_nr e) a); [lia|]. destruct (Nat.eqb_spec a i) as [->|]; ring.
      * destruct (Nat.eqb a i), (Nat.eqb (n_nr e) a); ring.
    + unfold setf. destruct (reach (n_type e) (n_r e)), (reach (typ c i) (n_r e)); cbv zeta beta iota;
      (destruct (Nat.eqb_spec a (n_nr e)) as [->|N2];
       [rewrite ?Nat.eqb_refl; destruct (Nat.eqb_spec (n_nr e) i); [lia|ring]
       |destruct (Nat.eqb_spec (n_nr e) a); [lia|]; destruct (Nat.eqb_spec a i) as [->|]; ring]).
  - destruct (Nat.eqb_spec (n_nr e) i); [|lia]. destruct (Nat.eqb a i), (Nat.eqb (n_nr e) a); ring.
Qed.

Lemma scan_fold : forall i l f a, (forall e, In e l -> (i <= n_nr e)%nat /\ n_type e = typ c (n_nr e)) ->
  fold_left (scan_neighbor dens reach c i) l f a =
  f a + (if Nat.eqb a i then rsumf (sA i) l else 0) + rsumf (fun e => if Nat.eqb (n_nr e) a then sB i e else 0) l.
Proof.
  intros i l. induction l as [|e l IH]; intros f a H.
  - unfold rsumf; simpl. destruct (Nat.eqb a i); ring.
  - cbn [fold_left]. rewrite IH by (intros; apply H; right; auto).
    destruct (H e (or_introl eq_refl)). rewrite scan_neighbor_spec by auto. rewrite !rsumf_cons. destruct (Nat.eqb a i); ring.
Qed.

Definition sgot (i a : nat) : R := rsumf (fun k => rsumf (fun e => if Nat.eqb (n_nr e) a then sB k e else 0) (nb c k)) (seq lo (i - lo)).
Definition sfull (a : nat) : R := rsumf (sA a) (nb c a) + sgot hi a.
Lemma sgot_S : forall i a, (lo <= i)%nat -> sgot (S i) a = sgot i a + rsumf (fun e => if Nat.eqb (n_nr e) a then sB i e else 0) (nb c i).
Proof. intros. unfold sgot. rewrite seq_snoc, rsumf_snoc by auto. auto. Qed.
Lemma sB_zero : forall a k, (lo <= k < hi)%nat -> (a < k)%nat \/ (hi <= a)%nat -> rsumf (fun e => if Nat.eqb (n_nr e) a then sB k e else 0) (nb c k) = 0.
Proof.
  intros a k Hk Ha. apply rsumf_zero. intros e He. destruct (Nat.eqb_spec (n_nr e) a); auto. pose proof (ORD k e Hk He). lia.
Qed.
Lemma sB_self : forall k, rsumf (fun e => if Nat.eqb (n_nr e) k then sB k e else 0) (nb c k) = 0.
Proof. intros k. apply rsumf_zero. intros e He. unfold sB. destruct (Nat.eqb_spec (n_nr e) k); auto. Qed.
Lemma sgot_done : forall i a, (lo <= a < hi)%nat -> (a <= i)%nat -> (lo <= i <= hi)%nat -> sgot i a = sgot hi a.
Proof.
  intros i a Ha L U. remember (hi - i)%nat as d eqn:D. revert i L U D. induction d; intros i L U D.
  - f_equal. lia.
  - rewrite <- (IHd (S i)) by lia. rewrite sgot_S by lia. destruct (Nat.eq_dec a i) as [->|]; [rewrite sB_self|rewrite sB_zero by lia]; ring.
Qed.

Definition extremum (s0 s : scan) (P : nat -> Prop) : Prop :=
  (forall a, P a -> minrho s (typ c a) <= sfull a <= maxrho s (typ c a)) /\
  (forall t, maxrho s0 t <= maxrho s t /\ minrho s t <= minrho s0 t) /\
  (forall t, maxrho s t = maxrho s0 t \/ exists a, P a /\ typ c a = t /\ maxrho s t = sfull a) /\
  (forall t, minrho s t = minrho s0 t \/ exists a, P a /\ typ c a = t /\ minrho s t = sfull a).

Definition sinv (s0 : scan) (i : nat) (s : scan) : Prop :=
  (forall a, (lo <= a < i)%nat -> srho s a = sfull a) /\
  (forall a, (i <= a < hi)%nat -> srho s a = sgot i a) /\
  (forall a, (a < lo)%nat \/ (hi <= a)%nat -> srho s a = srho s0 a) /\
  extremum s0 s (fun a => lo <= a < i)%nat.

Lemma sinv_step : forall s0 i s, (lo <= i < hi)%nat -> sinv s0 i s -> sinv s0 (S i) (scan_atom dens reach c i s).
Proof.
  intros s0 i s Hi (A & B & C & X1 & X2 & X3 & X4). unfold scan_atom.
  assert (K : forall e, In e (nb c i) -> (i <= n_nr e)%nat /\ n_type e = typ c (n_nr e)).
  { intros e He. split; [pose proof (ORD i e Hi He); lia|apply (TYP i e); auto]. }
  pose proof (fun a => scan_fold i (nb c i) (srho s) a K) as F.
  set (f := fold_left (scan_neighbor dens reach c i) (nb c i) (srho s)) in *. clearbody f.
  assert (FI : f i = sfull i).
  { rewrite F, Nat.eqb_refl, B by lia. rewrite sB_self. unfold sfull. rewrite <- (sgot_done i i) by lia. ring. }
  unfold sinv, extremum. cbn [srho maxrho minrho]. split; [|split; [|split]].
  - intros a Ha. destruct (Nat.eq_dec a i) as [->|N]; [exact FI|]. rewrite F, A by lia. destruct (Nat.eqb_spec a i); [lia|]. rewrite sB_zero by lia. ring.
  - intros a Ha. rewrite F, B by lia. destruct (Nat.eqb_spec a i); [lia|]. rewrite sgot_S by lia. ring.
  - intros a Ha. rewrite F, C by lia. destruct (Nat.eqb_spec a i); [lia|]. rewrite sB_zero by lia. ring.
  - rewrite FI. unfold setf. split; [|split; [|split]].
    + intros a Ha. destruct (Nat.eq_dec a i) as [->|N].
      * rewrite Nat.eqb_refl. split; [apply Rmin_r|apply Rmax_r].
      * destruct (X1 a ltac:(lia)) as [U V]. destruct (Nat.eqb_spec (typ c a) (typ c i)) as [E|]; [|auto]. rewrite <- E. split.
        -- eapply Rle_trans; [apply Rmin_l|auto].
        -- eapply Rle_trans; [exact V|apply Rmax_l].
    + intros t. destruct (X2 t) as [U V]. destruct (Nat.eqb_spec t (typ c i)) as [->|]; [|auto]. split.
      * eapply Rle_trans; [exact U|apply Rmax_l].
      * eapply Rle_trans; [apply Rmin_l|auto].
    + intros t. destruct (Nat.eqb_spec t (typ c i)) as [->|].
      * unfold Rmax. destruct (Rle_dec (maxrho s (typ c i)) (sfull i)).
        -- right. exists i. split; [lia|auto].
        -- destruct (X3 (typ c i)) as [E|(a & P & Q & E)]; [left; auto|right; exists a; split; [lia|auto]].
      * destruct (X3 t) as [E|(a & P & Q & E)]; [left; auto|right; exists a; split; [lia|auto]].
    + intros t. destruct (Nat.eqb_spec t (typ c i)) as [->|].
      * unfold Rmin. destruct (Rle_dec (minrho s (typ c i)) (sfull i)).
        -- destruct (X4 (typ c i)) as [E|(a & P & Q & E)]; [left; auto|right; exists a; split; [lia|auto]].
        -- right. exists i. split; [lia|auto].
      * destruct (X4 t) as [E|(a & P & Q & E)]; [left; auto|right; exists a; split; [lia|auto]].
Qed.

Lemma zero_spec : forall s, let s' := for_up lo hi zero_atom s in
  (forall a, srho s' a = if (Nat.leb lo a && Nat.ltb a hi)%bool then 0 else srho s a) /\ maxrho s' = maxrho s /\ minrho s' = minrho s.
Proof.
  intros s. cbv zeta.
  pose (Q := fun i s' => (forall a, srho s' a = if (Nat.leb lo a && Nat.ltb a i)%bool then 0 else srho s a) /\ maxrho s' = maxrho s /\ minrho s' = minrho s).
  change (Q hi (for_up lo hi zero_atom s)). apply (for_up_inv Q); [lia| |].
  - unfold Q. split; auto. intros a. destruct (Nat.leb_spec lo a), (Nat.ltb_spec a lo); try lia; auto.
  - intros i s1 Hi (A & B & C). unfold Q, zero_atom. cbn [srho maxrho minrho]. split; auto. intros a. unfold setf.
    destruct (Nat.eqb_spec a i) as [->|].
    + destruct (Nat.leb_spec lo i), (Nat.ltb_spec i (S i)); try lia; auto.
    + rewrite A. destruct (Nat.leb_spec lo a), (Nat.ltb_spec a i), (Nat.ltb_spec a (S i)); try lia; auto.
Qed.

Theorem scan_config_spec : forall s, let s' := scan_config dens reach c s in
  (forall a, (lo <= a < hi)%nat -> srho s' a = sfull a) /\
  (forall a, (a < lo)%nat \/ (hi <= a)%nat -> srho s' a = srho s a) /\
  extremum s s' (fun a => lo <= a < hi)%nat.
Proof.
  intros s. cbv zeta. unfold scan_config. destruct (zero_spec s) as (Z1 & Z2 & Z3). set (s1 := for_up lo hi zero_atom s) in *. clearbody s1.
  assert (I : sinv s1 hi (for_up lo hi (scan_atom dens reach c) s1)).
  { apply (for_up_inv (sinv s1)); [lia| |].
    - unfold sinv, extremum. split; [intros; lia|]. split; [|split; [auto|split; [intros; lia|split; [intros; lra|auto]]]].
      intros a Ha. rewrite Z1. destruct (Nat.leb_spec lo a), (Nat.ltb_spec a hi); try lia. simpl. unfold sgot. rewrite Nat.sub_diag. auto.
    - intros i s2 Hi. apply sinv_step. lia. }
  destruct I as (A & _ & C & X). split; [auto|]. split.
  - intros a Ha. rewrite C by auto. rewrite Z1. destruct (Nat.leb_spec lo a), (Nat.ltb_spec a hi); try lia; auto.
  - unfold extremum in *. rewrite Z2, Z3 in X. exact X.
Qed.
End One.

Section Geo.
Variables (c : conf) (pos : nat -> vec) (bx : box) (rcut : nat -> nat -> R).
Hypothesis GEO : geometry c pos bx rcut.
Notation lo := (cnfstart c).
Notation hi := (cnfstart c + inconf c)%nat.
Variable L : nat -> list (nat * image).
Hypothesis HL : forall a, (lo <= a < hi)%nat -> all_neighbors c pos bx rcut a (L a).
Notation ent i v := (entry pos (typ c) bx i (fst v) (snd v)).
(** the neighbours of an atom that are not images of the atom itself *)
Definition others_of (a : nat) : list (nat * image) := filter (fun v => negb (Nat.eqb (fst v) a)) (L a).

Lemma sfull_density : forall a, (lo <= a < hi)%nat ->
  sfull c a = density c pos bx (fun _ => dens) (fun _ => reach) others_of 0 a.
Proof.
  intros a Ha. unfold sfull, sgot, density, others_of. replace (hi - lo)%nat with (inconf c) by lia. rewrite rsumf_filter.
  apply (gen_density c pos bx rcut GEO L HL sA (sB c)
    (fun a v => if negb (Nat.eqb (fst v) a) then if reach (typ c (fst v)) (dist pos bx a v) then dens (typ c (fst v)) (dist pos bx a v) else 0 else 0)).
  - intros i v. unfold sA. rewrite ent_r. change (n_nr (ent i v)) with (fst v). destruct (Nat.eqb (fst v) i); auto.
  - intros i j n N. unfold sB. rewrite ent_r, (dist_sym pos bx i j n). cbn [fst snd] in *. change (n_nr (entry pos (typ c) bx i j n)) with j.
    destruct (Nat.eqb_spec j i); [contradiction|]. destruct (Nat.eqb_spec i j); [congruence|]. auto.
  - intros i e E. unfold sB. rewrite E, Nat.eqb_refl. auto.
  - auto.
Qed.
End Geo.

(** ** all configurations *)
Variable cs : nat -> conf.
Variable nconf : nat.
Notation lo ci := (cnfstart (cs ci)).
Notation hi ci := (cnfstart (cs ci) + inconf (cs ci))%nat.
Hypothesis CONT : forall ci, cnfstart (cs (S ci)) = hi ci.
Hypothesis ORD : forall ci, (ci < nconf)%nat -> ordered (cs ci).
Hypothesis TYP : forall ci i e, (ci < nconf)%nat -> (lo ci <= i < hi ci)%nat -> In e (nb (cs ci) i) -> n_type e = typ (cs ci) (n_nr e).

Lemma scan_mono : forall i j, (i < j)%nat -> (hi i <= lo j)%nat.
Proof. intros i j H. induction H; [rewrite CONT; lia|rewrite CONT; lia]. Qed.

Theorem scan_all_spec : forall f, let s := scan_all dens reach cs nconf f in
  forall ci, (ci < nconf)%nat -> forall a, (lo ci <= a < hi ci)%nat ->
  srho s a = sfull (cs ci) a /\ minrho s (typ (cs ci) a) <= sfull (cs ci) a <= maxrho s (typ (cs ci) a).
Proof.
  intros f. cbv zeta. unfold scan_all.
  pose (Q := fun m s => forall ci, (ci < m)%nat -> forall a, (lo ci <= a < hi ci)%nat ->
    srho s a = sfull (cs ci) a /\ minrho s (typ (cs ci) a) <= sfull (cs ci) a <= maxrho s (typ (cs ci) a)).
  apply (for_up_inv Q); [lia| |].
  - intros ci H. lia.
  - intros m s Hm IH ci Hci a Ha.
    destruct (scan_config_spec (cs m) (ORD m ltac:(lia)) (fun i e => TYP m i e ltac:(lia)) s) as (A & B & X1 & X2 & _).
    destruct (Nat.eq_dec ci m) as [->|N].
    + split; [apply A; auto|apply X1; auto].
    + destruct (IH ci ltac:(lia) a Ha) as (U & V & W). rewrite B by (left; pose proof (scan_mono ci m ltac:(lia)); lia). split; [auto|].
      destruct (X2 (typ (cs ci) a)). lra.
Qed.
Theorem scan_all_extrema : forall f, let s := scan_all dens reach cs nconf f in
  forall t, (maxrho s t = - 10 ^ 100 \/ exists ci a, (ci < nconf)%nat /\ (lo ci <= a < hi ci)%nat /\ typ (cs ci) a = t /\ maxrho s t = sfull (cs ci) a) /\
            (minrho s t = 10 ^ 100 \/ exists ci a, (ci < nconf)%nat /\ (lo ci <= a < hi ci)%nat /\ typ (cs ci) a = t /\ minrho s t = sfull (cs ci) a) /\
            - 10 ^ 100 <= maxrho s t /\ minrho s t <= 10 ^ 100.
Proof.
  intros f. cbv zeta. unfold scan_all.
  pose (Q := fun m s => forall t,
    (maxrho s t = - 10 ^ 100 \/ exists ci a, (ci < m)%nat /\ (lo ci <= a < hi ci)%nat /\ typ (cs ci) a = t /\ maxrho s t = sfull (cs ci) a) /\
    (minrho s t = 10 ^ 100 \/ exists ci a, (ci < m)%nat /\ (lo ci <= a < hi ci)%nat /\ typ (cs ci) a = t /\ minrho s t = sfull (cs ci) a) /\
    - 10 ^ 100 <= maxrho s t /\ minrho s t <= 10 ^ 100).
  apply (for_up_inv Q); [lia| |].
  - intros t. cbn [maxrho minrho]. split; [auto|]. split; [auto|]. split; apply Rle_refl.
  - intros m s Hm IH t. destruct (IH t) as (A & B & C & D).
    destruct (scan_config_spec (cs m) (ORD m ltac:(lia)) (fun i e => TYP m i e ltac:(lia)) s) as (_ & _ & _ & X2 & X3 & X4).
    destruct (X2 t) as [Y1 Y2]. split; [|split; [|split; [eapply Rle_trans; eauto|eapply Rle_trans; eauto]]].
    + destruct (X3 t) as [E|(a & P & T & E)]; [|right; exists m, a; split; [lia|auto]].
      rewrite E. destruct A as [A|(ci & a & P & T)]; [left; auto|right; exists ci, a; split; [lia|auto]].
    + destruct (X4 t) as [E|(a & P & T & E)]; [|right; exists m, a; split; [lia|auto]].
      rewrite E. destruct B as [A'|(ci & a & P & T)]; [left; auto|right; exists ci, a; split; [lia|auto]].
Qed.
End Scan.

(** The densities are those of the textbook model without the images of the atom itself. *)
Theorem scan_textbook : forall dens reach cs nconf, (forall ci, cnfstart (cs (S ci)) = (cnfstart (cs ci) + inconf (cs ci))%nat) ->
  forall pos bx rcut, (forall ci, (ci < nconf)%nat -> geometry (cs ci) pos (bx ci) rcut) ->
  forall L, (forall ci a, (ci < nconf)%nat -> (cnfstart (cs ci) <= a < cnfstart (cs ci) + inconf (cs ci))%nat ->
    all_neighbors (cs ci) pos (bx ci) rcut a (L ci a)) ->
  forall f, let s := scan_all dens reach cs nconf f in
  forall ci, (ci < nconf)%nat -> forall a, (cnfstart (cs ci) <= a < cnfstart (cs ci) + inconf (cs ci))%nat ->
  let x := density (cs ci) pos (bx ci) (fun _ => dens) (fun _ => reach) (others_of (L ci)) 0 a in
  srho s a = x /\ minrho s (typ (cs ci) a) <= x <= maxrho s (typ (cs ci) a).
Proof.
  intros dens reach cs nconf CONT pos bx rcut GEO L HL f s ci Hci a Ha x.
  assert (TYP : forall ci i e, (ci < nconf)%nat -> (cnfstart (cs ci) <= i < cnfstart (cs ci) + inconf (cs ci))%nat -> In e (nb (cs ci) i) -> n_type e = typ (cs ci) (n_nr e)).
  { intros ci' i e H. apply (geo_typ (cs ci') pos (bx ci') rcut (GEO ci' H) (L ci') (fun a => HL ci' a H)). }
  assert (ORD : forall ci, (ci < nconf)%nat -> ordered (cs ci)).
  { intros ci' H i e Hi He. destruct (nb_entry (cs ci') pos (bx ci') rcut (GEO ci' H) (L ci') (fun a => HL ci' a H) i e Hi He) as (v & V & _ & -> & _).
    change (n_nr (entry pos (typ (cs ci')) (bx ci') i (fst v) (snd v))) with (fst v). lia. }
  unfold x. rewrite <- (sfull_density dens reach (cs ci) pos (bx ci) rcut (GEO ci Hci) (L ci) (fun a => HL ci a Hci) a Ha).
  exact (scan_all_spec dens reach cs nconf CONT ORD TYP f ci Hci a Ha).
Qed.
Lemma others_all : forall L a, (forall n, ~ In (a, n) (L a)) -> others_of L a = L a.
Proof.
  intros L a H. unfold others_of. induction (L a) as [|[j n] l IH]; auto. simpl. destruct (Nat.eqb_spec j a) as [->|].
  - exfalso. apply (H n). left. auto.
  - simpl. rewrite IH; auto. intros m M. apply (H m). right. auto.
Qed.
