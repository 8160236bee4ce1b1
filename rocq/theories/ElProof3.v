(** One configuration of the electrostatic force routine adds the textbook values. *)
From Coq Require Import Reals ZArith List Bool Lia Lra.
From Verif Require Import Vec NbrModel NbrProof NbrProof2 LoopUtil PairModel PairProof PairSpec PairProof2 BondProof EamProof3 ForceLoop AddProof AddProof2 AdpProof FuncModel ElSpec ElModel ElProof ElProof2.
Import ListNotations.
Local Open Scope R_scope.

Lemma zero_nz : forall x, zero x = negb (nz x).
Proof. intros x. unfold zero, nz. destruct (Req_EM_T x 0); auto. Qed.
Lemma nz_cases : forall x, nz x = false /\ x = 0 \/ nz x = true /\ x <> 0.
Proof. intros x. unfold nz. destruct (Req_EM_T x 0); auto. Qed.

Section El.
Variables (c : conf) (pos : nat -> vec) (bx : box) (rcut : nat -> nat -> R).
Hypothesis GEO : geometry c pos bx rcut.
Notation lo := (cnfstart c).
Notation hi := (cnfstart c + inconf c)%nat.
Notation ent i v := (entry pos (typ c) bx i (fst v) (snd v)).
Notation dd i v := (dvec pos bx i v).
Notation rr i v := (dist pos bx i v).
Variable L : nat -> list (nat * image).
Hypothesis HL : forall a, (lo <= a < hi)%nat -> all_neighbors c pos bx rcut a (L a).

(** ** entries of the neighbour lists *)
Lemma ent_r : forall i v, n_r (ent i v) = rr i v.
Proof. intros i [j n]. unfold entry, dist, dvec; simpl. rewrite shift_displacement. auto. Qed.
Lemma ent_dr : forall i v, n_dist_r (ent i v) = vscale (/ rr i v) (dd i v).
Proof. intros i [j n]. unfold entry, dist, dvec; simpl. rewrite shift_displacement. unfold unscale, Rdiv. vring. Qed.
Lemma ent_r2 : forall i v, n_r2 (ent i v) = rr i v * rr i v.
Proof. intros i [j n]. unfold entry, dist, dvec; simpl. rewrite shift_displacement. auto. Qed.
Lemma rr_zero : forall i v, rr i v = 0 -> dd i v = v0.
Proof. intros i v Z. apply norm_0. exact Z. Qed.
Lemma ent_dist : forall i v, n_dist (ent i v) = dd i v.
Proof.
  intros i v. transitivity (vscale (rr i v) (vscale (/ rr i v) (dd i v))).
  - rewrite <- ent_dr, <- ent_r. unfold entry; simpl. vring.
  - destruct (Req_dec (rr i v) 0) as [Z|N].
    + rewrite (rr_zero _ _ Z). vring.
    + apply vec_eq; simpl; field; auto.
Qed.
Lemma ent_half : forall i v x, half i (ent i v) x = weight i v * x.
Proof.
  intros i v x. unfold half, ElModel.self, weight. change (n_nr (ent i v)) with (fst v). destruct (Nat.eqb (fst v) i); ring.
Qed.
Lemma dd_neg : forall i j n, dd i (j, n) = vscale (-1) (dd j (i, neg n)).
Proof. intros i j n. unfold dvec; cbn [fst snd]. rewrite (displacement_neg pos bx i j n). vring. Qed.
Lemma ent_typed : typed c.
Proof.
  intros i e Hi He. destruct (nb_entry c pos bx rcut GEO L HL i e Hi He) as (v & V & _ & -> & _).
  change (n_nr (ent i v)) with (fst v). change (n_type (ent i v)) with (typ c (fst v)). split; [lia|auto].
Qed.

Variable bld : build.
Variable DIPOLE : bool.
Variables phi dphi : nat -> nat -> R -> R.
Variable in_range : nat -> nat -> R -> bool.
Hypothesis PS : forall s t r, phi s t r = phi t s r.
Hypothesis DS : forall s t r, dphi s t r = dphi t s r.
Hypothesis IS : forall s t r, in_range s t r = in_range t s r.
Variables charge alpha : nat -> R.
Variables dpb dpc : nat -> nat -> R.
Hypothesis BS : forall s t, dpb s t = dpb t s.
Hypothesis CS : forall s t, dpc s t = dpc t s.
Variables fel gel ggel : R -> R.
Variables dp_cut self_coef : R.

(** ** charges *)
Notation CB := (coulomb_bond c pos bx charge gel dp_cut).
Notation CP := (coulomb_pair c pos bx charge fel dp_cut).
Notation WI := (within pos bx dp_cut).
Lemma near_within : forall i v, near dp_cut (ent i v) = WI i v.
Proof. intros i v. unfold near, within. rewrite ent_r. auto. Qed.
Lemma within_neg : forall i j n, WI i (j, n) = WI j (i, neg n).
Proof. intros i j n. unfold within. rewrite (dist_sym pos bx i j n). auto. Qed.
Lemma mT_entry : uf c = true -> forall i v, mT charge gel dp_cut c i (ent i v) = vscale (weight i v) (CB i v).
Proof.
  intros U i v. unfold mT, charged, coulomb_bond. rewrite U, near_within, ent_half, ent_dist, ent_r. change (n_type (ent i v)) with (typ c (fst v)).
  destruct (WI i v); cbn [andb]; [|vring].
  destruct (nz_cases (charge (typ c i))) as [[-> ->]|[-> _]], (nz_cases (charge (typ c (fst v)))) as [[-> ->]|[-> _]]; cbn [orb]; vring.
Qed.
Lemma mP_entry : forall i v, mP charge fel dp_cut c i (ent i v) = weight i v * CP i v.
Proof.
  intros i v. unfold mP, charged, coulomb_pair. rewrite near_within, ent_half, ent_r. change (n_type (ent i v)) with (typ c (fst v)).
  destruct (WI i v); cbn [andb]; [|ring].
  destruct (nz_cases (charge (typ c i))) as [[-> ->]|[-> _]], (nz_cases (charge (typ c (fst v)))) as [[-> ->]|[-> _]]; cbn [orb]; ring.
Qed.
Lemma CB_neg : forall i j n, CB i (j, n) = vscale (-1) (CB j (i, neg n)).
Proof.
  intros i j n. unfold coulomb_bond. rewrite (within_neg i j n), (dd_neg i j n), (dist_sym pos bx i j n). cbn [fst].
  destruct (WI j (i, neg n)); vring.
Qed.
Lemma CP_neg : forall i j n, CP i (j, n) = CP j (i, neg n).
Proof. intros i j n. unfold coulomb_pair. rewrite (within_neg i j n), (dist_sym pos bx i j n). cbn [fst]. destruct (WI j (i, neg n)); ring. Qed.

(** ** dipoles *)
Section Dip.
Variable p : nat -> vec.
Notation MO := (mom c alpha p).
Notation DA := (damp c pos bx dpb dpc).
Notation DDA := (ddamp c pos bx dpb dpc).
Notation LV := (lever c charge alpha p).
Notation MB := (mixed_bond c pos bx charge gel ggel dp_cut alpha dpb dpc p).
Notation MP := (mixed_pair c pos bx charge gel dp_cut alpha dpb dpc p).
Notation DB := (dipole_bond c pos bx gel ggel dp_cut alpha p).
Notation DP := (dipole_pair c pos bx gel dp_cut alpha p).
Notation T1 := (dT1 charge alpha dpb dpc gel ggel dp_cut p c).
Notation T2 := (dT2 charge alpha dpb dpc gel ggel dp_cut p c).
Notation T3 := (dT3 alpha gel ggel dp_cut p c).
Notation P1 := (dP1 charge alpha dpb dpc gel dp_cut p c).
Notation P2 := (dP2 charge alpha dpb dpc gel dp_cut p c).
Notation P3 := (dP3 alpha gel dp_cut p c).

Lemma hurt_entry : forall i v, fst v <> i -> hurt dpb dpc gel c i (ent i v) = - (gel (rr i v) * (1 + DA i v)).
Proof.
  intros i v N. unfold hurt, damp, damped, has_sr. rewrite ent_half, ent_r, !zero_nz, !negb_involutive. change (n_type (ent i v)) with (typ c (fst v)).
  unfold weight. destruct (Nat.eqb_spec (fst v) i); [contradiction|]. destruct (_ && _)%bool; ring.
Qed.
Lemma dhurt_entry : forall i v, fst v <> i -> dhurt dpb dpc gel ggel c i (ent i v) = - (ggel (rr i v) * (1 + DA i v) + gel (rr i v) * DDA i v).
Proof.
  intros i v N. unfold dhurt, damp, ddamp, damped, has_sr. rewrite !ent_half, ent_r, !zero_nz, !negb_involutive. change (n_type (ent i v)) with (typ c (fst v)).
  unfold weight. destruct (Nat.eqb_spec (fst v) i); [contradiction|]. destruct (_ && _)%bool; ring.
Qed.
Lemma mom_nz : forall a, nz (alpha (typ c a)) = true -> MO a = p a.
Proof. intros a A. unfold mom. rewrite zero_nz, A. auto. Qed.
Lemma mom_z : forall a, nz (alpha (typ c a)) = false -> MO a = v0.
Proof. intros a A. unfold mom. rewrite zero_nz, A. auto. Qed.
(** the two terms of a charge and a dipole *)
Lemma T1_entry : uf c = true -> forall i v, fst v <> i ->
  T1 i (ent i v) = if WI i v then vscale (charge (typ c i)) (vadd (vscale (gel (rr i v) * (1 + DA i v)) (MO (fst v)))
    (vscale ((ggel (rr i v) * (1 + DA i v) + gel (rr i v) * DDA i v) * sprod (MO (fst v)) (dd i v)) (dd i v))) else v0.
Proof.
  intros U i v N. unfold dT1, k1, rpj. rewrite U, near_within, hurt_entry, dhurt_entry, ent_r2, ent_dr by auto. change (n_nr (ent i v)) with (fst v).
  change (n_type (ent i v)) with (typ c (fst v)).
  destruct (WI i v); cbn [andb]; [|auto]. destruct (nz (alpha (typ c (fst v)))) eqn:A.
  - rewrite andb_true_r, (mom_nz _ A). set (G := gel (rr i v) * (1 + DA i v)). set (H := ggel (rr i v) * (1 + DA i v) + gel (rr i v) * DDA i v). clearbody G H.
    destruct (nz_cases (charge (typ c i))) as [[-> ->]|[-> _]]; [vring|].
    destruct (Req_dec (rr i v) 0) as [Z|R0].
    + rewrite (rr_zero _ _ Z). unfold sprod. vring.
    + unfold sprod. apply vec_eq; simpl; field; auto.
  - rewrite andb_false_r, (mom_z _ A). unfold sprod. vring.
Qed.
Lemma T2_entry : uf c = true -> forall i v, fst v <> i ->
  T2 i (ent i v) = if WI i v then vscale (- charge (typ c (fst v))) (vadd (vscale (gel (rr i v) * (1 + DA i v)) (MO i))
    (vscale ((ggel (rr i v) * (1 + DA i v) + gel (rr i v) * DDA i v) * sprod (MO i) (dd i v)) (dd i v))) else v0.
Proof.
  intros U i v N. unfold dT2, k2, rpi. rewrite U, near_within, hurt_entry, dhurt_entry, ent_r2, ent_dr by auto.
  change (n_type (ent i v)) with (typ c (fst v)).
  destruct (WI i v); cbn [andb]; [|auto]. destruct (nz (alpha (typ c i))) eqn:A.
  - cbn [andb]. rewrite (mom_nz _ A). set (G := gel (rr i v) * (1 + DA i v)). set (H := ggel (rr i v) * (1 + DA i v) + gel (rr i v) * DDA i v). clearbody G H.
    destruct (nz_cases (charge (typ c (fst v)))) as [[-> ->]|[-> _]]; [vring|].
    destruct (Req_dec (rr i v) 0) as [Z|R0].
    + rewrite (rr_zero _ _ Z). unfold sprod. vring.
    + unfold sprod. apply vec_eq; simpl; field; auto.
  - cbn [andb]. rewrite (mom_z _ A). unfold sprod. vring.
Qed.
Lemma T12_entry : uf c = true -> forall i v, vadd (T1 i (ent i v)) (T2 i (ent i v)) = vscale (weight i v) (MB i v).
Proof.
  intros U i v. destruct (Nat.eq_dec (fst v) i) as [E|N].
  - transitivity v0.
    + unfold dT1, dT2, k1, k2, rpi, rpj. rewrite U, near_within. change (n_type (ent i v)) with (typ c (fst v)). change (n_nr (ent i v)) with (fst v). rewrite E.
      rewrite (andb_comm (nz (charge (typ c i)))). destruct (WI i v && _)%bool; vring.
    + unfold mixed_bond, lever. rewrite E. destruct (WI i v); [|vring]. unfold sprod. vring.
  - rewrite T1_entry, T2_entry by auto. unfold mixed_bond, lever, weight. destruct (Nat.eqb_spec (fst v) i); [contradiction|].
    destruct (WI i v); [|vring]. set (G := gel (rr i v) * (1 + DA i v)). set (H := ggel (rr i v) * (1 + DA i v) + gel (rr i v) * DDA i v). clearbody G H.
    unfold sprod. vring.
Qed.
Lemma P12_entry : forall i v, P1 i (ent i v) + P2 i (ent i v) = weight i v * MP i v.
Proof.
  intros i v. unfold dP1, dP2, k1, k2, rpi, rpj. rewrite near_within. change (n_type (ent i v)) with (typ c (fst v)). change (n_nr (ent i v)) with (fst v).
  destruct (Nat.eq_dec (fst v) i) as [E|N].
  - unfold mixed_pair, lever. rewrite E. rewrite (andb_comm (nz (charge (typ c i)))).
    transitivity 0; [destruct (WI i v && _)%bool; ring|]. destruct (WI i v); [|ring]. unfold sprod. simpl. ring.
  - rewrite hurt_entry, ent_dr, ent_r by auto. unfold mixed_pair, lever, weight. destruct (Nat.eqb_spec (fst v) i); [contradiction|].
    destruct (WI i v); cbn [andb]; [|ring]. set (G := gel (rr i v) * (1 + DA i v)). clearbody G.
    assert (Q : forall w, sprod w (vscale (/ rr i v) (dd i v)) * rr i v = sprod w (dd i v)).
    { intros w. destruct (Req_dec (rr i v) 0) as [Z|R0]; [rewrite (rr_zero _ _ Z), Z; unfold sprod; simpl; ring|]. unfold sprod; simpl. field. auto. }
    assert (A1 : (if (nz (charge (typ c i)) && nz (alpha (typ c (fst v))))%bool then -1 * (charge (typ c i) * sprod (p (fst v)) (vscale (/ rr i v) (dd i v)) * - G * rr i v) else 0)
      = charge (typ c i) * G * sprod (MO (fst v)) (dd i v)).
    { destruct (nz (alpha (typ c (fst v)))) eqn:A.
      - rewrite andb_true_r, (mom_nz _ A). rewrite <- (Q (p (fst v))). destruct (nz_cases (charge (typ c i))) as [[-> ->]|[-> _]]; ring.
      - rewrite andb_false_r, (mom_z _ A). unfold sprod; simpl; ring. }
    assert (A2 : (if (nz (alpha (typ c i)) && nz (charge (typ c (fst v))))%bool then 1 * (charge (typ c (fst v)) * sprod (p i) (vscale (/ rr i v) (dd i v)) * - G * rr i v) else 0)
      = - (charge (typ c (fst v)) * G * sprod (MO i) (dd i v))).
    { destruct (nz (alpha (typ c i))) eqn:A.
      - cbn [andb]. rewrite (mom_nz _ A). rewrite <- (Q (p i)). destruct (nz_cases (charge (typ c (fst v)))) as [[-> ->]|[-> _]]; ring.
      - cbn [andb]. rewrite (mom_z _ A). unfold sprod; simpl; ring. }
    rewrite A1, A2. unfold sprod; simpl. ring.
Qed.
Lemma T3_entry : uf c = true -> forall i v, T3 i (ent i v) = vscale (weight i v) (DB i v).
Proof.
  intros U i v. unfold dT3, k3, rpi, rpj, dipole_bond. rewrite U, near_within, !ent_half, ent_dr, ent_dist, ent_r, ent_r2. change (n_type (ent i v)) with (typ c (fst v)). change (n_nr (ent i v)) with (fst v).
  destruct (WI i v); cbn [andb]; [|vring]. cbv zeta. destruct (nz (alpha (typ c i))) eqn:A; cbn [andb].
  - destruct (nz (alpha (typ c (fst v)))) eqn:B.
    + rewrite (mom_nz _ A), (mom_nz _ B). destruct (Req_dec (rr i v) 0) as [Z|R0].
      * rewrite (rr_zero _ _ Z), Z. unfold sprod, Rdiv. vring.
      * unfold sprod. apply vec_eq; simpl; field; auto.
    + rewrite (mom_z _ B). unfold sprod, Rdiv. vring.
  - rewrite (mom_z _ A). unfold sprod, Rdiv. vring.
Qed.
Lemma P3_entry : forall i v, P3 i (ent i v) = weight i v * DP i v.
Proof.
  intros i v. unfold dP3, k3, rpi, rpj, dipole_pair. rewrite near_within, !ent_half, ent_dr, ent_r. change (n_type (ent i v)) with (typ c (fst v)). change (n_nr (ent i v)) with (fst v).
  destruct (WI i v); cbn [andb]; [|ring]. destruct (nz (alpha (typ c i))) eqn:A; cbn [andb].
  - destruct (nz (alpha (typ c (fst v)))) eqn:B.
    + rewrite (mom_nz _ A), (mom_nz _ B). destruct (Req_dec (rr i v) 0) as [Z|R0].
      * rewrite (rr_zero _ _ Z). unfold sprod, Rdiv. simpl. ring.
      * unfold sprod. simpl. field. auto.
    + rewrite (mom_z _ B). unfold sprod, Rdiv. simpl. ring.
  - rewrite (mom_z _ A). unfold sprod, Rdiv. simpl. ring.
Qed.
Lemma DA_neg : forall i j n, DA i (j, n) = DA j (i, neg n).
Proof. intros i j n. unfold damp, damped. rewrite (dist_sym pos bx i j n). cbn [fst]. rewrite (BS (typ c i)), (CS (typ c i)). auto. Qed.
Lemma DDA_neg : forall i j n, DDA i (j, n) = DDA j (i, neg n).
Proof. intros i j n. unfold ddamp, damped. rewrite (dist_sym pos bx i j n). cbn [fst]. rewrite (BS (typ c i)), (CS (typ c i)). auto. Qed.
Notation XB := (dip_bond c pos bx charge gel ggel dp_cut alpha dpb dpc p).
Notation XP := (dip_pair c pos bx charge gel dp_cut alpha dpb dpc p).
Lemma XB_neg : forall i j n, XB i (j, n) = vscale (-1) (XB j (i, neg n)).
Proof.
  intros i j n. unfold dip_bond, mixed_bond, dipole_bond, lever. rewrite (within_neg i j n), (dd_neg i j n), (dist_sym pos bx i j n), (DA_neg i j n), (DDA_neg i j n). cbn [fst].
  destruct (WI j (i, neg n)); [|vring]. unfold sprod, Rdiv. vring.
Qed.
Lemma XP_neg : forall i j n, XP i (j, n) = XP j (i, neg n).
Proof.
  intros i j n. unfold dip_pair, mixed_pair, dipole_pair, lever. rewrite (within_neg i j n), (dd_neg i j n), (dist_sym pos bx i j n), (DA_neg i j n). cbn [fst].
  destruct (WI j (i, neg n)); [|ring]. unfold sprod, Rdiv. simpl. ring.
Qed.
Lemma dT_entry : uf c = true -> forall i v, dT charge alpha dpb dpc gel ggel dp_cut p c i (ent i v) = vscale (weight i v) (XB i v).
Proof. intros U i v. unfold dT, dip_bond. rewrite T12_entry, T3_entry by auto. vring. Qed.
Lemma dP_entry : forall i v, dP charge alpha dpb dpc gel dp_cut p c i (ent i v) = weight i v * XP i v.
Proof. intros i v. unfold dP, dip_pair. rewrite P12_entry, P3_entry. ring. Qed.

(** ** what the loops add *)
Notation pf := (pair_force c pos bx dphi in_range L).
Notation cf := (coulomb_force c pos bx charge gel dp_cut L).
Notation xf := (dip_force c pos bx charge gel ggel dp_cut L alpha dpb dpc p).
Definition eforce (a : nat) : vec := vadd (vadd (pf a) (cf a)) (if DIPOLE then xf a else v0).
Definition eenergy : R := pair_energy c pos bx phi in_range L + coulomb_energy c pos bx charge fel dp_cut L - charge_self c charge self_coef +
  (if DIPOLE then dip_energy c pos bx charge gel dp_cut L alpha dpb dpc p + dip_self c alpha p else 0).
Definition evirial (k : nat) : R := pair_virial c pos bx dphi in_range L k + coulomb_virial c pos bx charge gel dp_cut L k +
  (if DIPOLE then dip_virial c pos bx charge gel ggel dp_cut L alpha dpb dpc p k else 0).
Definition inr (a : nat) : bool := (Nat.leb lo a && Nat.ltb a hi)%bool.
Definition eF (a : nat) : vec := if inr a then (if uf c then eforce a else v0) else v0.
Definition eS (k : nat) : R := if (Nat.ltb k 6 && (STRESS bld && us c) && uf c)%bool then evirial k else 0.
Definition gives (loop : dev -> dev) (ci : nat) (F : nat -> vec) (E : R) (V : nat -> R) : Prop :=
  adds ci loop (fun a => if inr a then (if uf c then F a else v0) else v0) E
    (fun k => if (Nat.ltb k 6 && (STRESS bld && us c) && uf c)%bool then V k else 0).
Lemma loop_gives : forall body ci T P G E, body_spec body ci T P (STRESS bld && us c) ->
  (uf c = true -> forall i v, T i (ent i v) = vscale (weight i v) (G i v)) -> (uf c = false -> forall i e, T i e = v0) ->
  (forall i v, P i (ent i v) = weight i v * E i v) ->
  (forall i j n, G i (j, n) = vscale (-1) (G j (i, neg n))) -> (forall i j n, E i (j, n) = E j (i, neg n)) ->
  gives (for_up lo hi (fun i s => fold_left (body i) (nb c i) s)) ci (fun a => vsum (G a) (L a))
    (1/2 * rsumf (fun a => rsumf (E a) (L a)) (seq lo (inconf c)))
    (fun k => - (1/2 * rsumf (fun a => rsumf (fun v => stress_of (dd a v) (G a v) k) (L a)) (seq lo (inconf c)))).
Proof.
  intros body ci T P G E B HT HT0 HP HG HE.
  eapply adds_ext; [apply (body_adds body ci T P (STRESS bld && us c) B c)|auto| | |].
  - intros a. cbv beta. unfold inr. destruct (Nat.leb_spec lo a) as [A1|A1]; cbn [andb].
    + destruct (Nat.ltb_spec a hi) as [A2|A2].
      * rewrite bF_in by lia. destruct (uf c) eqn:U.
        -- apply (gen_force c pos bx rcut GEO L HL T G (HT eq_refl) HG a). lia.
        -- rewrite vsumf_zero by (intros; apply HT0; auto). rewrite vsumf_zero; [vring|]. intros k _. apply vsumf_zero. intros e _. rewrite HT0 by auto. destruct (Nat.eqb _ _); auto.
      * apply bF_out; [apply (geo_ordered c pos bx rcut GEO)|lia].
    + apply bF_out; [apply (geo_ordered c pos bx rcut GEO)|lia].
  - apply (gen_energy c pos bx rcut GEO L HL P E HP HE).
  - intros k. rewrite bS_eq. cbv beta. destruct (Nat.ltb k 6 && (STRESS bld && us c))%bool; cbn [andb]; [|auto]. destruct (uf c) eqn:U.
    + f_equal. apply (gen_virial c pos bx rcut GEO L HL T G (HT eq_refl) HG k).
    + rewrite rsumf_zero; [ring|]. intros i _. apply rsumf_zero. intros e _. rewrite HT0 by auto. apply stress_v0.
Qed.
Lemma gives_comp : forall l1 l2 ci F1 F2 E1 E2 V1 V2, gives l1 ci F1 E1 V1 -> gives l2 ci F2 E2 V2 ->
  gives (fun s => l2 (l1 s)) ci (fun a => vadd (F1 a) (F2 a)) (E1 + E2) (fun k => V1 k + V2 k).
Proof.
  intros l1 l2 ci F1 F2 E1 E2 V1 V2 A B. eapply adds_ext; [apply (adds_comp ci l1 l2 _ _ _ _ _ _ A B)|auto| |auto|].
  - intros a. cbv beta. destruct (inr a), (uf c); vring.
  - intros k. cbv beta. destruct (_ && _)%bool; ring.
Qed.
Lemma gives_ext : forall l1 l2 ci F1 F2 E1 E2 V1 V2, gives l1 ci F1 E1 V1 -> (forall s, l1 s = l2 s) -> (forall a, F1 a = F2 a) -> E1 = E2 -> (forall k, V1 k = V2 k) ->
  gives l2 ci F2 E2 V2.
Proof.
  intros l1 l2 ci F1 F2 E1 E2 V1 V2 A EL EF -> EV. eapply adds_ext; [exact A|auto| |auto|].
  - intros a. cbv beta. rewrite EF. auto.
  - intros k. cbv beta. rewrite EV. auto.
Qed.
Notation VS G := (fun k => - (1/2 * rsumf (fun a => rsumf (fun v => stress_of (dd a v) (G a v) k) (L a)) (seq lo (inconf c)))).
Lemma stress_add : forall d f g k, stress_of d (vadd f g) k = stress_of d f k + stress_of d g k.
Proof. intros. unfold stress_of. destruct k as [|[|[|[|[|]]]]]; simpl; ring. Qed.
Lemma second_gives : forall ci, gives (for_up lo hi (second_atom bld phi dphi in_range charge fel gel dp_cut ci c)) ci
  (fun a => vadd (pf a) (cf a)) (pair_energy c pos bx phi in_range L + coulomb_energy c pos bx charge fel dp_cut L)
  (fun k => pair_virial c pos bx dphi in_range L k + coulomb_virial c pos bx charge gel dp_cut L k).
Proof.
  intros ci.
  eapply gives_ext; [apply (loop_gives _ ci _ _ (fun i v => vadd (bond_force c pos bx dphi in_range i v) (CB i v)) (fun i v => bond_energy c pos bx phi in_range i v + CP i v)
    (second_spec bld phi dphi in_range charge fel gel dp_cut ci c))|auto| | |].
  - intros U i v. unfold sT, pT. rewrite U, (mT_entry U), (entry_T dphi in_range c pos bx). vring.
  - intros U i e. unfold sT, pT, mT. rewrite U. vring.
  - intros i v. unfold sP. rewrite mP_entry, (entry_P phi in_range c pos bx). ring.
  - intros i j n. rewrite (CB_neg i j n), (bf_sym dphi in_range DS IS c pos bx i j n). vring.
  - intros i j n. rewrite (CP_neg i j n), (be_sym phi in_range PS IS c pos bx i j n). auto.
  - intros a. unfold pair_force, coulomb_force. apply vsum_add.
  - unfold pair_energy, coulomb_energy. rewrite <- Rmult_plus_distr_l. f_equal. rewrite <- rsumf_plus. apply rsumf_ext. intros a _. apply rsumf_plus.
  - intros k. unfold pair_virial, coulomb_virial. rewrite <- Ropp_plus_distr, <- Rmult_plus_distr_l. f_equal. f_equal. rewrite <- rsumf_plus. apply rsumf_ext. intros a _.
    rewrite <- rsumf_plus. apply rsumf_ext. intros v _. apply stress_add.
Qed.
Lemma fourth_gives : forall ci, all_charged charge alpha c -> gives (fourth_loop bld charge alpha dpb dpc gel ggel dp_cut p ci c) ci xf
  (dip_energy c pos bx charge gel dp_cut L alpha dpb dpc p) (dip_virial c pos bx charge gel ggel dp_cut L alpha dpb dpc p).
Proof.
  intros ci AC.
  eapply gives_ext; [apply (loop_gives _ ci _ _ XB XP (clean_spec bld charge alpha dpb dpc gel ggel dp_cut p ci c))| | | |].
  - apply dT_entry.
  - intros U i e. unfold dT, dT1, dT2, dT3. rewrite U. vring.
  - apply dP_entry.
  - apply XB_neg.
  - apply XP_neg.
  - intros s. symmetry. apply fourth_clean; auto. apply ent_typed.
  - reflexivity.
  - reflexivity.
  - reflexivity.
Qed.
Lemma self_gives : forall ci, gives (for_up lo hi (self_energy DIPOLE charge alpha self_coef p ci c)) ci (fun _ => v0)
  (- charge_self c charge self_coef + (if DIPOLE then dip_self c alpha p else 0)) (fun _ => 0).
Proof.
  intros ci. eapply adds_ext; [apply (adds_up ci (self_energy DIPOLE charge alpha self_coef p ci c) (fun _ _ => v0) (fun i => eself DIPOLE charge alpha self_coef p c i) (fun _ _ => 0)); intros; apply self_adds1|auto| | |].
  - intros a. cbv beta. rewrite vsumf_zero by auto. destruct (inr a), (uf c); auto.
  - unfold eself. rewrite rsumf_plus. f_equal.
    + unfold charge_self. transitivity (-1 * rsumf (fun a => self_coef * (charge (typ c a) * charge (typ c a))) (seq lo (inconf c))); [|ring].
      rewrite <- rsumf_scale. apply rsumf_ext. intros a _. destruct (nz_cases (charge (typ c a))) as [[-> ->]|[-> _]]; ring.
    + destruct DIPOLE; cbn [andb]; [|apply rsumf_zero; auto]. unfold dip_self. apply rsumf_ext. intros a _. unfold polar. rewrite zero_nz. destruct (nz (alpha (typ c a))); auto.
  - intros k. cbv beta. rewrite rsumf_zero by auto. destruct (_ && _)%bool; auto.
Qed.
Theorem eloops_adds : forall ci, (DIPOLE = true -> all_charged charge alpha c) ->
  adds ci (eloops bld DIPOLE phi dphi in_range charge alpha dpb dpc fel gel ggel dp_cut self_coef p ci c) eF eenergy eS.
Proof.
  intros ci AC. change (gives (eloops bld DIPOLE phi dphi in_range charge alpha dpb dpc fel gel ggel dp_cut self_coef p ci c) ci eforce eenergy evirial).
  unfold eloops, eforce, eenergy, evirial. cbv zeta. destruct DIPOLE eqn:DI.
  - eapply gives_ext; [apply (gives_comp _ _ ci _ _ _ _ _ _ (gives_comp _ _ ci _ _ _ _ _ _ (second_gives ci) (fourth_gives ci (AC eq_refl))) (self_gives ci))| | | |].
    + intros s. rewrite DI. reflexivity.
    + intros a. cbv beta. vring.
    + rewrite DI. ring.
    + intros k. cbv beta. ring.
  - eapply gives_ext; [apply (gives_comp _ _ ci _ _ _ _ _ _ (second_gives ci) (self_gives ci))| | | |].
    + intros s. rewrite DI. reflexivity.
    + intros a. cbv beta. vring.
    + rewrite DI. ring.
    + intros k. cbv beta. ring.
Qed.
End Dip.
End El.
