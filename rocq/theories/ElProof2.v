(** The electrostatic force routine as a routine whose loops only add. *)
From Coq Require Import Reals ZArith List Bool Lia Lra.
From Verif Require Import Vec NbrModel NbrProof2 LoopUtil PairModel PairProof ForceLoop AddProof AddProof2 AdpProof FuncModel ElModel ElProof.
Import ListNotations.
Local Open Scope R_scope.

Section El.
Variable bld : build.
Variable DIPOLE : bool.
Variables phi dphi : nat -> nat -> R -> R.
Variable in_range : nat -> nat -> R -> bool.
Variables charge alpha : nat -> R.
Variables dpb dpc : nat -> nat -> R.
Variables fel gel ggel : R -> R.
Variables dp_cut dp_tol dp_mix self_coef : R.
Variables eweight sweight : R.
Variable punish : R.
Notation near := (near dp_cut).
Notation charged := (charged charge dp_cut).
Notation has_sr := (has_sr dpb dpc).

(** ** second loop *)
Definition mT (c : conf) (i : nat) (e : neigh) : vec :=
  if uf c then (if charged c i e then vscale (half i e (charge (typ c i) * (charge (n_type e) * gel (n_r e)))) (n_dist e) else v0) else v0.
Definition mP (c : conf) (i : nat) (e : neigh) : R :=
  if charged c i e then half i e (charge (typ c i) * charge (n_type e) * fel (n_r e)) else 0.
Lemma monopole_spec : forall ci c, body_spec (monopole bld charge fel gel dp_cut ci c) ci (mT c) (mP c) (STRESS bld && us c).
Proof. intros ci c. apply (cond_spec bld ci c (charged c)). Qed.
Definition sT (c : conf) (i : nat) (e : neigh) : vec := vadd (pT dphi in_range c i e) (mT c i e).
Definition sP (c : conf) (i : nat) (e : neigh) : R := P phi in_range c i e + mP c i e.
Lemma second_spec : forall ci c, body_spec (second_neighbor bld phi dphi in_range charge fel gel dp_cut ci c) ci (sT c) (sP c) (STRESS bld && us c).
Proof.
  intros ci c. exact (body_comp _ _ _ _ _ _ _ _ (pair_body_spec bld phi dphi in_range ci c) (monopole_spec ci c)).
Qed.

(** ** fourth loop, with projections that are always up to date *)
Section Fourth.
Variable p : nat -> vec.
Definition hurt (c : conf) (i : nat) (e : neigh) : R :=
  let g0 := - gel (n_r e) in
  if has_sr c i e then half i e g0 + g0 * fst (shortrange_term (n_r e) (dpb (typ c i) (n_type e)) (dpc (typ c i) (n_type e))) else half i e g0.
Definition dhurt (c : conf) (i : nat) (e : neigh) : R :=
  let g0 := - gel (n_r e) in
  let h0 := - ggel (n_r e) in
  let st := shortrange_term (n_r e) (dpb (typ c i) (n_type e)) (dpc (typ c i) (n_type e)) in
  if has_sr c i e then half i e h0 + (g0 * snd st + h0 * fst st) else half i e h0.
Definition k1 (c : conf) (i : nat) (e : neigh) : bool := (near e && (nz (charge (typ c i)) && nz (alpha (n_type e))))%bool.
Definition k2 (c : conf) (i : nat) (e : neigh) : bool := (near e && (nz (alpha (typ c i)) && nz (charge (n_type e))))%bool.
Definition k3 (c : conf) (i : nat) (e : neigh) : bool := (near e && (nz (alpha (typ c i)) && nz (alpha (n_type e))))%bool.
Definition rpi (i : nat) (e : neigh) : R := sprod (p i) (n_dist_r e).
Definition rpj (e : neigh) : R := sprod (p (n_nr e)) (n_dist_r e).
Definition clean1 ci c i s e := if k1 c i e then charge_dipole bld ci c i e (-1) (charge (typ c i)) (rpj e) (hurt c i e) (dhurt c i e) (p (n_nr e)) s else s.
Definition clean2 ci c i s e := if k2 c i e then charge_dipole bld ci c i e 1 (charge (n_type e)) (rpi i e) (hurt c i e) (dhurt c i e) (p i) s else s.
Definition clean3 ci c i s e := if k3 c i e then dipole_dipole bld ci c i e (half i e (- gel (n_r e))) (half i e (- ggel (n_r e))) (rpi i e) (rpj e) (p i) (p (n_nr e)) s else s.
Definition clean ci c i s e := clean3 ci c i (clean2 ci c i (clean1 ci c i s e) e) e.
Lemma clean_eq : forall ci c i s e, (alpha (typ c i) <> 0 -> charge (typ c i) <> 0) -> (alpha (n_type e) <> 0 -> charge (n_type e) <> 0) ->
  pdv (fourth_neighbor bld charge alpha dpb dpc gel ggel dp_cut p ci c i s e) = clean ci c i (pdv s) e.
Proof.
  intros ci c i s e H1 H2. unfold fourth_neighbor, clean, clean1, clean2, clean3, k1, k2, k3, hurt, dhurt, rpi, rpj.
  destruct (shortrange_term (n_r e) (dpb (typ c i) (n_type e)) (dpc (typ c i) (n_type e))) as [sv sg]. cbn [fst snd].
  destruct (near e); [|auto]. cbn [andb].
  destruct (nz (alpha (typ c i))) eqn:A1, (nz (alpha (n_type e))) eqn:A2; cbn [andb orb].
  - apply nz_true in A1, A2. apply H1, nz_true in A1. apply H2, nz_true in A2. rewrite A1, A2. reflexivity.
  - destruct (nz (charge (typ c i))), (nz (charge (n_type e))); reflexivity.
  - destruct (nz (charge (typ c i))), (nz (charge (n_type e))); reflexivity.
  - destruct (nz (charge (typ c i))), (nz (charge (n_type e))); reflexivity.
Qed.
Definition dT1 (c : conf) (i : nat) (e : neigh) : vec := if uf c then (if k1 c i e then vscale (-1)
  (vadd (vscale (charge (typ c i) * rpj e * dhurt c i e * n_r2 e) (n_dist_r e)) (vscale (charge (typ c i) * hurt c i e) (p (n_nr e)))) else v0) else v0.
Definition dT2 (c : conf) (i : nat) (e : neigh) : vec := if uf c then (if k2 c i e then vscale 1
  (vadd (vscale (charge (n_type e) * rpi i e * dhurt c i e * n_r2 e) (n_dist_r e)) (vscale (charge (n_type e) * hurt c i e) (p i))) else v0) else v0.
Definition dT3 (c : conf) (i : nat) (e : neigh) : vec := if uf c then (if k3 c i e then 
  vscale (-1) (vsub (vscale ((3 * rpi i e * rpj e - sprod (p i) (p (n_nr e))) * half i e (- ggel (n_r e))) (n_dist e))
     (vscale (3 * half i e (- gel (n_r e)) / n_r2 e) (vsub (vsub (vscale (2 * rpi i e * rpj e) (n_dist e)) (vscale (rpi i e * n_r e) (p (n_nr e)))) (vscale (rpj e * n_r e) (p i)))))
   else v0) else v0.
Definition dP1 (c : conf) (i : nat) (e : neigh) : R := if k1 c i e then -1 * (charge (typ c i) * rpj e * hurt c i e * n_r e) else 0.
Definition dP2 (c : conf) (i : nat) (e : neigh) : R := if k2 c i e then 1 * (charge (n_type e) * rpi i e * hurt c i e * n_r e) else 0.
Definition dP3 (c : conf) (i : nat) (e : neigh) : R := if k3 c i e then - (3 * rpi i e * rpj e - sprod (p i) (p (n_nr e))) * half i e (- gel (n_r e)) else 0.
Definition dT (c : conf) (i : nat) (e : neigh) : vec := vadd (vadd (dT1 c i e) (dT2 c i e)) (dT3 c i e).
Definition dP (c : conf) (i : nat) (e : neigh) : R := dP1 c i e + dP2 c i e + dP3 c i e.
Lemma clean_spec : forall ci c, body_spec (clean ci c) ci (dT c) (dP c) (STRESS bld && us c).
Proof.
  intros ci c.
  assert (A : body_spec (clean1 ci c) ci (dT1 c) (dP1 c) (STRESS bld && us c)) by exact (cond_spec bld ci c (k1 c) _ _).
  assert (B : body_spec (clean2 ci c) ci (dT2 c) (dP2 c) (STRESS bld && us c)) by exact (cond_spec bld ci c (k2 c) _ _).
  assert (C : body_spec (clean3 ci c) ci (dT3 c) (dP3 c) (STRESS bld && us c)) by exact (cond_spec bld ci c (k3 c) _ _).
  exact (body_comp _ _ _ _ _ _ _ _ (body_comp _ _ _ _ _ _ _ _ A B) C).
Qed.
Definition fourth_loop (ci : nat) (c : conf) (s : dev) : dev :=
  pdv (for_up (cnfstart c) (cnfstart c + inconf c) (fourth_atom bld charge alpha dpb dpc gel ggel dp_cut p ci c) (mk_proj s 0 0)).
(** every polarisable type of the configuration has a charge *)
Definition all_charged (c : conf) : Prop := forall a, (cnfstart c <= a < cnfstart c + inconf c)%nat -> alpha (typ c a) <> 0 -> charge (typ c a) <> 0.
Definition typed (c : conf) : Prop := forall i e, (cnfstart c <= i < cnfstart c + inconf c)%nat -> In e (nb c i) ->
  (cnfstart c <= n_nr e < cnfstart c + inconf c)%nat /\ n_type e = typ c (n_nr e).
Lemma fourth_clean : forall ci c s, all_charged c -> typed c ->
  fourth_loop ci c s = for_up (cnfstart c) (cnfstart c + inconf c) (fun i s => fold_left (clean ci c i) (nb c i) s) s.
Proof.
  intros ci c s AC TY. unfold fourth_loop.
  assert (G : forall n, (n <= inconf c)%nat -> forall x, pdv (for_up (cnfstart c) (cnfstart c + n) (fourth_atom bld charge alpha dpb dpc gel ggel dp_cut p ci c) x) =
    for_up (cnfstart c) (cnfstart c + n) (fun i s => fold_left (clean ci c i) (nb c i) s) (pdv x)).
  { induction n; intros Hn x.
    - unfold for_up. rewrite Nat.add_0_r, Nat.sub_diag. reflexivity.
    - rewrite <- plus_n_Sm. rewrite !for_up_S by lia. rewrite <- IHn by lia. unfold fourth_atom at 1.
      set (y := for_up _ (_ + n) _ x). clearbody y. clear IHn. set (i := (cnfstart c + n)%nat).
      assert (IN : forall e, In e (nb c i) -> alpha (n_type e) <> 0 -> charge (n_type e) <> 0).
      { intros e He. destruct (TY i e ltac:(unfold i; lia) He) as [R1 ->]. apply AC. auto. }
      assert (I0 : alpha (typ c i) <> 0 -> charge (typ c i) <> 0) by (apply AC; unfold i; lia).
      revert y IN. generalize (nb c i). induction l as [|e l IH]; intros y IN; [auto|]. cbn [fold_left]. rewrite IH by (intros; apply IN; simpl; auto).
      f_equal. apply clean_eq; auto. apply IN. simpl. auto. }
  rewrite G by lia. reflexivity.
Qed.

(** ** fifth loop *)
Definition eself (c : conf) (i : nat) : R :=
  (if nz (charge (typ c i)) then - (self_coef * (charge (typ c i) * charge (typ c i))) else 0) +
  (if (DIPOLE && polar alpha c i)%bool then sprod (p i) (p i) / (2 * alpha (typ c i)) else 0).
Notation SE := (self_energy DIPOLE charge alpha self_coef p).
Lemma self_adds1 : forall ci c i, adds ci (SE ci c i) (fun _ => v0) (eself c i) (fun _ => 0).
Proof.
  intros ci c i.
  assert (A : forall x, adds ci (add_en ci x) (fun _ => v0) x (fun _ => 0)).
  { intros x. constructor; intros; simpl; auto; [vring| |].
    - unfold setf. destruct (Nat.eqb_spec d ci) as [->|]; ring.
    - destruct (Nat.eqb d ci); ring. }
  unfold self_energy, eself. cbv zeta. set (x1 := - (self_coef * _)). set (x2 := sprod _ _ / _).
  destruct (nz (charge (typ c i))), (DIPOLE && polar alpha c i)%bool.
  - eapply adds_ext; [apply (adds_comp ci _ _ _ _ _ _ _ _ (A x1) (A x2))|intros; reflexivity|intros; vring|reflexivity|intros; simpl; ring].
  - eapply adds_ext; [apply (A x1)|intros; reflexivity|reflexivity|ring|reflexivity].
  - eapply adds_ext; [apply (A x2)|intros; reflexivity|reflexivity|ring|reflexivity].
  - eapply adds_ext; [apply adds_id|intros; reflexivity|reflexivity|ring|reflexivity].
Qed.
Lemma self_score : forall ci c i k s, SE ci c i (score_atom bld c k s) = score_atom bld c k (SE ci c i s).
Proof.
  intros ci c i k s. unfold self_energy, score_atom, add_en. destruct (uf c); [|auto].
  destruct (nz (charge (typ c i))), (DIPOLE && polar alpha c i)%bool; reflexivity.
Qed.
Lemma self_scores : forall ci c i lo n s, SE ci c i (for_up lo (lo + n) (score_atom bld c) s) = for_up lo (lo + n) (score_atom bld c) (SE ci c i s).
Proof.
  intros ci c i lo n. induction n; intros s.
  - unfold for_up. rewrite Nat.add_0_r, Nat.sub_diag. reflexivity.
  - rewrite <- plus_n_Sm. rewrite !for_up_S by lia. rewrite self_score, IHn. auto.
Qed.
Lemma fifth_split : forall ci c lo n s, for_up lo (lo + n) (fifth_atom bld DIPOLE charge alpha self_coef p ci c) s =
  for_up lo (lo + n) (score_atom bld c) (for_up lo (lo + n) (SE ci c) s).
Proof.
  intros ci c lo n. induction n; intros s.
  - unfold for_up. rewrite Nat.add_0_r, Nat.sub_diag. reflexivity.
  - rewrite <- plus_n_Sm. rewrite !for_up_S by lia. rewrite IHn. unfold fifth_atom. rewrite self_scores. auto.
Qed.
(** ** one configuration *)
Definition eloops (ci : nat) (c : conf) (s : dev) : dev :=
  let lo := cnfstart c in
  let hi := (cnfstart c + inconf c)%nat in
  let s := for_up lo hi (second_atom bld phi dphi in_range charge fel gel dp_cut ci c) s in
  let s := if DIPOLE then fourth_loop ci c s else s in
  for_up lo hi (SE ci c) s.
End Fourth.
Definition next (c : conf) (d : dip) : dip := if DIPOLE then dipoles charge alpha dpb dpc gel dp_cut dp_tol dp_mix c d else d.
Notation CB := (config_body bld DIPOLE phi dphi in_range charge alpha dpb dpc fel gel ggel dp_cut dp_tol dp_mix self_coef eweight sweight).
Lemma config_eq : forall ci c s, CB ci c s =
  mk_elst (gconfig bld eweight sweight (fun _ => 0) ci c c (eloops (p_ind (next c (edp s))) ci c) (edv s)) (next c (edp s)).
Proof. intros ci c s. unfold config_body, gconfig, eloops, fourth_loop. cbv zeta. rewrite fifth_split. reflexivity. Qed.

Variables (cs : nat -> conf) (nconf : nat).
Definition dips (n : nat) (d : dip) : dip := for_up 0 n (fun ci => next (cs ci)) d.
Lemma dips_S : forall n d, dips (S n) d = next (cs n) (dips n d).
Proof. intros. unfold dips. rewrite for_up_S by lia. auto. Qed.
Notation CF := (calc_forces bld DIPOLE phi dphi in_range charge alpha dpb dpc fel gel ggel dp_cut dp_tol dp_mix self_coef eweight sweight punish).
Theorem el_calc_eq : forall s, CF cs nconf s =
  mk_elst (groutine bld eweight sweight (fun _ => 0) punish cs nconf (fun c => c) (fun ci => eloops (p_ind (dips (S ci) (edp s))) ci (cs ci)) (edv s))
    (dips nconf (edp s)).
Proof.
  intros [v d]. unfold calc_forces, groutine. cbv zeta. cbn [edv edp].
  assert (G : forall n v, for_up 0 n (fun ci => CB ci (cs ci)) (mk_elst v d) =
    mk_elst (for_up 0 n (fun ci => gconfig bld eweight sweight (fun _ => 0) ci (cs ci) (cs ci) (eloops (p_ind (dips (S ci) d)) ci (cs ci))) v) (dips n d)).
  { induction n; intros w; [reflexivity|]. rewrite !for_up_S by lia. rewrite IHn. rewrite config_eq. cbn [edv edp]. rewrite <- dips_S. auto. }
  rewrite G. reflexivity.
Qed.
End El.
