(** Gradient of the electrostatic energy with the tail functions of the code; independence of the cell. *)
From Coq Require Import Reals ZArith List Bool Lia Lra.
From Verif Require Import Vec NbrModel NbrProof NbrProof2 NbrProof3 PairModel PairProof PairSpec PairProof2 PairProof3 BondProof BoProof EamSpec GradProof CellSpec CellProof FuncModel FuncProof3
  ElSpec ElModel ElProof ElProof2 ElProof3 ElProof5 ElProof6 ElProof7.
Import ListNotations.
Local Open Scope R_scope.

(** elstat_shift and its gradients as functions of the distance *)
Definition sh_f (erfc : R -> R) (dip : bool) (rc kappa r : R) : R := fst (fst (elstat_shift erfc dip rc r kappa)).
Definition sh_g (erfc : R -> R) (dip : bool) (rc kappa r : R) : R := snd (fst (elstat_shift erfc dip rc r kappa)).
Definition sh_h (erfc : R -> R) (dip : bool) (rc kappa r : R) : R := snd (elstat_shift erfc dip rc r kappa).
Definition dsf_f (erfc : R -> R) (rc kappa r : R) : R := fst (fst (elstat_dsf erfc false rc r kappa)).
Definition dsf_g (erfc : R -> R) (rc kappa r : R) : R := snd (fst (elstat_dsf erfc false rc r kappa)).
Section Tails.
Variables (erfc : R -> R) (kappa rc : R).
Hypothesis ERF : forall x, 0 < x -> derivable_pt_lim erfc x (- 2 / sqrt PI * exp (- (x * x))).
Hypothesis KP : 0 < kappa.
Lemma tail_cut : forall f g r, (forall x, 0 < x -> derivable_pt_lim f x (x * g x)) -> f rc = 0 -> g rc = 0 -> 0 < r ->
  derivable_pt_lim (cutf rc f) r (cutf rc (fun x => x * g x) r).
Proof.
  intros f g r D F G Hr. unfold cutf at 2. apply (cutf_deriv rc f (r * g r) r); auto. intros ->. split; auto. rewrite G. ring.
Qed.
Lemma erf_in : forall r x, 0 < x < kappa * r + 1 -> derivable_pt_lim erfc x (- 2 / sqrt PI * exp (- (x * x))).
Proof. intros r x H. apply ERF. lra. Qed.
Lemma sh_d : forall dip x, 0 < x -> derivable_pt_lim (sh_f erfc dip rc kappa) x (x * sh_g erfc dip rc kappa x).
Proof. intros dip x H. apply (shift_deriv erfc (kappa * x + 1) kappa (erf_in x) KP); lra. Qed.
Lemma sh_d2 : forall x, 0 < x -> derivable_pt_lim (sh_g erfc true rc kappa) x (x * sh_h erfc true rc kappa x).
Proof. intros x H. apply (shift_deriv2 erfc (kappa * x + 1) kappa (erf_in x) KP); lra. Qed.
Lemma dsf_d : forall x, 0 < x -> derivable_pt_lim (dsf_f erfc rc kappa) x (x * dsf_g erfc rc kappa x).
Proof. intros x H. apply (dsf_deriv erfc (kappa * x + 1) kappa (erf_in x) KP); lra. Qed.
Lemma sh_cut : forall dip r, 0 < r -> derivable_pt_lim (cutf rc (sh_f erfc dip rc kappa)) r (cutf rc (fun x => x * sh_g erfc dip rc kappa x) r).
Proof. intros dip r Hr. destruct (shift_at_cut erfc kappa rc dip) as (A & B & _). apply tail_cut; auto. apply sh_d. Qed.
Lemma sh_cut2 : forall r, 0 < r -> derivable_pt_lim (cutf rc (sh_g erfc true rc kappa)) r (cutf rc (fun x => x * sh_h erfc true rc kappa x) r).
Proof. intros r Hr. destruct (shift_at_cut erfc kappa rc true) as (_ & B & C). apply tail_cut; auto. apply sh_d2. Qed.
Lemma dsf_cut : 0 < rc -> forall r, 0 < r -> derivable_pt_lim (cutf rc (dsf_f erfc rc kappa)) r (cutf rc (fun x => x * dsf_g erfc rc kappa x) r).
Proof. intros RC r Hr. destruct (dsf_at_cut erfc kappa rc RC) as (A & B). apply tail_cut; auto. apply dsf_d. Qed.
End Tails.

Section Total.
Variables (c : conf) (pos : nat -> vec) (bx : box) (rcut : nat -> nat -> R).
Hypothesis GEO : geometry c pos bx rcut.
Notation lo := (cnfstart c).
Notation hi := (cnfstart c + inconf c)%nat.
Variable L : nat -> list (nat * image).
Hypothesis HL : forall a, (lo <= a < hi)%nat -> all_neighbors c pos bx rcut a (L a).
Variables (a : nat) (u : vec).
Hypothesis Ha : (lo <= a < hi)%nat.
Variables (erfc : R -> R) (kappa rc : R).
Hypothesis ERF : forall x, 0 < x -> derivable_pt_lim erfc x (- 2 / sqrt PI * exp (- (x * x))).
Hypothesis KP : 0 < kappa.
Variable charge : nat -> R.
Lemma in_list_pos : forall i v, (lo <= i < hi)%nat -> In v (L i) -> 0 < dist pos bx i v.
Proof. exact (r_pos c pos bx rcut GEO L HL). Qed.
Theorem charges_gradient : derivable_pt_lim (fun t => coulomb_energy c (moved pos a u t) bx charge (sh_f erfc false rc kappa) rc L) 0
  (- sprod u (coulomb_force c pos bx charge (sh_g erfc false rc kappa) rc L a)).
Proof. apply (coulomb_gradient c pos bx rcut GEO L HL a u Ha). intros i v Hi Hv. apply (sh_cut erfc kappa rc ERF KP). apply in_list_pos; auto. Qed.
Theorem dsf_gradient : 0 < rc -> derivable_pt_lim (fun t => coulomb_energy c (moved pos a u t) bx charge (dsf_f erfc rc kappa) rc L) 0
  (- sprod u (coulomb_force c pos bx charge (dsf_g erfc rc kappa) rc L a)).
Proof. intros RC. apply (coulomb_gradient c pos bx rcut GEO L HL a u Ha). intros i v Hi Hv. apply (dsf_cut erfc kappa rc ERF KP RC). apply in_list_pos; auto. Qed.
Variables (alpha : nat -> R) (dpb dpc : nat -> nat -> R).
Hypothesis BS : forall s t, dpb s t = dpb t s.
Hypothesis CS : forall s t, dpc s t = dpc t s.
Variable p : nat -> vec.
Theorem dipoles_gradient : derivable_pt_lim (fun t => coulomb_energy c (moved pos a u t) bx charge (sh_f erfc true rc kappa) rc L +
    (dip_energy c (moved pos a u t) bx charge (sh_g erfc true rc kappa) rc L alpha dpb dpc p + dip_self c alpha p)) 0
  (- sprod u (vadd (coulomb_force c pos bx charge (sh_g erfc true rc kappa) rc L a)
                   (dip_force c pos bx charge (sh_g erfc true rc kappa) (sh_h erfc true rc kappa) rc L alpha dpb dpc p a))).
Proof.
  set (X := coulomb_force _ _ _ _ _ _ _ _). set (Y := dip_force _ _ _ _ _ _ _ _ _ _ _ _ _).
  apply (deriv_eq _ _ (- sprod u X + (- sprod u Y + 0))); [|unfold sprod; simpl; ring].
  apply (derivable_pt_lim_plus (fun t => coulomb_energy c (moved pos a u t) bx charge (sh_f erfc true rc kappa) rc L)
    (fun t => dip_energy c (moved pos a u t) bx charge (sh_g erfc true rc kappa) rc L alpha dpb dpc p + dip_self c alpha p)).
  - apply (coulomb_gradient c pos bx rcut GEO L HL a u Ha). intros i v Hi Hv. apply (sh_cut erfc kappa rc ERF KP). apply in_list_pos; auto.
  - apply (derivable_pt_lim_plus (fun t => dip_energy c (moved pos a u t) bx charge (sh_g erfc true rc kappa) rc L alpha dpb dpc p) (fun _ => dip_self c alpha p)); [|apply derivable_pt_lim_const].
    apply (dip_gradient c pos bx rcut GEO L HL a u Ha charge rc _ _ alpha dpb dpc BS CS p). intros i v Hi Hv. apply (sh_cut2 erfc kappa rc ERF KP). apply in_list_pos; auto.
Qed.
End Total.

(** ** the same crystal in another cell *)
Section Cell.
Variables (c1 c2 : conf) (pos1 pos2 : nat -> vec) (b1 b2 : box) (m : nat) (tau : nat * image -> nat * image).
Hypothesis SC : same_crystal c1 c2 pos1 pos2 b1 b2 m tau.
Hypothesis LAT : forall A N, fst (tau (A, N)) = fst (tau (A, (0, 0, 0)%Z)).
Variable rcut : nat -> nat -> R.
Notation in1 i := (cnfstart c1 <= i < cnfstart c1 + inconf c1)%nat.
Notation in2 i := (cnfstart c2 <= i < cnfstart c2 + inconf c2)%nat.
Notation rp := (rep tau).
Variables L1 L2 : nat -> list (nat * image).
Hypothesis HL1 : forall a, in1 a -> all_neighbors c1 pos1 b1 rcut a (L1 a).
Hypothesis HL2 : forall a, in2 a -> all_neighbors c2 pos2 b2 rcut a (L2 a).
Variables (charge alpha : nat -> R) (dpb dpc : nat -> nat -> R) (f g h : R -> R) (rc : R).
Lemma env_rep : forall A B N, fst (env tau A (B, N)) = rp B.
Proof. intros. unfold env, rep. cbn [fst]. apply LAT. Qed.
Notation eD := (env_dvec c1 c2 pos1 pos2 b1 b2 m tau SC).
Notation eR := (env_dist c1 c2 pos1 pos2 b1 b2 m tau SC).
Notation eT := (rep_type c1 c2 pos1 pos2 b1 b2 m tau SC).
Notation eS := (env_sum c1 c2 pos1 pos2 b1 b2 m tau SC rcut L1 L2 HL1 HL2).
Lemma env_vsum : forall A (f1 f2 : nat * image -> vec), in2 A -> (forall B N, in2 B -> f2 (B, N) = f1 (env tau A (B, N))) -> vsum f2 (L2 A) = vsum f1 (L1 (rp A)).
Proof. intros A f1 f2 HA E. unfold vsum. f_equal; apply eS; auto; intros B N HB; rewrite E; auto. Qed.
Lemma env_within : forall A B N, in2 A -> in2 B -> within pos2 b2 rc A (B, N) = within pos1 b1 rc (rp A) (env tau A (B, N)).
Proof. intros. unfold within. rewrite eR by auto. auto. Qed.
Lemma same_charge_self : forall k, charge_self c2 charge k = INR m * charge_self c1 charge k.
Proof.
  intros k. unfold charge_self. rewrite <- (rep_sum c1 c2 pos1 pos2 b1 b2 m tau SC). apply rsumf_ext. intros A HA. apply in_seq in HA. rewrite eT by lia. auto.
Qed.
Lemma env_coulomb : forall A B N, in2 A -> in2 B -> coulomb_pair c2 pos2 b2 charge f rc A (B, N) = coulomb_pair c1 pos1 b1 charge f rc (rp A) (env tau A (B, N)).
Proof. intros. unfold coulomb_pair. cbn [fst]. rewrite env_within, eR, env_rep, !eT by auto. auto. Qed.
Lemma env_cbond : forall A B N, in2 A -> in2 B -> coulomb_bond c2 pos2 b2 charge g rc A (B, N) = coulomb_bond c1 pos1 b1 charge g rc (rp A) (env tau A (B, N)).
Proof. intros. unfold coulomb_bond. cbn [fst]. rewrite env_within, eR, eD, env_rep, !eT by auto. auto. Qed.
Lemma half_sum : forall (F1 F2 : nat -> nat * image -> R), (forall A B N, in2 A -> in2 B -> F2 A (B, N) = F1 (rp A) (env tau A (B, N))) ->
  1/2 * rsumf (fun A => rsumf (F2 A) (L2 A)) (seq (cnfstart c2) (inconf c2)) = INR m * (1/2 * rsumf (fun a => rsumf (F1 a) (L1 a)) (seq (cnfstart c1) (inconf c1))).
Proof.
  intros F1 F2 E. rewrite (rsumf_ext _ (fun A => (fun a => rsumf (F1 a) (L1 a)) (rp A))).
  - rewrite (rep_sum c1 c2 pos1 pos2 b1 b2 m tau SC (fun a => rsumf (F1 a) (L1 a))). ring.
  - intros A HA. apply in_seq in HA. apply eS; [lia|]. intros. apply E; auto; lia.
Qed.
Lemma same_coulomb : coulomb_energy c2 pos2 b2 charge f rc L2 = INR m * coulomb_energy c1 pos1 b1 charge f rc L1.
Proof. apply half_sum. exact env_coulomb. Qed.
Lemma same_coulomb_virial : forall k, coulomb_virial c2 pos2 b2 charge g rc L2 k = INR m * coulomb_virial c1 pos1 b1 charge g rc L1 k.
Proof.
  intros k. unfold coulomb_virial. rewrite (half_sum (fun a v => stress_of (dvec pos1 b1 a v) (coulomb_bond c1 pos1 b1 charge g rc a v) k)); [ring|].
  intros. rewrite eD, env_cbond by auto. auto.
Qed.
(** fields and moments *)
Lemma same_static : forall A, in2 A -> static_field c2 pos2 b2 charge g rc L2 A = static_field c1 pos1 b1 charge g rc L1 (rp A).
Proof. intros A HA. apply env_vsum; auto. intros B N HB. cbn [fst]. rewrite env_within, eR, eD, env_rep, !eT by auto. auto. Qed.
Lemma env_damped : forall A B N, in2 A -> in2 B -> damped c2 dpb dpc A (B, N) = damped c1 dpb dpc (rp A) (env tau A (B, N)).
Proof. intros. unfold damped. cbn [fst]. rewrite env_rep, !eT by auto. auto. Qed.
Lemma env_damp : forall A B N, in2 A -> in2 B -> damp c2 pos2 b2 dpb dpc A (B, N) = damp c1 pos1 b1 dpb dpc (rp A) (env tau A (B, N)).
Proof. intros. unfold damp. cbn [fst]. rewrite env_damped, eR, env_rep, !eT by auto. auto. Qed.
Lemma env_ddamp : forall A B N, in2 A -> in2 B -> ddamp c2 pos2 b2 dpb dpc A (B, N) = ddamp c1 pos1 b1 dpb dpc (rp A) (env tau A (B, N)).
Proof. intros. unfold ddamp. cbn [fst]. rewrite env_damped, eR, env_rep, !eT by auto. auto. Qed.
Lemma same_damped : forall A, in2 A -> damped_moment c2 pos2 b2 charge g rc L2 alpha dpb dpc A = damped_moment c1 pos1 b1 charge g rc L1 alpha dpb dpc (rp A).
Proof. intros A HA. apply env_vsum; auto. intros B N HB. cbn [fst]. rewrite env_within, env_damp, eR, eD, env_rep, !eT by auto. auto. Qed.
(** vectors of the polarisable atoms that repeat with the cell *)
Definition copies (p1 p2 : nat -> vec) : Prop := forall A, in2 A -> alpha (typ c2 A) <> 0 -> p2 A = p1 (rp A).
Lemma same_mom : forall p1 p2, copies p1 p2 -> forall A, in2 A -> mom c2 alpha p2 A = mom c1 alpha p1 (rp A).
Proof. intros p1 p2 P A HA. unfold mom, zero. rewrite eT by auto. destruct (Req_EM_T (alpha (typ c2 A)) 0); auto. Qed.
Lemma same_field : forall p1 p2, copies p1 p2 -> forall A, in2 A -> dipole_field c2 pos2 b2 g rc L2 alpha p2 A = dipole_field c1 pos1 b1 g rc L1 alpha p1 (rp A).
Proof. intros p1 p2 P A HA. apply env_vsum; auto. intros B N HB. cbn [fst]. rewrite env_within, eR, eD, env_rep, (same_mom p1 p2 P) by auto. auto. Qed.
Lemma env_dip : forall p1 p2, copies p1 p2 -> forall A B N, in2 A -> in2 B ->
  dip_pair c2 pos2 b2 charge g rc alpha dpb dpc p2 A (B, N) = dip_pair c1 pos1 b1 charge g rc alpha dpb dpc p1 (rp A) (env tau A (B, N)) /\
  dip_bond c2 pos2 b2 charge g h rc alpha dpb dpc p2 A (B, N) = dip_bond c1 pos1 b1 charge g h rc alpha dpb dpc p1 (rp A) (env tau A (B, N)).
Proof.
  intros p1 p2 P A B N HA HB. unfold dip_pair, dip_bond, mixed_pair, mixed_bond, dipole_pair, dipole_bond, lever. cbn [fst].
  rewrite env_within, env_damp, env_ddamp, eR, eD, env_rep, !eT, !(same_mom p1 p2 P) by auto. auto.
Qed.
Lemma same_dip : forall p1 p2, copies p1 p2 -> dip_energy c2 pos2 b2 charge g rc L2 alpha dpb dpc p2 = INR m * dip_energy c1 pos1 b1 charge g rc L1 alpha dpb dpc p1.
Proof. intros p1 p2 P. apply half_sum. intros. apply env_dip; auto. Qed.
Lemma same_dip_virial : forall p1 p2, copies p1 p2 -> forall k, dip_virial c2 pos2 b2 charge g h rc L2 alpha dpb dpc p2 k = INR m * dip_virial c1 pos1 b1 charge g h rc L1 alpha dpb dpc p1 k.
Proof.
  intros p1 p2 P k. unfold dip_virial. rewrite (half_sum (fun a v => stress_of (dvec pos1 b1 a v) (dip_bond c1 pos1 b1 charge g h rc alpha dpb dpc p1 a v) k)); [ring|].
  intros A B N HA HB. rewrite eD by auto. destruct (env_dip p1 p2 P A B N HA HB) as [_ ->]. auto.
Qed.
Lemma same_dip_self : forall p1 p2, copies p1 p2 -> dip_self c2 alpha p2 = INR m * dip_self c1 alpha p1.
Proof.
  intros p1 p2 P. unfold dip_self. rewrite <- (rep_sum c1 c2 pos1 pos2 b1 b2 m tau SC). apply rsumf_ext. intros A HA. apply in_seq in HA. rewrite eT by lia.
  unfold zero. destruct (Req_EM_T (alpha (typ c2 A)) 0); auto. rewrite (P A) by (auto; lia). auto.
Qed.
(** the iteration *)
Variables (tol mix : R) (e1 e2 : nat -> vec).
Hypothesis EC : copies e1 e2.
Lemma same_moment : forall f1 f2, copies f1 f2 -> copies (moment_of c1 pos1 b1 charge g rc L1 alpha dpb dpc f1) (moment_of c2 pos2 b2 charge g rc L2 alpha dpb dpc f2).
Proof. intros f1 f2 F A HA HP. unfold moment_of. rewrite same_static, same_damped, (F A), eT by auto. auto. Qed.
Notation IT1 := (iterate c1 pos1 b1 charge g rc L1 alpha dpb dpc mix e1).
Notation IT2 := (iterate c2 pos2 b2 charge g rc L2 alpha dpb dpc mix e2).
Lemma same_mixed : forall k x1 x2, copies (fst x1) (fst x2) -> copies (snd x1) (snd x2) -> copies (mixed mix k x1) (mixed mix k x2).
Proof. intros k x1 x2 F S A HA HP. unfold mixed. destruct k; rewrite (F A), ?(S A) by auto; auto. Qed.
Lemma same_iterate : forall k, copies (fst (IT1 k)) (fst (IT2 k)) /\ copies (snd (IT1 k)) (snd (IT2 k)).
Proof.
  induction k; [split; exact EC|]. destruct IHk as [F S]. cbn [iterate fst snd]. split; auto.
  intros A HA HP. apply same_field; auto. apply same_moment, same_mixed; auto.
Qed.
Lemma same_step : forall k, copies (step_moment c1 pos1 b1 charge g rc L1 alpha dpb dpc mix e1 k) (step_moment c2 pos2 b2 charge g rc L2 alpha dpb dpc mix e2 k).
Proof. intros k. destruct (same_iterate k) as [F S]. apply same_moment, same_mixed; auto. Qed.
Lemma same_change : (0 < inconf c1)%nat -> forall k, step_change c2 pos2 b2 charge g rc L2 alpha dpb dpc mix e2 k = step_change c1 pos1 b1 charge g rc L1 alpha dpb dpc mix e1 k.
Proof.
  intros NE k. unfold step_change. f_equal. pose proof (sc_m _ _ _ _ _ _ _ _ SC) as MP. rewrite (sc_number _ _ _ _ _ _ _ _ SC), mult_INR.
  set (T1 := fun a => if zero (alpha (typ c1 a)) then 0 else sqv (vscale (alpha (typ c1 a)) (vsub (fst (IT1 k) a) (fst (IT1 (S k)) a)))).
  rewrite (rsumf_ext _ (fun A => T1 (rp A))).
  - rewrite <- (sc_number _ _ _ _ _ _ _ _ SC). rewrite (rep_sum c1 c2 pos1 pos2 b1 b2 m tau SC T1). field. split; apply not_0_INR; lia.
  - intros A HA. rewrite <- (sc_number _ _ _ _ _ _ _ _ SC) in HA. apply in_seq in HA. unfold T1. rewrite eT by lia. unfold zero. destruct (Req_EM_T (alpha (typ c2 A)) 0); auto.
    rewrite (proj1 (same_iterate k) A), (proj1 (same_iterate (S k)) A) by (auto; lia). auto.
Qed.
Lemma same_stops : (0 < inconf c1)%nat -> forall k, stops c2 pos2 b2 charge g rc L2 alpha dpb dpc tol mix e2 k <-> stops c1 pos1 b1 charge g rc L1 alpha dpb dpc tol mix e1 k.
Proof. intros NE k. unfold stops, given_up. rewrite same_change by auto. apply iff_refl. Qed.
Lemma same_given_up : (0 < inconf c1)%nat -> forall k, given_up c2 pos2 b2 charge g rc L2 alpha dpb dpc mix e2 k <-> given_up c1 pos1 b1 charge g rc L1 alpha dpb dpc mix e1 k.
Proof. intros NE k. unfold given_up. rewrite same_change by auto. apply iff_refl. Qed.
End Cell.

Theorem el_cell_independent : forall bld DIPOLE phi dphi in_range charge alpha dpb dpc fel gel ggel rc tol mix self_coef ew1 sw1 ew2 sw2 pu1 pu2 cs1 cs2 n1 n2,
  STRESS bld = true ->
  (forall ci, cnfstart (cs1 (S ci)) = (cnfstart (cs1 ci) + inconf (cs1 ci))%nat) ->
  (forall ci, cnfstart (cs2 (S ci)) = (cnfstart (cs2 ci) + inconf (cs2 ci))%nat) ->
  (forall s t r, phi s t r = phi t s r) -> (forall s t r, dphi s t r = dphi t s r) ->
  (forall s t r, in_range s t r = in_range t s r) -> (forall s t, dpb s t = dpb t s) -> (forall s t, dpc s t = dpc t s) ->
  forall pos1 pos2 bx1 bx2 rcut,
  (forall ci, (ci < n1)%nat -> geometry (cs1 ci) pos1 (bx1 ci) rcut) ->
  (forall ci, (ci < n2)%nat -> geometry (cs2 ci) pos2 (bx2 ci) rcut) ->
  (forall ci, (ci < n1)%nat -> DIPOLE = true -> all_charged charge alpha (cs1 ci)) ->
  (forall ci, (ci < n2)%nat -> DIPOLE = true -> all_charged charge alpha (cs2 ci)) ->
  forall x y m tau s1 s2, (x < n1)%nat -> (y < n2)%nat -> (0 < inconf (cs1 x))%nat -> conf_vol (cs1 x) <> 0 ->
  same_crystal (cs1 x) (cs2 y) pos1 pos2 (bx1 x) (bx2 y) m tau ->
  (forall A N, fst (tau (A, N)) = fst (tau (A, (0, 0, 0)%Z))) ->
  (forall A, (cnfstart (cs2 y) <= A < cnfstart (cs2 y) + inconf (cs2 y))%nat -> E_ind (edp s2) A = E_ind (edp s1) (fst (tau (A, (0, 0, 0)%Z)))) ->
  uf (cs1 x) = true -> us (cs1 x) = true -> uf (cs2 y) = true -> us (cs2 y) = true ->
  let r1 := calc_forces bld DIPOLE phi dphi in_range charge alpha dpb dpc fel gel ggel rc tol mix self_coef ew1 sw1 pu1 cs1 n1 s1 in
  let r2 := calc_forces bld DIPOLE phi dphi in_range charge alpha dpb dpc fel gel ggel rc tol mix self_coef ew2 sw2 pu2 cs2 n2 s2 in
  en (edv r1) x + energy_0 (cs1 x) = en (edv r2) y + energy_0 (cs2 y) /\
  (forall k, (k < 6)%nat -> str (edv r1) x k + stress_0 (cs1 x) k = str (edv r2) y k + stress_0 (cs2 y) k) /\
  (DIPOLE = true -> forall A, (cnfstart (cs2 y) <= A < cnfstart (cs2 y) + inconf (cs2 y))%nat -> alpha (typ (cs2 y) A) <> 0 ->
     p_ind (edp r2) A = p_ind (edp r1) (fst (tau (A, (0, 0, 0)%Z)))).
Proof.
  intros bld DIPOLE phi dphi in_range charge alpha dpb dpc fel gel ggel rc tol mix self_coef ew1 sw1 ew2 sw2 pu1 pu2 cs1 cs2 n1 n2 ST C1 C2 PS DS IS BS CS pos1 pos2 bx1 bx2 rcut G1 G2 AC1 AC2
    x y m tau s1 s2 Hx Hy NE VO SC LAT EC U1 S1 U2 S2 r1 r2.
  assert (EX : forall n cs pos bx, (forall ci, (ci < n)%nat -> geometry (cs ci) pos (bx ci) rcut) -> exists L, forall ci a, (ci < n)%nat ->
    (cnfstart (cs ci) <= a < cnfstart (cs ci) + inconf (cs ci))%nat -> all_neighbors (cs ci) pos (bx ci) rcut a (L ci a)).
  { intros n cs pos bx. induction n; intros G.
    - exists (fun _ _ => []). intros; lia.
    - destruct IHn as (L & HL); [intros; apply G; lia|]. destruct (all_neighbors_exist (cs n) pos (bx n) rcut (G n ltac:(lia))) as (M & HM).
      exists (fun ci => if Nat.eqb ci n then M else L ci). intros ci a H Ha. destruct (Nat.eqb_spec ci n) as [E|N]; [rewrite E in *; auto|apply HL; auto; lia]. }
  destruct (EX n1 cs1 pos1 bx1 G1) as (L1 & HL1). destruct (EX n2 cs2 pos2 bx2 G2) as (L2 & HL2). clear EX.
  destruct (el_values bld DIPOLE phi dphi in_range charge alpha dpb dpc fel gel ggel rc tol mix self_coef ew1 sw1 pu1 cs1 n1 C1 PS DS IS BS CS pos1 bx1 rcut G1 L1 HL1 AC1 s1 x Hx) as (_ & _ & E1 & T1).
  destruct (el_values bld DIPOLE phi dphi in_range charge alpha dpb dpc fel gel ggel rc tol mix self_coef ew2 sw2 pu2 cs2 n2 C2 PS DS IS BS CS pos2 bx2 rcut G2 L2 HL2 AC2 s2 y Hy) as (_ & _ & E2 & T2).
  assert (H1 : forall a, (cnfstart (cs1 x) <= a < cnfstart (cs1 x) + inconf (cs1 x))%nat -> all_neighbors (cs1 x) pos1 (bx1 x) rcut a (L1 x a)) by (intros; apply HL1; auto).
  assert (H2 : forall a, (cnfstart (cs2 y) <= a < cnfstart (cs2 y) + inconf (cs2 y))%nat -> all_neighbors (cs2 y) pos2 (bx2 y) rcut a (L2 y a)) by (intros; apply HL2; auto).
  assert (PC : DIPOLE = true -> copies (cs2 y) tau alpha (p_ind (edp r1)) (p_ind (edp r2))).
  { intros DD.
    destruct (el_dipoles bld DIPOLE phi dphi in_range charge alpha dpb dpc fel gel ggel rc tol mix self_coef ew1 sw1 pu1 cs1 n1 C1 BS CS pos1 bx1 rcut G1 L1 HL1 DD s1 x Hx) as (k1 & _ & K1 & K2 & K3).
    destruct (el_dipoles bld DIPOLE phi dphi in_range charge alpha dpb dpc fel gel ggel rc tol mix self_coef ew2 sw2 pu2 cs2 n2 C2 BS CS pos2 bx2 rcut G2 L2 HL2 DD s2 y Hy) as (k2 & _ & J1 & J2 & J3).
    assert (EC' : copies (cs2 y) tau alpha (E_ind (edp s1)) (E_ind (edp s2))) by (intros A HA _; apply EC; auto).
    pose proof (same_stops (cs1 x) (cs2 y) pos1 pos2 (bx1 x) (bx2 y) m tau SC LAT rcut (L1 x) (L2 y) H1 H2 charge alpha dpb dpc gel rc tol mix _ _ EC' NE) as SS.
    pose proof (same_given_up (cs1 x) (cs2 y) pos1 pos2 (bx1 x) (bx2 y) m tau SC LAT rcut (L1 x) (L2 y) H1 H2 charge alpha dpb dpc gel rc mix _ _ EC' NE) as SG.
    assert (EK : k1 = k2).
    { destruct (Nat.lt_trichotomy k1 k2) as [H|[H|H]]; auto; exfalso; [apply (J1 k1 H), SS, K2|apply (K1 k2 H), SS, J2]. }
    subst k2. intros A HA HP.
    pose proof (rep_in _ _ _ _ _ _ _ _ SC A HA) as RA. pose proof (rep_type _ _ _ _ _ _ _ _ SC A HA) as RT.
    assert (HP1 : alpha (typ (cs1 x) (rep tau A)) <> 0) by (rewrite RT; auto).
    destruct (J3 A HA HP) as [A1 A2]. destruct (K3 (rep tau A) RA HP1) as [B1 B2].
    assert (DEC : given_up (cs2 y) pos2 (bx2 y) charge gel rc (L2 y) alpha dpb dpc mix (E_ind (edp s2)) k1 \/ ~ given_up (cs2 y) pos2 (bx2 y) charge gel rc (L2 y) alpha dpb dpc mix (E_ind (edp s2)) k1).
    { unfold given_up. destruct (Rlt_dec 10 (step_change (cs2 y) pos2 (bx2 y) charge gel rc (L2 y) alpha dpb dpc mix (E_ind (edp s2)) k1)), (Nat.ltb_spec 0 k1), (Nat.ltb_spec 50 k1); try (left; split; [lia|]; auto; fail); right; intros [Q1 [Q2|Q2]]; try lia; auto. }
    destruct DEC as [GU|GU].
    - unfold r2, r1. rewrite (proj1 (A1 GU)), (proj1 (B1 (proj1 (SG k1) GU))).
      apply (same_moment (cs1 x) (cs2 y) pos1 pos2 (bx1 x) (bx2 y) m tau SC LAT rcut (L1 x) (L2 y) H1 H2 charge alpha dpb dpc gel rc); auto. intros B HB HBP. auto.
    - unfold r2, r1. rewrite (proj1 (A2 GU)), (proj1 (B2 (fun Q => GU (proj2 (SG k1) Q)))).
      apply (same_step (cs1 x) (cs2 y) pos1 pos2 (bx1 x) (bx2 y) m tau SC LAT rcut (L1 x) (L2 y) H1 H2 charge alpha dpb dpc gel rc mix _ _ EC' k1); auto. }
  fold r1 in E1, T1. fold r2 in E2, T2. clearbody r1 r2.
  pose proof (sc_m _ _ _ _ _ _ _ _ SC) as MP. assert (MR : INR m <> 0) by (apply not_0_INR; lia).
  assert (NR : INR (inconf (cs1 x)) <> 0) by (apply not_0_INR; lia).
  split; [|split].
  - rewrite E1, E2, (sc_number _ _ _ _ _ _ _ _ SC), mult_INR. unfold eenergy.
    rewrite (same_energy _ _ _ _ _ _ _ _ SC rcut phi in_range (L1 x) (L2 y) H1 H2).
    rewrite (same_coulomb (cs1 x) (cs2 y) pos1 pos2 (bx1 x) (bx2 y) m tau SC LAT rcut (L1 x) (L2 y) H1 H2), (same_charge_self _ _ _ _ _ _ _ _ SC charge).
    destruct DIPOLE; [|field; auto].
    rewrite (same_dip (cs1 x) (cs2 y) pos1 pos2 (bx1 x) (bx2 y) m tau SC LAT rcut (L1 x) (L2 y) H1 H2 charge alpha dpb dpc gel (fun _ => 0) rc _ _ (PC eq_refl)).
    rewrite (same_dip_self (cs1 x) (cs2 y) pos1 pos2 (bx1 x) (bx2 y) m tau SC alpha _ _ (PC eq_refl)). field. auto.
  - intros k K. rewrite (T1 ST k K), (T2 ST k K), U1, S1, U2, S2, (sc_volume _ _ _ _ _ _ _ _ SC). cbn [andb]. unfold evirial.
    rewrite (same_virial _ _ _ _ _ _ _ _ SC rcut dphi in_range (L1 x) (L2 y) H1 H2).
    rewrite (same_coulomb_virial (cs1 x) (cs2 y) pos1 pos2 (bx1 x) (bx2 y) m tau SC LAT rcut (L1 x) (L2 y) H1 H2).
    destruct DIPOLE; [|field; auto].
    rewrite (same_dip_virial (cs1 x) (cs2 y) pos1 pos2 (bx1 x) (bx2 y) m tau SC LAT rcut (L1 x) (L2 y) H1 H2 charge alpha dpb dpc gel ggel rc _ _ (PC eq_refl)). field. auto.
  - exact PC.
Qed.
