(** Angular potentials with charges: values, error sum, gradient, independence of the cell. *)
From Coq Require Import Reals ZArith List Bool Lia Lra Permutation.
From Verif Require Import Vec NbrModel NbrProof NbrProof2 NbrProof3 LoopUtil PairModel PairProof PairSpec PairProof2 PairProof3
  ForceLoop BondProof GradProof CellSpec CellProof CellProof2 ThreeSpec ThreeProof ThreeProof2 ThreeProof3 ThreeProof4 ThreeProof5 AddProof AddProof2 BoProof
  SwModel SwProof SwProof3 SwProof4 SwProof5 AngSpec AngModel AngProof AngProof2 ElSpec ElModel ElProof ElProof3 ElProof7 ElProof12 AeModel AeProof AeProof2.
Import ListNotations.
Local Open Scope R_scope.

Section Routine.
Variable bld : build.
Variables phi dphi : nat -> nat -> R -> R.
Variable in0 : nat -> nat -> R -> bool.
Variables f df : nat -> nat -> R -> R.
Variable in1 : nat -> nat -> R -> bool.
Variables g dg : nat -> R -> R.
Variable charge : nat -> R.
Variables fel gel : R -> R.
Variables dp_cut self_coef : R.
Variables (eweight sweight punish : R) (cs : nat -> conf) (nconf : nat).
Hypothesis CONT : forall ci, cnfstart (cs (S ci)) = (cnfstart (cs ci) + inconf (cs ci))%nat.
Hypothesis DS : forall s t r, dphi s t r = dphi t s r.
Hypothesis IS : forall s t r, in0 s t r = in0 t s r.
Variables (pos : nat -> vec) (bx : nat -> box) (rcut : nat -> nat -> R).
Hypothesis FG : forall ci, (ci < nconf)%nat -> full_geometry (cs ci) pos (bx ci) rcut.
Variable L : nat -> nat -> list (nat * image).
Hypothesis HL : forall ci a, (ci < nconf)%nat -> (cnfstart (cs ci) <= a < cnfstart (cs ci) + inconf (cs ci))%nat ->
  all_neighbors (cs ci) pos (bx ci) rcut a (L ci a).
Notation lo ci := (cnfstart (cs ci)).
Notation hi ci := (cnfstart (cs ci) + inconf (cs ci))%nat.
Notation calc := (AeModel.calc_forces bld phi dphi in0 f df in1 g dg charge fel gel dp_cut self_coef eweight sweight punish cs nconf).
Notation h := (ang f in1 g).
Notation h1 := (ang1 f df in1 g).
Notation hc := (angc f in1 dg).
Notation pf ci := (pair_force (cs ci) pos (bx ci) dphi in0 (L ci)).
Notation tf ci := (three_force (cs ci) pos (bx ci) h1 hc (L ci)).
Notation cf ci := (coulomb_force (cs ci) pos (bx ci) charge gel dp_cut (L ci)).
Notation PE ci := (pair_energy (cs ci) pos (bx ci) phi in0 (L ci)).
Notation TE ci := (three_energy (cs ci) pos (bx ci) h (L ci)).
Notation CE ci := (coulomb_energy (cs ci) pos (bx ci) charge fel dp_cut (L ci)).
Notation SE ci := (charge_self (cs ci) charge self_coef).
Notation PV ci := (pair_virial (cs ci) pos (bx ci) dphi in0 (L ci)).
Notation TV ci := (three_virial (cs ci) pos (bx ci) h1 hc (L ci)).
Notation CV ci := (coulomb_virial (cs ci) pos (bx ci) charge gel dp_cut (L ci)).
Notation loops ci := (ae_loops bld phi dphi in0 f df in1 g dg charge fel gel dp_cut self_coef (cs ci) ci).

Lemma ae_calc_eq : forall s, calc s = hroutine bld eweight sweight punish cs nconf (fun ci => loops ci) s.
Proof.
  intros s. unfold AeModel.calc_forces, hroutine.
  assert (E : forall (b1 b2 : nat -> dev -> dev) lo hi t, (forall i t, b1 i t = b2 i t) -> for_up lo hi b1 t = for_up lo hi b2 t).
  { intros b1 b2 l1 h2 t Q. unfold for_up. revert t. induction (seq l1 (h2 - l1)); intros t; simpl; auto. rewrite Q. auto. }
  rewrite (E _ (fun ci => hconfig bld eweight sweight ci (cs ci) (loops ci))); [reflexivity|].
  intros i t. unfold AeModel.config_body, hconfig, ae_loops. rewrite third_split. reflexivity.
Qed.
Definition eF (ci a : nat) : vec := if inside (cs ci) a then (if uf (cs ci) then vadd (vadd (pf ci a) (tf ci a)) (cf ci a) else v0) else v0.
Definition eE (ci : nat) : R := PE ci + TE ci + CE ci - SE ci.
Definition eS (ci k : nat) : R := if (Nat.ltb k 6 && (STRESS bld && us (cs ci)) && uf (cs ci))%bool then PV ci k + TV ci k + CV ci k else 0.
Lemma ae_adds : forall ci, (ci < nconf)%nat -> adds ci (loops ci) (eF ci) (eE ci) (eS ci).
Proof. intros ci H. exact (ae_loops_adds bld phi dphi in0 f df in1 g dg charge fel gel dp_cut self_coef DS IS (cs ci) pos (bx ci) rcut ci (FG ci H) (L ci) (fun a => HL ci a H)). Qed.
Lemma ae_out : forall ci a, (ci < nconf)%nat -> (a < lo ci)%nat \/ (hi ci <= a)%nat -> eF ci a = v0.
Proof.
  intros ci a _ O. unfold eF. destruct (inside (cs ci) a) eqn:I; auto. unfold inside in I. apply andb_true_iff in I. rewrite Nat.leb_le, Nat.ltb_lt in I. lia.
Qed.
Theorem ae_values : forall s, let s' := calc s in forall ci, (ci < nconf)%nat ->
  (uf (cs ci) = true -> forall a, (lo ci <= a < hi ci)%nat ->
     frc s' a = vscale (fscale bld cs ci a) (vsub (vadd (vadd (pf ci a) (tf ci a)) (cf ci a)) (force_0 (cs ci) a))) /\
  (uf (cs ci) = false -> forall a, (lo ci <= a < hi ci)%nat -> frc s' a = v0) /\
  en s' ci = (PE ci + TE ci + CE ci - SE ci) / INR (inconf (cs ci)) - energy_0 (cs ci) /\
  (STRESS bld = true -> forall k, (k < 6)%nat -> str s' ci k =
     (if (uf (cs ci) && us (cs ci))%bool then (PV ci k + TV ci k + CV ci k) / conf_vol (cs ci) else 0) - stress_0 (cs ci) k).
Proof.
  intros s s' ci H. unfold s'. rewrite ae_calc_eq.
  destruct (hroutine_closed bld eweight sweight punish cs nconf CONT (fun ci => loops ci) eF eE eS ae_adds ae_out s) as (A & B & C & _).
  split; [|split; [|split]].
  - intros U a Ha. rewrite (A ci a H Ha). unfold hF, eF. rewrite U. apply inside_true in Ha. rewrite Ha. unfold scl, fscale.
    set (p := vadd (vadd (pf ci a) (tf ci a)) (cf ci a)). clearbody p. destruct (FWEIGHT bld); vring.
  - intros U a Ha. rewrite (A ci a H Ha). unfold hF, eF. rewrite U. apply inside_true in Ha. rewrite Ha. vring.
  - rewrite (B ci H). reflexivity.
  - intros ON k K. rewrite (C ci k H K ON). unfold hS, eS. rewrite ON. destruct (Nat.ltb_spec k 6); [|lia].
    destruct (us (cs ci)), (uf (cs ci)); cbn [andb]; auto; unfold Rdiv; ring.
Qed.
Theorem ae_error : forall s, let s' := calc s in
  err s' = rsumf (fun ci => 
     rsumf (fun a => if (uf (cs ci) && (negb (CONTRIB bld) || contrib (cs ci) a))%bool
                     then conf_weight (cs ci) * sqv (frc s' a) else 0) (seq (lo ci) (inconf (cs ci))) +
     conf_weight (cs ci) * eweight * sq (en s' ci) +
     (if STRESS bld then rsumf (fun k => conf_weight (cs ci) * sweight * sq (str s' ci k)) (seq 0 6) else 0)) (seq 0 nconf) + punish.
Proof.
  intros s s'. unfold s'. rewrite ae_calc_eq.
  destruct (hroutine_closed bld eweight sweight punish cs nconf CONT (fun ci => loops ci) eF eE eS ae_adds ae_out s) as (A & B & C & D).
  rewrite D. f_equal. apply rsumf_ext. intros ci Hc. apply in_seq in Hc. unfold hX. f_equal; [f_equal|].
  - apply rsumf_ext. intros a Ha. apply in_seq in Ha. rewrite (A ci a) by lia. reflexivity.
  - rewrite (B ci) by lia. reflexivity.
  - destruct (STRESS bld) eqn:ON; auto. apply rsumf_ext. intros k K. apply in_seq in K. rewrite (C ci k) by (auto; lia). reflexivity.
Qed.
Lemma coulomb_newton : forall ci, (ci < nconf)%nat -> vsum (cf ci) (seq (lo ci) (inconf (cs ci))) = v0.
Proof.
  intros ci H. destruct (half_exists (cs ci) pos (bx ci) rcut (FG ci H)) as (q & GEO).
  rewrite (EamProof3.vsum_ext _ (pair_force (cs ci) pos (bx ci) (fun s t x => charge s * charge t * (x * gel x)) (fun _ _ x => if Rlt_dec x dp_cut then true else false) (L ci))).
  - apply (full_newton (cs ci) pos (bx ci) rcut (FG ci H) (L ci) (fun a => HL ci a H)); auto. intros. ring.
  - intros a Ha. apply in_seq in Ha. exact (coulomb_force_is_pair (with_nb (cs ci) q) pos (bx ci) rcut GEO (L ci) (fun a => HL ci a H) charge dp_cut gel a ltac:(cbn; lia)).
Qed.
Theorem ae_sum_zero : forall s, let s' := calc s in forall ci, (ci < nconf)%nat -> uf (cs ci) = true -> FWEIGHT bld = false ->
  vsum (fun a => vadd (frc s' a) (force_0 (cs ci) a)) (seq (lo ci) (inconf (cs ci))) = v0.
Proof.
  intros s s' ci H U W.
  pose proof (full_newton (cs ci) pos (bx ci) rcut (FG ci H) (L ci) (fun a => HL ci a H) dphi in0 DS IS) as N1.
  pose proof (three_newton (cs ci) pos (bx ci) rcut (L ci) (fun a => HL ci a H) h1 hc) as N2.
  pose proof (coulomb_newton ci H) as N3.
  rewrite (EamProof3.vsum_ext _ (fun a => vadd (vadd (pf ci a) (tf ci a)) (cf ci a))).
  - rewrite !EamProof3.vsum_add, N1, N2, N3. vring.
  - intros a Ha. apply in_seq in Ha. destruct (ae_values s ci H) as (F & _). fold s' in F. rewrite (F U a) by lia. unfold fscale. rewrite W. vring.
Qed.
End Routine.

Theorem ae_gradient : forall phi dphi in0 f df in1 g dg charge fel gel dp_cut c pos bx rcut, full_geometry c pos bx rcut ->
  forall L, (forall a, (cnfstart c <= a < cnfstart c + inconf c)%nat -> all_neighbors c pos bx rcut a (L a)) ->
  (forall s t r, dphi s t r = dphi t s r) -> (forall s t r, in0 s t r = in0 t s r) ->
  (forall i v, (cnfstart c <= i < cnfstart c + inconf c)%nat -> In v (L i) ->
     derivable_pt_lim (off in0 phi (typ c i) (typ c (fst v))) (dist pos bx i v) (off in0 dphi (typ c i) (typ c (fst v)) (dist pos bx i v)) /\
     derivable_pt_lim (off in1 f (typ c i) (typ c (fst v))) (dist pos bx i v) (off in1 df (typ c i) (typ c (fst v)) (dist pos bx i v)) /\
     derivable_pt_lim (fun x => if Rlt_dec x dp_cut then fel x else 0) (dist pos bx i v) (if Rlt_dec (dist pos bx i v) dp_cut then dist pos bx i v * gel (dist pos bx i v) else 0)) ->
  (forall i x, derivable_pt_lim (g i) x (dg i x)) ->
  forall a u k, (cnfstart c <= a < cnfstart c + inconf c)%nat ->
  derivable_pt_lim (fun t => pair_energy c (moved pos a u t) bx phi in0 L + three_energy c (moved pos a u t) bx (ang f in1 g) L
      + coulomb_energy c (moved pos a u t) bx charge fel dp_cut L - charge_self c charge k) 0
    (- sprod u (vadd (vadd (pair_force c pos bx dphi in0 L a) (three_force c pos bx (ang1 f df in1 g) (angc f in1 dg) L a)) (coulomb_force c pos bx charge gel dp_cut L a))).
Proof.
  intros phi dphi in0 f df in1 g dg charge fel gel dp_cut c pos bx rcut FG L HL DS IS DD DG a u k Ha. destruct (half_exists c pos bx rcut FG) as (q & GEO).
  pose proof (ang_gradient phi dphi in0 f df in1 g dg c pos bx rcut FG L HL DS IS
    (fun i v Hi Hv => conj (proj1 (DD i v Hi Hv)) (proj1 (proj2 (DD i v Hi Hv)))) DG a u Ha) as G1.
  pose proof (coulomb_gradient (with_nb c q) pos bx rcut GEO L HL a u Ha charge dp_cut fel gel (fun i v Hi Hv => proj2 (proj2 (DD i v Hi Hv)))) as G2.
  pose proof (derivable_pt_lim_minus _ _ _ _ _ (derivable_pt_lim_plus _ _ _ _ _ G1 G2) (derivable_pt_lim_const (charge_self c charge k) 0)) as G3.
  eapply deriv_eq; [eapply deriv_ext; [|exact G3]|].
  - intros t. unfold plus_fct, minus_fct, fct_cte. reflexivity.
  - change (coulomb_force (with_nb c q) pos bx charge gel dp_cut L a) with (coulomb_force c pos bx charge gel dp_cut L a).
    unfold sprod, vadd. cbn [vx vy vz]. ring.
Qed.

Theorem ae_cell_independent : forall bld phi dphi in0 f df in1 g dg charge fel gel dp_cut k ew1 sw1 ew2 sw2 pu1 pu2 cs1 cs2 n1 n2,
  STRESS bld = true ->
  (forall s t r, dphi s t r = dphi t s r) -> (forall s t r, in0 s t r = in0 t s r) ->
  (forall ci, cnfstart (cs1 (S ci)) = (cnfstart (cs1 ci) + inconf (cs1 ci))%nat) ->
  (forall ci, cnfstart (cs2 (S ci)) = (cnfstart (cs2 ci) + inconf (cs2 ci))%nat) ->
  forall pos1 pos2 bx1 bx2 rcut,
  (forall ci, (ci < n1)%nat -> full_geometry (cs1 ci) pos1 (bx1 ci) rcut) ->
  (forall ci, (ci < n2)%nat -> full_geometry (cs2 ci) pos2 (bx2 ci) rcut) ->
  forall x y m tau s1 s2, (x < n1)%nat -> (y < n2)%nat -> (0 < inconf (cs1 x))%nat -> conf_vol (cs1 x) <> 0 ->
  same_crystal (cs1 x) (cs2 y) pos1 pos2 (bx1 x) (bx2 y) m tau ->
  (forall A N, fst (tau (A, N)) = fst (tau (A, (0, 0, 0)%Z))) ->
  uf (cs1 x) = true -> us (cs1 x) = true -> uf (cs2 y) = true -> us (cs2 y) = true ->
  let r1 := AeModel.calc_forces bld phi dphi in0 f df in1 g dg charge fel gel dp_cut k ew1 sw1 pu1 cs1 n1 s1 in
  let r2 := AeModel.calc_forces bld phi dphi in0 f df in1 g dg charge fel gel dp_cut k ew2 sw2 pu2 cs2 n2 s2 in
  en r1 x + energy_0 (cs1 x) = en r2 y + energy_0 (cs2 y) /\
  forall k, (k < 6)%nat -> str r1 x k + stress_0 (cs1 x) k = str r2 y k + stress_0 (cs2 y) k.
Proof.
  intros bld phi dphi in0 f df in1 g dg charge fel gel dp_cut kk ew1 sw1 ew2 sw2 pu1 pu2 cs1 cs2 n1 n2 ST DS IS C1 C2 pos1 pos2 bx1 bx2 rcut G1 G2
    x y m tau s1 s2 Hx Hy NE VO SC LAT U1 S1 U2 S2 r1 r2.
  destruct (full_neighbors_all rcut n1 cs1 pos1 bx1 G1) as (L1 & HL1). destruct (full_neighbors_all rcut n2 cs2 pos2 bx2 G2) as (L2 & HL2).
  destruct (ae_values bld phi dphi in0 f df in1 g dg charge fel gel dp_cut kk ew1 sw1 pu1 cs1 n1 C1 DS IS pos1 bx1 rcut G1 L1 HL1 s1 x Hx) as (_ & _ & E1 & T1).
  destruct (ae_values bld phi dphi in0 f df in1 g dg charge fel gel dp_cut kk ew2 sw2 pu2 cs2 n2 C2 DS IS pos2 bx2 rcut G2 L2 HL2 s2 y Hy) as (_ & _ & E2 & T2).
  fold r1 in E1, T1. fold r2 in E2, T2. clearbody r1 r2.
  pose proof (sc_m _ _ _ _ _ _ _ _ SC) as MP. assert (MR : INR m <> 0) by (apply not_0_INR; lia).
  assert (NR : INR (inconf (cs1 x)) <> 0) by (apply not_0_INR; lia).
  assert (H1 : forall a, (cnfstart (cs1 x) <= a < cnfstart (cs1 x) + inconf (cs1 x))%nat -> all_neighbors (cs1 x) pos1 (bx1 x) rcut a (L1 x a)) by (intros; apply HL1; auto).
  assert (H2 : forall a, (cnfstart (cs2 y) <= a < cnfstart (cs2 y) + inconf (cs2 y))%nat -> all_neighbors (cs2 y) pos2 (bx2 y) rcut a (L2 y a)) by (intros; apply HL2; auto).
  split.
  - rewrite E1, E2, (sc_number _ _ _ _ _ _ _ _ SC), mult_INR.
    rewrite (same_energy _ _ _ _ _ _ _ _ SC rcut _ _ (L1 x) (L2 y) H1 H2), (same_three_energy _ _ _ _ _ _ _ _ SC rcut (L1 x) (L2 y) H1 H2),
      (same_coulomb _ _ _ _ _ _ _ _ SC LAT rcut (L1 x) (L2 y) H1 H2), (same_charge_self _ _ _ _ _ _ _ _ SC). field. auto.
  - intros k K. rewrite (T1 ST k K), (T2 ST k K), U1, S1, U2, S2, (sc_volume _ _ _ _ _ _ _ _ SC). cbn [andb].
    rewrite (same_virial _ _ _ _ _ _ _ _ SC rcut _ _ (L1 x) (L2 y) H1 H2), (same_three_virial _ _ _ _ _ _ _ _ SC rcut (L1 x) (L2 y) H1 H2),
      (same_coulomb_virial _ _ _ _ _ _ _ _ SC LAT rcut (L1 x) (L2 y) H1 H2). field. auto.
Qed.

(** stresses of a configuration whose forces are not used are scored *)
Theorem ae_unused_stress : exists cs pos bx rcut,
  (forall ci, cnfstart (cs (S ci)) = (cnfstart (cs ci) + inconf (cs ci))%nat) /\
  full_geometry (cs 0%nat) pos bx rcut /\ uf (cs 0%nat) = false /\
  forall bld phi dphi in0 f df in1 g dg charge fel gel dp_cut k s, STRESS bld = true ->
  (forall s t r, dphi s t r = dphi t s r) -> (forall s t r, in0 s t r = in0 t s r) ->
  err (AeModel.calc_forces bld phi dphi in0 f df in1 g dg charge fel gel dp_cut k 0 1 0 cs 1 s) = 6.
Proof.
  exists stressed, elbow, cube, (fun _ _ => 12/100). split; [exact stressed_cont|]. split; [exact stressed_full|]. split; [reflexivity|].
  intros bld phi dphi in0 f df in1 g dg charge fel gel dp_cut kk s ON DS IS.
  assert (FG : forall ci, (ci < 1)%nat -> full_geometry (stressed ci) elbow cube (fun _ _ => 12/100)) by (intros ci H; replace ci with 0%nat by lia; exact stressed_full).
  destruct (full_neighbors_all (fun _ _ => 12/100) 1 stressed elbow (fun _ => cube) FG) as (L & HL).
  destruct (ae_values bld phi dphi in0 f df in1 g dg charge fel gel dp_cut kk 0 1 0 stressed 1 stressed_cont DS IS elbow (fun _ => cube) (fun _ _ => 12/100) FG L HL s 0%nat) as (_ & _ & _ & T); [lia|].
  pose proof (ae_error bld phi dphi in0 f df in1 g dg charge fel gel dp_cut kk 0 1 0 stressed 1 stressed_cont DS IS elbow (fun _ => cube) (fun _ _ => 12/100) FG L HL s) as Q. cbv zeta in Q.
  set (s' := AeModel.calc_forces bld phi dphi in0 f df in1 g dg charge fel gel dp_cut kk 0 1 0 stressed 1 s) in *. clearbody s'. rewrite Q, ON.
  specialize (T ON). unfold rsumf at 1. cbn [seq map fold_right].
  rewrite (rsumf_zero _ (seq (cnfstart (stressed 0)) (inconf (stressed 0)))).
  - change (conf_weight (stressed 0)) with 1. cbn [seq]. unfold rsumf. cbn [map fold_right]. rewrite !T by lia. change (uf (stressed 0)) with false. cbn [andb].
    change (stress_0 (stressed 0)) with (fun _ : nat => 1). cbv beta. unfold sq, rsum. cbn [fold_right]. ring.
  - intros a _. reflexivity.
Qed.

(** ** example *)
Lemma bent_coulomb : coulomb_energy (bent 0) elbow cube (fun _ => 1) (fun x => x) 1 elbow_list = 2 / 10.
Proof.
  assert (P : forall i v, (i < 3)%nat -> In v (elbow_list i) -> coulomb_pair (bent 0) elbow cube (fun _ => 1) (fun x => x) 1 i v = 1/10).
  { intros i v Hi IN. unfold coulomb_pair, ElSpec.within. cbv beta. rewrite (bent_dist i v Hi IN). destruct (Rlt_dec (1/10) 1); lra. }
  unfold coulomb_energy. rewrite (rsumf_ext _ (fun i => 1/10 * INR (length (elbow_list i)))).
  - change (inconf (bent 0)) with 3%nat. change (cnfstart (bent 0)) with 0%nat. unfold rsumf, rsum. cbn [seq map fold_right elbow_list length INR]. lra.
  - intros i Hi. apply in_seq in Hi. assert (I3 : (i < 3)%nat) by (destruct Hi as [_ Hi]; exact Hi).
    rewrite (rsumf_ext _ (fun _ => 1/10)) by (intros v Hv; apply P; auto).
    generalize (elbow_list i). intros l. unfold rsumf, rsum. induction l as [|x l IH]; cbn [map fold_right length]; [cbn [INR]; lra|]. rewrite S_INR, IH. lra.
Qed.
Lemma bent_both : forall i v, (i < 3)%nat -> In v (elbow_list i) -> (forall s t,
  derivable_pt_lim (off short sqr2 s t) (dist elbow cube i v) (off short dbl s t (dist elbow cube i v))) /\
  derivable_pt_lim (fun x => if Rlt_dec x 1 then x * x else 0) (dist elbow cube i v) (if Rlt_dec (dist elbow cube i v) 1 then dist elbow cube i v * 2 else 0).
Proof.
  intros i v Hi IN. split; [exact (bent_derivable i v Hi IN)|]. rewrite (bent_dist i v Hi IN).
  apply (cutf_deriv 1 (fun x => x * x) (1/10 * 2)); [|lra].
  eapply deriv_eq; [apply (derivable_pt_lim_mult id id); apply derivable_pt_lim_id|unfold id; lra].
Qed.
