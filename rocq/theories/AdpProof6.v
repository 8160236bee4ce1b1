(** Limit and dummy entries of the EAM and ADP routines in terms of the densities; gradient of
    the full ADP energy. *)
From Coq Require Import Reals ZArith List Bool Lia Lra.
From Verif Require Import Vec NbrModel NbrProof NbrProof2 NbrProof3 LoopUtil PairModel PairProof PairSpec PairProof2 PairProof3 ForceLoop BondProof EamModel EamProof EamSpec EamProof2 EamProof3 EamProof4 GradProof
  AdpModel AdpSpec AdpProof AdpProof2 AdpProof3 AdpProof4.
Import ListNotations.
Local Open Scope R_scope.

(** distance of x from the interval, squared *)
Definition outside (a b x : R) : R := sq (Rmax 0 (x - b)) + sq (Rmax 0 (a - x)).
Lemma lc_outside : forall bld fbegin fend b t x, fbegin b t <= fend b t ->
  lc bld fbegin fend b t x = if RESCALE bld then 1000 * outside (fbegin b t) (fend b t) x else 0.
Proof.
  intros bld fbegin fend b t x H. unfold lc, outside, DUMMY_WEIGHT. destruct (RESCALE bld); auto. cbv zeta.
  destruct (Rlt_dec (fend b t) x) as [G|G].
  - destruct (Rlt_dec (fend b t) (fbegin b t)); [lra|]. rewrite (Rmax_right 0 (x - fend b t)), (Rmax_left 0 (fbegin b t - x)) by lra. unfold sq. ring.
  - rewrite (Rmax_left 0 (x - fend b t)) by lra. destruct (Rlt_dec x (fbegin b t)).
    + rewrite (Rmax_right 0 (fbegin b t - x)) by lra. unfold sq. ring.
    + rewrite (Rmax_left 0 (fbegin b t - x)) by lra. unfold sq. ring.
Qed.

Section Run.
Variable bld : ebuild.
Variables phi dphi : nat -> nat -> R -> R.
Variable in_range : nat -> nat -> R -> bool.
Variables dens ddens : nat -> nat -> R -> R.
Variable reach : nat -> nat -> R -> bool.
Variables F dF FA dFA : nat -> nat -> R -> R.
Variables fbegin fend fstep : nat -> nat -> R.
Variables eweight sweight : R.
Variables limit_0 dummy_0 : nat -> R.
Variable punish : R.
Variables ntypes natoms : nat.
Variable cs : nat -> conf.
Variable nconf : nat.
Notation lo ci := (cnfstart (cs ci)).
Notation hi ci := (cnfstart (cs ci) + inconf (cs ci))%nat.
Hypothesis CONT : forall ci, cnfstart (cs (S ci)) = (cnfstart (cs ci) + inconf (cs ci))%nat.
Hypothesis NT : (0 < ntypes)%nat.
Variable pos : nat -> vec.
Variable bx : nat -> box.
Variable rcut : nat -> nat -> R.
Hypothesis GEO : forall ci, (ci < nconf)%nat -> geometry (cs ci) pos (bx ci) rcut.
Variable L : nat -> nat -> list (nat * image).
Hypothesis HL : forall ci a, (ci < nconf)%nat -> (lo ci <= a < hi ci)%nat -> all_neighbors (cs ci) pos (bx ci) rcut a (L ci a).
Hypothesis BE : forall b t, fbegin b t <= fend b t.
Notation rho ci b a := (density (cs ci) pos (bx ci) dens reach (L ci) b a).
Lemma ORD : forall ci, (ci < nconf)%nat -> ordered (cs ci).
Proof. intros c' H'; apply (geo_ordered (cs c') pos (bx c') rcut); auto. Qed.
Lemma TYP : forall ci i e, (ci < nconf)%nat -> (lo ci <= i < hi ci)%nat -> In e (nb (cs ci) i) -> n_type e = typ (cs ci) (n_nr e).
Proof. intros c' i e H'. apply (geo_typ (cs c') pos (bx c') rcut (GEO c' H') (L c') (fun a => HL c' a H')). Qed.
Lemma full_rho : forall ci b a, (ci < nconf)%nat -> (lo ci <= a < hi ci)%nat -> full dens reach (cs ci) b a = rho ci b a.
Proof. intros ci b a H Ha. apply (full_density dens reach (cs ci) pos (bx ci) rcut (GEO ci H) (L ci) (fun a => HL ci a H) b a Ha). Qed.
(** limit entry of a configuration *)
Definition limit_of (nbd : nat) (resc : bool) (ci : nat) : R :=
  (if resc then 1000 * rsumf (fun a => rsumf (fun b => outside (fbegin b (typ (cs ci) a)) (fend b (typ (cs ci) a)) (rho ci b a)) (seq 0 nbd)) (seq (lo ci) (inconf (cs ci))) else 0) - limit_0 ci.
(** sum of all densities *)
Definition total (b : nat) : R := rsumf (fun ci => rsumf (fun a => rho ci b a) (seq (lo ci) (inconf (cs ci)))) (seq 0 nconf).

Lemma limf_of : forall bl ci, (ci < nconf)%nat ->
  - limit_0 ci + upto bl (cs ci) (hi ci) (limc bl dens reach fbegin fend (cs ci)) = limit_of (nbands bl) (RESCALE bl) ci.
Proof.
  intros bl ci H. unfold upto, limit_of. replace (hi ci - lo ci)%nat with (inconf (cs ci)) by lia.
  rewrite (rsumf_ext _ (fun a => (if RESCALE bl then 1000 else 0) * rsumf (fun b => outside (fbegin b (typ (cs ci) a)) (fend b (typ (cs ci) a)) (rho ci b a)) (seq 0 (nbands bl)))).
  - rewrite rsumf_scale. destruct (RESCALE bl); ring.
  - intros a Ha. apply in_seq in Ha. rewrite <- rsumf_scale. apply rsumf_ext. intros b _. unfold limc. rewrite (lc_outside bl fbegin fend) by auto. rewrite (full_rho ci b a H) by lia. destruct (RESCALE bl); ring.
Qed.
Lemma seen_total : forall bl b, RESCALE bl = false ->
  rsumf (fun ci => rsumf (seen bl dens reach fbegin fend (cs ci) b) (seq (lo ci) (inconf (cs ci)))) (seq 0 nconf) = total b.
Proof.
  intros bl b RS. unfold total. apply rsumf_ext. intros ci Hci. apply in_seq in Hci. apply rsumf_ext. intros a Ha. apply in_seq in Ha.
  unfold seen, cl. rewrite RS. apply full_rho; lia.
Qed.

Theorem eam_limit : forall s,
  let s' := EamModel.calc_forces bld phi dphi in_range dens ddens reach F dF FA dFA fbegin fend fstep eweight sweight limit_0 dummy_0 punish ntypes natoms cs nconf s in
  (RESCALE bld = true -> forall ci, (ci < nconf)%nat -> lim s' ci = limit_of (nbands bld) true ci) /\
  (NOPUNISH bld = false -> forall b g, (b < nbands bld)%nat -> (g < ntypes)%nat ->
     dum s' (2 * b * ntypes + g)%nat =
       (if RESCALE bld then 100 * dF b g (1/2 * (fbegin b g + fend b g)) - dummy_0 (2 * b * ntypes + g)%nat else 100 * dF b g 1) /\
     dum s' ((2 * b + 1) * ntypes + g)%nat =
       (if (negb (RESCALE bld) && Nat.eqb g 0)%bool then if Rlt_dec 0 (total b) then 100 * (total b / INR natoms - 1) else 0 else 0)).
Proof.
  intros s s'.
  destruct (eam_run bld phi dphi in_range dens ddens reach F dF FA dFA fbegin fend fstep eweight sweight limit_0 dummy_0 punish ntypes natoms cs nconf CONT ORD TYP NT s) as (_ & _ & _ & QL & QR & QD & _).
  fold s' in QL, QR, QD. clearbody s'. split.
  - intros RS ci H. rewrite (QL ci H RS). unfold lim_f. rewrite (limf_of bld ci H), RS. auto.
  - intros NP b g Hb Hg. destruct (QD NP b g Hb Hg) as [-> ->]. unfold gauge, mean, DUMMY_WEIGHT. rewrite (QR b Hb). split; auto.
    destruct (RESCALE bld) eqn:RS; cbn [negb andb]; auto. rewrite (seen_total bld b RS). auto.
Qed.
Variables u du : nat -> nat -> R -> R.
Variable u_range : nat -> nat -> R -> bool.
Variables w dw : nat -> nat -> R -> R.
Variable w_range : nat -> nat -> R -> bool.
Theorem adp_limit : forall s,
  let s' := es (AdpModel.calc_forces bld phi dphi in_range dens ddens reach F dF FA dFA fbegin fend fstep u du u_range w dw w_range eweight sweight limit_0 dummy_0 punish ntypes natoms cs nconf s) in
  (forall ci, (ci < nconf)%nat -> lim s' ci = limit_of 1 (RESCALE bld) ci) /\
  (NOPUNISH bld = false -> forall g, (g < ntypes)%nat ->
     dum s' g = (if RESCALE bld then 100 * dF 0%nat g (1/2 * (fbegin 0%nat g + fend 0%nat g)) - dummy_0 g else 100 * dF 0%nat g 1) /\
     dum s' (ntypes + g)%nat = (if (negb (RESCALE bld) && Nat.eqb g 0)%bool then 100 * (total 0 / INR natoms - 1) else 0)).
Proof.
  intros s s'.
  destruct (adp_run bld phi dphi in_range dens ddens reach F dF FA dFA fbegin fend fstep u du u_range w dw w_range eweight sweight limit_0 dummy_0 punish ntypes natoms cs nconf CONT NT ORD TYP s) as (_ & _ & _ & QL & QR & QD & _).
  fold s' in QL, QR, QD. clearbody s'. split.
  - intros ci H. rewrite (QL ci H). unfold alim. rewrite (limf_of (one_band bld) ci H). auto.
  - intros NP g Hg. destruct (QD NP g Hg) as [-> ->]. unfold gauge, mean, DUMMY_WEIGHT. rewrite QR. split; auto.
    change (RESCALE (one_band bld)) with (RESCALE bld) in *. destruct (RESCALE bld) eqn:RS; cbn [negb andb]; auto. rewrite (seen_total (one_band bld) 0 RS). auto.
Qed.
End Run.

(** the whole energy *)
Theorem adp_full_gradient : forall c pos bx rcut, geometry c pos bx rcut ->
  forall L, (forall a, (cnfstart c <= a < cnfstart c + inconf c)%nat -> all_neighbors c pos bx rcut a (L a)) ->
  forall a z, (cnfstart c <= a < cnfstart c + inconf c)%nat ->
  forall (phi dphi : nat -> nat -> R -> R) (in_range : nat -> nat -> R -> bool),
  (forall s t r, dphi s t r = dphi t s r) -> (forall s t r, in_range s t r = in_range t s r) ->
  (forall i v, (cnfstart c <= i < cnfstart c + inconf c)%nat -> In v (L i) ->
    derivable_pt_lim (fun r => if in_range (typ c i) (typ c (fst v)) r then phi (typ c i) (typ c (fst v)) r else 0) (dist pos bx i v)
      (if in_range (typ c i) (typ c (fst v)) (dist pos bx i v) then dphi (typ c i) (typ c (fst v)) (dist pos bx i v) else 0)) ->
  forall (dens ddens : nat -> nat -> R -> R) (reach : nat -> nat -> R -> bool) (E dE : nat -> nat -> R -> R),
  (forall k i v, (k < 1)%nat -> (cnfstart c <= i < cnfstart c + inconf c)%nat -> In v (L i) ->
    derivable_pt_lim (fun r => if reach k (typ c (fst v)) r then dens k (typ c (fst v)) r else 0) (dist pos bx i v)
      (dtrans ddens reach k (typ c (fst v)) (dist pos bx i v))) ->
  (forall k i, (k < 1)%nat -> (cnfstart c <= i < cnfstart c + inconf c)%nat ->
    derivable_pt_lim (E k (typ c i)) (density c pos bx dens reach L k i) (slope c pos bx dens reach dE L k i)) ->
  forall (u du w dw : nat -> nat -> R -> R) (u_range w_range : nat -> nat -> R -> bool),
  (forall s t r, u s t r = u t s r) -> (forall s t r, du s t r = du t s r) -> (forall s t r, u_range s t r = u_range t s r) ->
  (forall s t r, w s t r = w t s r) -> (forall s t r, dw s t r = dw t s r) -> (forall s t r, w_range s t r = w_range t s r) ->
  (forall i v, (cnfstart c <= i < cnfstart c + inconf c)%nat -> In v (L i) ->
    derivable_pt_lim (fun r => if u_range (typ c i) (typ c (fst v)) r then u (typ c i) (typ c (fst v)) r else 0) (dist pos bx i v)
      (cut c pos bx du u_range i v)) ->
  (forall i v, (cnfstart c <= i < cnfstart c + inconf c)%nat -> In v (L i) ->
    derivable_pt_lim (fun r => if w_range (typ c i) (typ c (fst v)) r then w (typ c i) (typ c (fst v)) r else 0) (dist pos bx i v)
      (cut c pos bx dw w_range i v)) ->
  derivable_pt_lim (fun t => pair_energy c (moved pos a z t) bx phi in_range L + embed_energy c (moved pos a z t) bx 1 dens reach E L +
      adp_energy c (moved pos a z t) bx u u_range w w_range L) 0
    (- sprod z (vadd (vadd (pair_force c pos bx dphi in_range L a) (embed_force c pos bx 1 dens ddens reach dE L a))
      (adp_force c pos bx u du u_range w dw w_range L a))).
Proof.
  intros c pos bx rcut GEO L HL a z Ha phi dphi in_range DS IS HP dens ddens reach E dE HD HE u du w dw u_range w_range US dUS URS WS dWS WRS HU HW.
  pose proof (eam_gradient c pos bx rcut GEO L HL a z Ha phi dphi in_range DS IS HP 1 dens ddens reach E dE HD HE) as G1.
  pose proof (adp_gradient c pos bx rcut GEO L HL a z Ha u du u_range w dw w_range US dUS URS WS dWS WRS HU HW) as G2.
  apply (deriv_eq _ _ (- sprod z (vadd (pair_force c pos bx dphi in_range L a) (embed_force c pos bx 1 dens ddens reach dE L a)) + - sprod z (adp_force c pos bx u du u_range w dw w_range L a))).
  - exact (derivable_pt_lim_plus (fun t => pair_energy c (moved pos a z t) bx phi in_range L + embed_energy c (moved pos a z t) bx 1 dens reach E L) (fun t => adp_energy c (moved pos a z t) bx u u_range w w_range L) 0 _ _ G1 G2).
  - unfold sprod; cbn [vadd vx vy vz]. ring.
Qed.
