(** The EAM force routine: entries for the limits of the density and the gauge. *)
From Coq Require Import Reals ZArith List Bool Lia Lra.
From Verif Require Import Vec NbrModel NbrProof LoopUtil PairModel PairProof PairSpec ForceLoop BondProof EamModel EamProof EamSpec EamProof2 EamProof3 EamProof4.
Import ListNotations.
Local Open Scope R_scope.

(** penalty of a density [x] outside of [l, h] *)
Definition outside (l h x : R) : R := if Rlt_dec h x then 1000 * ((x - h) * (x - h)) else if Rlt_dec x l then 1000 * ((l - x) * (l - x)) else 0.
(** density cut to the range of its function *)
Definition cut (l h x : R) : R := if Rlt_dec h x then h else if Rlt_dec x l then l else x.

Section Run.
Variable bld : ebuild.
Variables phi dphi : nat -> nat -> R -> R.
Variable in_range : nat -> nat -> R -> bool.
Variables dens ddens : nat -> nat -> R -> R.
Variable reach : nat -> nat -> R -> bool.
Variables F dF FA dFA : nat -> nat -> R -> R.
Variables fbegin fend fstep : nat -> nat -> R.
Notation nbd := (nbands bld).
Variables eweight sweight : R.
Variables limit_0 dummy_0 : nat -> R.
Variable punish : R.
Variables ntypes natoms : nat.
Variable cs : nat -> conf.
Variable nconf : nat.
Notation calc := (EamModel.calc_forces bld phi dphi in_range dens ddens reach F dF FA dFA fbegin fend fstep eweight sweight limit_0 dummy_0 punish ntypes natoms cs nconf).
Notation lo ci := (cnfstart (cs ci)).
Notation hi ci := (cnfstart (cs ci) + inconf (cs ci))%nat.
Hypothesis CONT : forall ci, cnfstart (cs (S ci)) = (cnfstart (cs ci) + inconf (cs ci))%nat.
Hypothesis NT : (0 < ntypes)%nat.
Variable pos : nat -> vec.
Variable bx : nat -> box.
Variable rcut : nat -> nat -> R.
Hypothesis GEO : forall ci, (ci < nconf)%nat -> geometry (cs ci) pos (bx ci) rcut.
Variable L : nat -> nat -> list (nat * image).
Hypothesis HL : forall ci a, (ci < nconf)%nat -> (lo ci <= a < hi ci)%nat -> all_neighbors (cs ci) pos (bx ci) rcut a (L ci a).
Hypothesis BE : forall b t, fbegin b t <= fend b t.
Notation rho ci := (density (cs ci) pos (bx ci) dens reach (L ci)).

Lemma cl_cut : forall b t x, cl bld fbegin fend b t x = if RESCALE bld then cut (fbegin b t) (fend b t) x else x.
Proof.
  intros b t x. pose proof (BE b t) as B. unfold cl, cut. destruct (RESCALE bld); auto. cbv zeta.
  destruct (Rlt_dec (fend b t) x); [|auto]. destruct (Rlt_dec (fend b t) (fbegin b t)); auto. lra.
Qed.
Theorem eam_constraints : forall s, let s' := calc s in
  (RESCALE bld = true -> forall ci, (ci < nconf)%nat ->
     lim s' ci = rsumf (fun a => rsumf (fun b => outside (fbegin b (typ (cs ci) a)) (fend b (typ (cs ci) a)) (rho ci b a)) (seq 0 nbd)) (seq (lo ci) (inconf (cs ci))) - limit_0 ci) /\
  (EamModel.NOPUNISH bld = false -> forall b g, (b < nbd)%nat -> (g < ntypes)%nat ->
     dum s' (2 * b * ntypes + g)%nat =
       (if RESCALE bld then 100 * dF b g ((fbegin b g + fend b g) / 2) - dummy_0 (2 * b * ntypes + g)%nat else 100 * dF b g 1) /\
     dum s' ((2 * b + 1) * ntypes + g)%nat =
       (if (negb (RESCALE bld) && Nat.eqb g 0)%bool then
          let total := rsumf (fun ci => rsumf (rho ci b) (seq (lo ci) (inconf (cs ci)))) (seq 0 nconf) in
          if Rlt_dec 0 total then 100 * (total / INR natoms - 1) else 0
        else 0)).
Proof.
  intros s s'. pose proof (ordG cs nconf pos bx rcut GEO) as ORD. pose proof (typG cs nconf pos bx rcut GEO L HL) as TYP.
  destruct (eam_run bld phi dphi in_range dens ddens reach F dF FA dFA fbegin fend fstep eweight sweight limit_0 dummy_0 punish ntypes natoms cs nconf CONT ORD TYP NT s) as (_ & _ & _ & Q4 & Q5 & Q6 & _).
  fold s' in Q4, Q5, Q6. clearbody s'. split.
  - intros RS ci H. rewrite (Q4 ci H RS). unfold lim_f, upto. rewrite Rplus_comm. unfold Rminus. f_equal. replace (hi ci - lo ci)%nat with (inconf (cs ci)) by lia.
    apply rsumf_ext. intros a Ha. apply in_seq in Ha. unfold limc. apply rsumf_ext. intros b _.
    rewrite (full_density dens reach (cs ci) pos (bx ci) rcut (GEO ci H) (L ci) (fun a => HL ci a H)) by lia.
    set (x := rho ci b a). clearbody x. set (t := typ (cs ci) a). clearbody t. pose proof (BE b t) as B. unfold lc, outside, sq, DUMMY_WEIGHT. rewrite RS. cbv zeta.
    destruct (Rlt_dec (fend b t) x).
    + destruct (Rlt_dec (fend b t) (fbegin b t)); [lra|]. ring.
    + destruct (Rlt_dec x (fbegin b t)); ring.
  - intros NP b g Hb Hg. destruct (Q6 NP b g Hb Hg) as [-> ->]. split.
    + unfold gauge, DUMMY_WEIGHT. destruct (RESCALE bld); auto. replace (1 / 2 * (fbegin b g + fend b g)) with ((fbegin b g + fend b g) / 2) by (unfold Rdiv; ring). auto.
    + destruct (RESCALE bld) eqn:RS; cbn [negb andb]; auto. destruct (Nat.eqb g 0); auto. cbv zeta. unfold mean, DUMMY_WEIGHT.
      assert (TT : rsum s' b = rsumf (fun ci => rsumf (rho ci b) (seq (lo ci) (inconf (cs ci)))) (seq 0 nconf)).
      { rewrite (Q5 b Hb). apply rsumf_ext. intros ci Hci. apply in_seq in Hci. apply rsumf_ext. intros a Ha. apply in_seq in Ha. unfold seen. rewrite cl_cut, RS.
        apply (full_density dens reach (cs ci) pos (bx ci) rcut (GEO ci ltac:(lia)) (L ci) (fun a => HL ci a ltac:(lia))). lia. }
      rewrite TT. auto.
Qed.
End Run.
