(** Properties of the pair force routine for whole runs; an example. *)
From Coq Require Import Reals ZArith List Bool Lia Lra Permutation.
From Verif Require Import Vec NbrModel NbrProof NbrProof2 NbrProof3 LoopUtil PairModel PairProof PairSpec PairProof2.
Import ListNotations.
Local Open Scope R_scope.

Section Run.
Variable bld : build.
Variables phi dphi : nat -> nat -> R -> R.
Variable in_range : nat -> nat -> R -> bool.
Variables eweight sweight : R.
Variable cp_energy : nat -> R.
Variable punish : R.
Variable cs : nat -> conf.
Variable nconf : nat.
Notation calc := (calc_forces bld phi dphi in_range eweight sweight cp_energy punish cs nconf).
Notation lo ci := (cnfstart (cs ci)).
Notation hi ci := (cnfstart (cs ci) + inconf (cs ci))%nat.
Hypothesis CONT : forall ci, cnfstart (cs (S ci)) = (cnfstart (cs ci) + inconf (cs ci))%nat.

(** C28 *)
Theorem scored_when_final : 
  (forall ci i e, (ci < nconf)%nat -> (lo ci <= i < hi ci)%nat -> In e (nb (cs ci) i) -> (i <= n_nr e < hi ci)%nat) ->
  forall s, let s' := calc s in
  err s' = rsumf (fun ci => 
     rsumf (fun a => if (uf (cs ci) && (negb (CONTRIB bld) || contrib (cs ci) a))%bool
                     then conf_weight (cs ci) * sqv (frc s' a) else 0) (seq (lo ci) (inconf (cs ci))) +
     conf_weight (cs ci) * eweight * sq (en s' ci) +
     (if (STRESS bld && uf (cs ci) && us (cs ci))%bool
      then rsumf (fun k => conf_weight (cs ci) * sweight * sq (str s' ci k)) (seq 0 6) else 0)) (seq 0 nconf) + punish.
Proof.
  intros O s. cbv zeta.
  assert (ORD : forall ci, (ci < nconf)%nat -> ordered (cs ci)) by (intros ci H i e; apply O; auto).
  destruct (calc_closed_form bld phi dphi in_range eweight sweight cp_energy punish cs nconf ORD CONT s) as (_ & _ & _ & R). exact R.
Qed.

Section Geo.
Hypothesis PS : forall s t r, phi s t r = phi t s r.
Hypothesis DS : forall s t r, dphi s t r = dphi t s r.
Hypothesis IS : forall s t r, in_range s t r = in_range t s r.
Variable pos : nat -> vec.
Variable bx : nat -> box.
Variable rcut : nat -> nat -> R.
Hypothesis GEO : forall ci, (ci < nconf)%nat -> geometry (cs ci) pos (bx ci) rcut.
Variable L : nat -> nat -> list (nat * image).
Hypothesis HL : forall ci a, (ci < nconf)%nat -> (lo ci <= a < hi ci)%nat -> all_neighbors (cs ci) pos (bx ci) rcut a (L ci a).

Lemma ord_geo : forall ci, (ci < nconf)%nat -> ordered (cs ci).
Proof. intros ci H. apply (geo_ordered (cs ci) pos (bx ci) rcut). auto. Qed.

Definition fscale (ci a : nat) : R := if FWEIGHT bld then / (FORCE_EPS + absforce (cs ci) a) else 1.

(** C27 *)
Theorem forces_textbook : forall s, let s' := calc s in forall ci, (ci < nconf)%nat ->
  (uf (cs ci) = true -> forall a, (lo ci <= a < hi ci)%nat ->
     frc s' a = vscale (fscale ci a) (vsub (pair_force (cs ci) pos (bx ci) dphi in_range (L ci) a) (force_0 (cs ci) a))) /\
  (uf (cs ci) = false -> forall a, (lo ci <= a < hi ci)%nat -> frc s' a = v0) /\
  en s' ci = (cp_energy ci + pair_energy (cs ci) pos (bx ci) phi in_range (L ci)) / INR (inconf (cs ci)) - energy_0 (cs ci) /\
  (STRESS bld = true -> forall k, (k < 6)%nat -> str s' ci k =
     if (uf (cs ci) && us (cs ci))%bool
     then pair_virial (cs ci) pos (bx ci) dphi in_range (L ci) k / conf_vol (cs ci) - stress_0 (cs ci) k else 0).
Proof.
  intros s s' ci H. destruct (calc_closed_form bld phi dphi in_range eweight sweight cp_energy punish cs nconf ord_geo CONT s) as (F & E & S & _).
  fold s' in F, E, S. split; [|split; [|split]].
  - intros U a Ha. rewrite (F ci a H Ha). unfold final. rewrite U.
    rewrite <- (textbook_force dphi in_range DS IS (cs ci) pos (bx ci) rcut (GEO ci H) a (L ci) Ha (HL ci a H Ha)).
    unfold scl, fscale. destruct (FWEIGHT bld); vring.
  - intros U a Ha. rewrite (F ci a H Ha). unfold final. rewrite U. auto.
  - rewrite (E ci H). unfold final_en. rewrite (textbook_energy phi in_range PS IS (cs ci) pos (bx ci) rcut (GEO ci H) (L ci)); auto.
  - intros ON k K. rewrite (S ci k H K ON). unfold final_str, stress_on. rewrite ON. simpl. destruct (uf (cs ci) && us (cs ci))%bool; auto.
    rewrite (textbook_virial dphi in_range DS IS (cs ci) pos (bx ci) rcut (GEO ci H) (L ci)); auto.
Qed.

Theorem forces_sum_zero : forall s, let s' := calc s in forall ci, (ci < nconf)%nat ->
  uf (cs ci) = true -> FWEIGHT bld = false ->
  vsum (fun a => vadd (frc s' a) (force_0 (cs ci) a)) (seq (lo ci) (inconf (cs ci))) = v0.
Proof.
  intros s s' ci H U W.
  rewrite <- (newton dphi in_range DS IS (cs ci) pos (bx ci) rcut (GEO ci H) (L ci)) by auto.
  assert (Q : forall a, In a (seq (lo ci) (inconf (cs ci))) -> vadd (frc s' a) (force_0 (cs ci) a) = pair_force (cs ci) pos (bx ci) dphi in_range (L ci) a).
  { intros a Ha. apply in_seq in Ha. destruct (forces_textbook s ci H) as (F & _). fold s' in F. rewrite (F U a) by lia. unfold fscale. rewrite W. vring. }
  unfold vsum. f_equal; apply rsumf_ext; intros a Ha; rewrite Q; auto.
Qed.

(** C29 *)
Lemma sum_zero : forall {A} (f : A -> R) l, (forall x, In x l -> 0 <= f x) -> rsumf f l = 0 -> forall x, In x l -> f x = 0.
Proof.
  intros A f l. induction l; intros N Z x X; [contradiction|]. rewrite rsumf_cons in Z.
  assert (0 <= f a) by (apply N; left; auto). assert (0 <= rsumf f l) by (apply rsumf_nonneg; intros; apply N; right; auto).
  destruct X as [<-|X]; [lra|]. apply IHl; auto; [intros; apply N; right; auto|lra].
Qed.
Lemma sq_nonneg : forall x, 0 <= sq x.
Proof. intros x. apply Rle_0_sqr. Qed.
Lemma sqv_nonneg : forall v, 0 <= sqv v.
Proof. intros v. unfold sqv. pose proof (sq_nonneg (vx v)). pose proof (sq_nonneg (vy v)). pose proof (sq_nonneg (vz v)). lra. Qed.
Lemma sq_0 : forall x, sq x = 0 -> x = 0.
Proof. intros x. apply Rsqr_eq_0. Qed.
Lemma sqv_0 : forall v, sqv v = 0 -> v = v0.
Proof.
  intros v H. unfold sqv in H. pose proof (sq_nonneg (vx v)). pose proof (sq_nonneg (vy v)). pose proof (sq_nonneg (vz v)).
  apply vec_eq; simpl; apply sq_0; lra.
Qed.
Lemma prod_zero : forall w x, 0 < w -> w * x = 0 -> x = 0.
Proof. intros w x W H. destruct (Rmult_integral _ _ H); lra. Qed.

Notation scored ci a := (uf (cs ci) && (negb (CONTRIB bld) || contrib (cs ci) a))%bool.

Theorem error_nonneg : forall s, 0 <= eweight -> 0 <= sweight -> (forall ci, 0 <= conf_weight (cs ci)) -> punish <= err (calc s).
Proof.
  intros s HE HS HW. assert (O : forall ci i e, (ci < nconf)%nat -> (lo ci <= i < hi ci)%nat -> In e (nb (cs ci) i) -> (i <= n_nr e < hi ci)%nat)
    by (intros ci i e H; apply (ord_geo ci H)).
  rewrite (scored_when_final O s). match goal with |- _ <= ?x + _ => enough (0 <= x) by lra end.
  apply rsumf_nonneg. intros ci _. 
  match goal with |- 0 <= ?x + ?y + ?z => assert (0 <= x); [|assert (0 <= y); [|assert (0 <= z); [|lra]]] end.
  - apply rsumf_nonneg. intros a _. destruct (_ && _)%bool; [|lra]. apply Rmult_le_pos; auto. apply sqv_nonneg.
  - apply Rmult_le_pos; [apply Rmult_le_pos; auto|apply sq_nonneg].
  - destruct (_ && _)%bool; [|lra]. apply rsumf_nonneg. intros k _. apply Rmult_le_pos; [apply Rmult_le_pos; auto|apply sq_nonneg].
Qed.

Theorem error_zero : forall s, 0 < eweight -> 0 < sweight -> (forall ci, 0 < conf_weight (cs ci)) ->
  (forall ci a, 0 <= absforce (cs ci) a) ->
  (err (calc s) = punish <-> forall ci, (ci < nconf)%nat ->
     (forall a, (lo ci <= a < hi ci)%nat -> scored ci a = true ->
        pair_force (cs ci) pos (bx ci) dphi in_range (L ci) a = force_0 (cs ci) a) /\
     (cp_energy ci + pair_energy (cs ci) pos (bx ci) phi in_range (L ci)) / INR (inconf (cs ci)) = energy_0 (cs ci) /\
     ((STRESS bld && uf (cs ci) && us (cs ci))%bool = true -> forall k, (k < 6)%nat ->
        pair_virial (cs ci) pos (bx ci) dphi in_range (L ci) k / conf_vol (cs ci) = stress_0 (cs ci) k)).
Proof.
  intros s HE HS HW HA. assert (O : forall ci i e, (ci < nconf)%nat -> (lo ci <= i < hi ci)%nat -> In e (nb (cs ci) i) -> (i <= n_nr e < hi ci)%nat)
    by (intros ci i e H; apply (ord_geo ci H)).
  rewrite (scored_when_final O s).
  assert (FS : forall ci a, fscale ci a <> 0).
  { intros ci a. unfold fscale. destruct (FWEIGHT bld); [|lra]. apply Rinv_neq_0_compat. unfold FORCE_EPS. specialize (HA ci a). lra. }
  match goal with |- rsumf ?f _ + _ = _ <-> _ => set (ce := f) end.
  assert (PT : forall ci, 
     (forall a, (0 <= (if scored ci a then conf_weight (cs ci) * sqv (frc (calc s) a) else 0))) /\
     0 <= conf_weight (cs ci) * eweight * sq (en (calc s) ci) /\
     (forall k, 0 <= conf_weight (cs ci) * sweight * sq (str (calc s) ci k))).
  { intros ci. specialize (HW ci). split; [|split].
    - intros a. destruct (_ && _)%bool; [|lra]. apply Rmult_le_pos; [lra|apply sqv_nonneg].
    - apply Rmult_le_pos; [apply Rmult_le_pos; lra|apply sq_nonneg].
    - intros k. apply Rmult_le_pos; [apply Rmult_le_pos; lra|apply sq_nonneg]. }
  assert (NN : forall ci, 0 <= ce ci).
  { intros ci. destruct (PT ci) as (A & B & C). unfold ce.
    match goal with |- 0 <= ?x + ?y + ?z => assert (0 <= x); [|assert (0 <= y); [auto|assert (0 <= z); [|lra]]] end.
    - apply rsumf_nonneg. auto.
    - destruct (_ && _)%bool; [|lra]. apply rsumf_nonneg. auto. }
  assert (EQ : forall ci, (ci < nconf)%nat -> (ce ci = 0 <->
     (forall a, (lo ci <= a < hi ci)%nat -> scored ci a = true -> pair_force (cs ci) pos (bx ci) dphi in_range (L ci) a = force_0 (cs ci) a) /\
     (cp_energy ci + pair_energy (cs ci) pos (bx ci) phi in_range (L ci)) / INR (inconf (cs ci)) = energy_0 (cs ci) /\
     ((STRESS bld && uf (cs ci) && us (cs ci))%bool = true -> forall k, (k < 6)%nat ->
        pair_virial (cs ci) pos (bx ci) dphi in_range (L ci) k / conf_vol (cs ci) = stress_0 (cs ci) k))).
  { intros ci H. destruct (PT ci) as (A & B & C). destruct (forces_textbook s ci H) as (F & _ & E & S).
    assert (W := HW ci). split.
    - intros Z. unfold ce in Z.
      match type of Z with ?x + ?y + ?z = 0 => assert (XX0 : 0 <= x) by (apply rsumf_nonneg; auto);
        assert (ZZ0 : 0 <= z) by (destruct (STRESS bld && uf (cs ci) && us (cs ci))%bool; [apply rsumf_nonneg; auto|lra]); assert (X1 : x = 0) by lra; assert (Y1 : y = 0) by lra; assert (Z1 : z = 0) by lra end.
      split; [|split].
      + intros a Ha SC. assert (U : uf (cs ci) = true) by (destruct (uf (cs ci)); auto; discriminate).
        pose proof (sum_zero _ _ (fun x _ => A x) X1 a ltac:(apply in_seq; lia)) as Q. cbv beta in Q. rewrite SC in Q. apply prod_zero, sqv_0 in Q; auto.
        rewrite (F U a Ha) in Q. set (p := pair_force _ _ _ _ _ _ _) in *. clearbody p. specialize (FS ci a).
        unfold vscale, vsub, v0 in Q. cbn [vx vy vz] in Q. injection Q as Q1 Q2 Q3. apply vec_eq.
        * destruct (Rmult_integral _ _ Q1); [contradiction|lra].
        * destruct (Rmult_integral _ _ Q2); [contradiction|lra].
        * destruct (Rmult_integral _ _ Q3); [contradiction|lra].
      + apply prod_zero, sq_0 in Y1; [|apply Rmult_lt_0_compat; auto]. rewrite E in Y1. lra.
      + intros ON k K. rewrite ON in Z1. pose proof (sum_zero _ _ (fun x _ => C x) Z1 k ltac:(apply in_seq; lia)) as Q. cbv beta in Q.
        apply prod_zero, sq_0 in Q; [|apply Rmult_lt_0_compat; auto]. apply andb_prop in ON. destruct ON as [ON ON3]. apply andb_prop in ON. destruct ON as [ON1 ON2].
        rewrite (S ON1 k K), ON2, ON3 in Q. simpl in Q. lra.
    - intros (Q1 & Q2 & Q3). unfold ce. rewrite E, Q2.
      rewrite rsumf_zero.
      + replace (energy_0 (cs ci) - energy_0 (cs ci)) with 0 by ring. unfold sq at 1.
        destruct (STRESS bld && uf (cs ci) && us (cs ci))%bool eqn:ON; [|ring]. rewrite rsumf_zero; [ring|].
        intros k K. apply in_seq in K. assert (ON' := ON). apply andb_prop in ON'. destruct ON' as [ON1 ON3]. apply andb_prop in ON1. destruct ON1 as [ON1 ON2].
        rewrite (S ON1 k ltac:(lia)), ON2, ON3. simpl. rewrite (Q3 eq_refl k ltac:(lia)). unfold sq. ring.
      + intros a Ha. apply in_seq in Ha. destruct (scored ci a) eqn:SC; auto.
        assert (U : uf (cs ci) = true) by (destruct (uf (cs ci)); auto; discriminate).
        rewrite (F U a) by lia. rewrite (Q1 a) by (auto; lia). unfold sqv, sq; simpl. ring. }
  split.
  - intros Z ci H. apply EQ; auto. apply (sum_zero ce (seq 0 nconf)); auto; [lra|apply in_seq; lia].
  - intros Q. rewrite rsumf_zero; [ring|]. intros ci Hci. apply in_seq in Hci. apply EQ; [lia|]. apply Q. lia.
Qed.
End Geo.
End Run.

(** ** Example: one atom in a cube *)
Definition cube_conf (l : list neigh) : conf :=
  mk_conf 0 1 true true 1 1 (fun _ => l) (fun _ => 0%nat) (fun _ => true) (fun _ => 0) (fun _ => v0) 0 (fun _ => 0).
Lemma cube_geometry : exists l, l <> [] /\ geometry (cube_conf l) origin cube (fun _ _ => 1).
Proof.
  destruct (one_atom false) as (l & N & IC & (e & E & _)). exists l. split; [intros ->; contradiction|]. constructor.
  - exists cube, 1, (1, 1, 1)%Z. split; [exact cube_box|]. split; [lra|]. split; [exact cube_scale|]. split; [intros; lra|].
    intros i Hi. simpl in Hi. assert (i = 0%nat) by lia. subst. exact N.
  - intros i Hi. simpl in Hi. assert (i = 0%nat) by lia. subst. exact IC.
  - auto.
Qed.
(** the list of all neighbours exists for every configuration *)
Lemma all_neighbors_exist : forall c pos b rcut, geometry c pos b rcut ->
  exists L, forall a, (cnfstart c <= a < cnfstart c + inconf c)%nat -> all_neighbors c pos b rcut a (L a).
Proof.
  intros c pos b rcut G. destruct (nb_half c pos b rcut G) as (scale & _ & AN). eauto.
Qed.
