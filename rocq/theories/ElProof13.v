(** Consistency of the dipoles, and what does not depend on the fields left by earlier calls. *)
From Coq Require Import Reals ZArith List Bool Lia Lra.
From Verif Require Import Vec NbrModel NbrProof NbrProof2 NbrProof3 PairModel PairProof PairSpec PairProof2 PairProof3 BondProof BoProof EamProof3 GradProof FuncModel
  ElSpec ElModel ElProof ElProof2 ElProof3 ElProof5 ElProof6 ElProof7 ElProof8.
Import ListNotations.
Local Open Scope R_scope.

Lemma inconsistency_ext : forall c pos bx rcut L, (forall a, (cnfstart c <= a < cnfstart c + inconf c)%nat -> all_neighbors c pos bx rcut a (L a)) ->
  forall charge g rc alpha dpb dpc p p', (forall a, (cnfstart c <= a < cnfstart c + inconf c)%nat -> alpha (typ c a) <> 0 -> p a = p' a) ->
  inconsistency c pos bx charge g rc L alpha dpb dpc p = inconsistency c pos bx charge g rc L alpha dpb dpc p'.
Proof.
  intros c pos bx rcut L HL charge g rc alpha dpb dpc p p' E. unfold inconsistency. do 2 f_equal. apply rsumf_ext. intros a Ha. apply in_seq in Ha.
  unfold zero. destruct (Req_EM_T (alpha (typ c a)) 0) as [Z|Z]; auto. do 2 f_equal; [apply E; auto; lia|]. unfold moment_of. do 3 f_equal. unfold dipole_field. apply EamProof3.vsum_ext.
  intros [j n] V. apply (HL a) in V; [|lia]. assert (M : mom c alpha p j = mom c alpha p' j).
  { unfold mom, zero. destruct (Req_EM_T (alpha (typ c j)) 0); auto. apply E; auto. tauto. }
  cbn [fst]. rewrite M. auto.
Qed.

Section Routine.
Variable bld : build.
Variables phi dphi : nat -> nat -> R -> R.
Variable in_range : nat -> nat -> R -> bool.
Variables charge alpha : nat -> R.
Variables dpb dpc : nat -> nat -> R.
Variables fel gel ggel : R -> R.
Variables dp_cut dp_tol dp_mix self_coef eweight sweight punish : R.
Variables (cs : nat -> conf) (nconf : nat).
Hypothesis CONT : forall ci, cnfstart (cs (S ci)) = (cnfstart (cs ci) + inconf (cs ci))%nat.
Hypothesis PS : forall s t r, phi s t r = phi t s r.
Hypothesis DS : forall s t r, dphi s t r = dphi t s r.
Hypothesis IS : forall s t r, in_range s t r = in_range t s r.
Hypothesis BS : forall s t, dpb s t = dpb t s.
Hypothesis CS : forall s t, dpc s t = dpc t s.
Variables (pos : nat -> vec) (bx : nat -> box) (rcut : nat -> nat -> R).
Hypothesis GEO : forall ci, (ci < nconf)%nat -> geometry (cs ci) pos (bx ci) rcut.
Variable L : nat -> nat -> list (nat * image).
Hypothesis HL : forall ci a, (ci < nconf)%nat -> (cnfstart (cs ci) <= a < cnfstart (cs ci) + inconf (cs ci))%nat ->
  all_neighbors (cs ci) pos (bx ci) rcut a (L ci a).
Notation calc D := (calc_forces bld D phi dphi in_range charge alpha dpb dpc fel gel ggel dp_cut dp_tol dp_mix self_coef eweight sweight punish cs nconf).
(** without mixing: dipoles of the charges alone, or agreement within the tolerance *)
Theorem el_consistent : dp_mix = 0 -> forall s ci, (ci < nconf)%nat -> let p := p_ind (edp (calc true s)) in let c := cs ci in
  (forall a, (cnfstart c <= a < cnfstart c + inconf c)%nat -> alpha (typ c a) <> 0 ->
     p a = moment_of c pos (bx ci) charge gel dp_cut (L ci) alpha dpb dpc (fun _ => v0) a) \/
  inconsistency c pos (bx ci) charge gel dp_cut (L ci) alpha dpb dpc p < dp_tol.
Proof.
  intros MX s ci H p c.
  destruct (el_dipoles bld true phi dphi in_range charge alpha dpb dpc fel gel ggel dp_cut dp_tol dp_mix self_coef eweight sweight punish cs nconf CONT BS CS pos bx rcut GEO L HL eq_refl s ci H) as (k & _ & _ & K2 & K3).
  fold p in K3. fold c in K2, K3.
  assert (DEC : given_up c pos (bx ci) charge gel dp_cut (L ci) alpha dpb dpc dp_mix (E_ind (edp s)) k \/ ~ given_up c pos (bx ci) charge gel dp_cut (L ci) alpha dpb dpc dp_mix (E_ind (edp s)) k).
  { unfold given_up. destruct (Rlt_dec 10 (step_change c pos (bx ci) charge gel dp_cut (L ci) alpha dpb dpc dp_mix (E_ind (edp s)) k)), (Nat.ltb_spec 0 k), (Nat.ltb_spec 50 k); try (left; split; [lia|]; auto; fail); right; intros [Q1 [Q2|Q2]]; try lia; auto. }
  destruct DEC as [G|G].
  - left. intros a Ha HP. apply (K3 a Ha HP). auto.
  - right. destruct K2 as [K2|K2]; [destruct (G K2)|].
    rewrite (inconsistency_ext c pos (bx ci) rcut (L ci) (fun a => HL ci a H) charge gel dp_cut alpha dpb dpc p (step_moment c pos (bx ci) charge gel dp_cut (L ci) alpha dpb dpc dp_mix (E_ind (edp s)) k)).
    + rewrite step_inconsistency; auto.
    + intros a Ha HP. apply (K3 a Ha HP). auto.
Qed.
(** charges only *)
Theorem el_repeatable : forall s1 s2 ci, (ci < nconf)%nat ->
  (forall a, (cnfstart (cs ci) <= a < cnfstart (cs ci) + inconf (cs ci))%nat -> frc (edv (calc false s1)) a = frc (edv (calc false s2)) a) /\
  en (edv (calc false s1)) ci = en (edv (calc false s2)) ci /\
  (STRESS bld = true -> forall k, (k < 6)%nat -> str (edv (calc false s1)) ci k = str (edv (calc false s2)) ci k) /\
  err (edv (calc false s1)) = err (edv (calc false s2)).
Proof.
  intros s1 s2.
  pose proof (fun s => el_values bld false phi dphi in_range charge alpha dpb dpc fel gel ggel dp_cut dp_tol dp_mix self_coef eweight sweight punish cs nconf CONT PS DS IS BS CS pos bx rcut GEO L HL
    ltac:(discriminate) s) as V. cbv zeta in V.
  assert (F : forall ci, (ci < nconf)%nat -> forall a, (cnfstart (cs ci) <= a < cnfstart (cs ci) + inconf (cs ci))%nat -> frc (edv (calc false s1)) a = frc (edv (calc false s2)) a).
  { intros ci H a Ha. destruct (V s1 ci H) as (A1 & A2 & _). destruct (V s2 ci H) as (B1 & B2 & _). destruct (uf (cs ci)); [rewrite A1, B1 by auto; auto|rewrite A2, B2 by auto; auto]. }
  assert (E : forall ci, (ci < nconf)%nat -> en (edv (calc false s1)) ci = en (edv (calc false s2)) ci).
  { intros ci H. destruct (V s1 ci H) as (_ & _ & A & _). destruct (V s2 ci H) as (_ & _ & B & _). rewrite A, B. auto. }
  assert (T : forall ci, (ci < nconf)%nat -> STRESS bld = true -> forall k, (k < 6)%nat -> str (edv (calc false s1)) ci k = str (edv (calc false s2)) ci k).
  { intros ci H ST k K. destruct (V s1 ci H) as (_ & _ & _ & A). destruct (V s2 ci H) as (_ & _ & _ & B). rewrite A, B by auto. auto. }
  intros ci H. split; [exact (F ci H)|]. split; [exact (E ci H)|]. split; [exact (T ci H)|].
  pose proof (fun s => el_error bld false phi dphi in_range charge alpha dpb dpc fel gel ggel dp_cut dp_tol dp_mix self_coef eweight sweight punish cs nconf CONT PS DS IS BS CS pos bx rcut GEO L HL
    ltac:(discriminate) s) as X. cbv zeta in X. rewrite (X s1), (X s2). f_equal. apply rsumf_ext. intros d Hd. apply in_seq in Hd.
  rewrite (E d) by lia. f_equal; [f_equal|].
  - apply rsumf_ext. intros a Ha. apply in_seq in Ha. rewrite (F d ltac:(lia) a) by lia. auto.
  - destruct (STRESS bld) eqn:ST; auto. destruct (uf (cs d) && us (cs d))%bool eqn:U; cbn [andb]; rewrite ?U; auto. apply rsumf_ext. intros k Hk. apply in_seq in Hk. rewrite (T d) by (auto; lia). auto.
Qed.
End Routine.

(** ** examples *)
Lemma charges_ex : charges 2 (fun i => if Nat.eqb i 0 then 1/3 else 2/3) (fun _ => 24/10) 1 = -12/10.
Proof. destruct (charges_spec 2 (fun i => if Nat.eqb i 0 then 1/3 else 2/3) (fun _ => 24/10)) as [A B]; [lia|simpl; lra|]. unfold rsumf in B. cbn [seq map] in B. unfold Vec.rsum in B. cbn [fold_right] in B.
  rewrite (A 0%nat) in B by lia. cbn [Nat.eqb] in B. lra. Qed.
