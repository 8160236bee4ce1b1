(** Two bands (TBEAM): the force of the second band is only added where the first reaches. *)
From Coq Require Import Reals ZArith List Bool Lia Lra.
From Verif Require Import Vec NbrModel NbrProof NbrProof2 NbrProof3 LoopUtil PairModel PairProof PairSpec PairProof2 PairProof3 ForceLoop BondProof EamModel EamProof EamSpec EamProof2 EamProof3 EamProof4.
Import ListNotations.
Local Open Scope R_scope.

Definition one_conf (l : list neigh) (ci : nat) : conf :=
  mk_conf ci 1 true true 1 1 (fun _ => l) (fun _ => 0%nat) (fun _ => true) (fun _ => 0) (fun _ => v0) 0 (fun _ => 0).
Lemma one_cont : forall l ci, cnfstart (one_conf l (S ci)) = (cnfstart (one_conf l ci) + inconf (one_conf l ci))%nat.
Proof. intros. simpl. lia. Qed.
Definition zf : nat -> nat -> R -> R := fun _ _ _ => 0.
Definition onef : nat -> nat -> R -> R := fun _ _ _ => 1.
Definition idf : nat -> nat -> R -> R := fun _ _ x => x.
Definition s_band : nat -> nat -> R -> bool := fun b _ _ => Nat.eqb b 1.
Definition all_range : nat -> nat -> R -> bool := fun _ _ _ => true.

Theorem tbeam_incomplete : exists (l : list neigh) (L : nat -> list (nat * image)),
  let c := one_conf l 0 in
  geometry c origin cube (fun _ _ => 1) /\ all_neighbors c origin cube (fun _ _ => 1) 0 (L 0%nat) /\
  forall s, let s' := EamModel.calc_forces tbeam_build zf zf all_range idf onef s_band idf onef idf onef (fun _ _ => 0) (fun _ _ => 100) (fun _ _ => 1)
                1 1 (fun _ => 0) (fun _ => 0) 0 1 1 (one_conf l) 1 s in
  str (dv s') 0%nat 0%nat <>
  (pair_virial c origin cube zf all_range L 0 + embed_virial c origin cube 2 idf onef s_band onef L 0) / conf_vol c - stress_0 c 0.
Proof.
  destruct cube_geometry as (l & NE & G). exists l. destruct (all_neighbors_exist _ _ _ _ G) as (L & HL). exists L. cbv zeta. 
  change (cube_conf l) with (one_conf l 0) in *. set (c := one_conf l 0) in *.
  assert (HL0 := HL 0%nat ltac:(simpl; lia)). split; [auto|]. split; [auto|]. intros s.
  assert (ORD : forall ci, (ci < 1)%nat -> ordered (one_conf l ci)) by (intros ci H; assert (ci = 0)%nat as -> by lia; apply (geo_ordered _ _ _ _ G)).
  assert (TYP : forall ci i e, (ci < 1)%nat -> (cnfstart (one_conf l ci) <= i < cnfstart (one_conf l ci) + inconf (one_conf l ci))%nat -> In e (nb (one_conf l ci) i) -> n_type e = typ (one_conf l ci) (n_nr e)).
  { intros ci i e H Hi He. assert (ci = 0)%nat as -> by lia. apply (geo_typ c origin cube (fun _ _ => 1) G L HL i e Hi He). }
  destruct (eam_run tbeam_build zf zf all_range idf onef s_band idf onef idf onef (fun _ _ => 0) (fun _ _ => 100) (fun _ _ => 1)
     1 1 (fun _ => 0) (fun _ => 0) 0 1 1 (one_conf l) 1 (one_cont l) ORD TYP ltac:(lia) s) as (_ & _ & S & _).
  rewrite (S 0%nat 0%nat) by (auto; lia). clear S. unfold str_f. change (stress_on (base tbeam_build) (one_conf l 0)) with true. cbv iota. fold c.
  match goal with |- (- (?A + ?B)) / _ - _ <> _ => assert (Z1 : A = 0); [|assert (Z2 : B = 0)] end.
  { unfold gstr. apply rsumf_zero. intros j _. apply rsumf_zero. intros e _. unfold pT, T, zf; simpl. unfold stress_of; simpl. ring. }
  { unfold gstr. apply rsumf_zero. intros j _. apply rsumf_zero. intros e _. unfold T3, s_band; simpl. unfold stress_of; simpl. ring. }
  rewrite Z1, Z2.
  assert (PV : pair_virial c origin cube zf all_range L 0 = 0).
  { unfold pair_virial. rewrite rsumf_zero; [ring|]. intros a _. apply rsumf_zero. intros v _. unfold bond_force, zf, stress_of. destruct (active _ _ _ _ _ _); simpl; unfold Rdiv; ring. }
  rewrite PV.
  assert (EV : embed_virial c origin cube 2 idf onef s_band onef L 0 < 0).
  { unfold embed_virial. change (seq (cnfstart c) (inconf c)) with [0%nat]. rewrite rsumf_cons. unfold rsumf at 2; simpl map; unfold Vec.rsum at 1; cbn [fold_right].
    set (f := fun v => stress_of (dvec origin cube 0 v) (embed_bond c origin cube 2 idf onef s_band onef L 0 v) 0).
    assert (FF : forall v, f v = 2 / dist origin cube 0 v * (vx (dvec origin cube 0 v) * vx (dvec origin cube 0 v))).
    { intros v. unfold f, embed_bond, stress_of. simpl seq. unfold rsumf; simpl map; unfold Vec.rsum; cbn [fold_right]. unfold dtrans, slope, s_band, onef; simpl. unfold Rdiv. ring. }
    assert (FN : forall v, In v (L 0%nat) -> 0 <= f v).
    { intros v Hv. rewrite FF. apply Rmult_le_pos; [|apply Rle_0_sqr]. apply Rlt_le, Rdiv_lt_0_compat; [lra|].
      unfold dist, norm. apply sqrt_lt_R0. pose proof (no_overlap c origin cube (fun _ _ => 1) G L HL 0%nat v ltac:(simpl; lia) Hv) as N.
      assert (H : 0 <= sprod (dvec origin cube 0 v) (dvec origin cube 0 v)) by (unfold sprod; pose proof (Rle_0_sqr (vx (dvec origin cube 0 v))); pose proof (Rle_0_sqr (vy (dvec origin cube 0 v))); pose proof (Rle_0_sqr (vz (dvec origin cube 0 v))); unfold Rsqr in *; lra).
      destruct (Rle_lt_or_eq_dec _ _ H) as [|E]; auto. exfalso. apply N. unfold sprod in E. pose proof (Rle_0_sqr (vx (dvec origin cube 0 v))); pose proof (Rle_0_sqr (vy (dvec origin cube 0 v))); pose proof (Rle_0_sqr (vz (dvec origin cube 0 v))); unfold Rsqr in *.
      apply vec_eq; simpl; apply Rsqr_0_uniq; unfold Rsqr; lra. }
    assert (D : dvec origin cube 0 (0%nat, (1, 0, 0)%Z) = V3 1 0 0) by (unfold dvec; cbn [fst snd]; rewrite cube_displacement; auto).
    assert (N1 : norm (V3 1 0 0) = 1) by (unfold norm, sprod; simpl; replace (1 * 1 + 0 * 0 + 0 * 0) with 1 by ring; apply sqrt_1).
    assert (B : In (0%nat, (1, 0, 0)%Z) (L 0%nat)).
    { apply (proj2 HL0). split; [simpl; lia|]. unfold bond. unfold dvec in D; cbn [fst snd] in D. split.
      - intros [_ E]. discriminate.
      - rewrite D, N1. lra. }
    assert (F1 : f (0%nat, (1, 0, 0)%Z) = 2) by (rewrite FF; unfold dist; rewrite D, N1; simpl; field).
    assert (P : 0 < rsumf f (L 0%nat)).
    { destruct (Rle_lt_or_eq_dec 0 (rsumf f (L 0%nat)) (rsumf_nonneg _ _ FN)) as [|E]; auto. symmetry in E.
      pose proof (sum_zero f _ FN E _ B). lra. }
    change (- (1 / 2 * (rsumf f (L 0%nat) + 0)) < 0). lra. }
  simpl conf_vol. simpl stress_0. lra.
Qed.
