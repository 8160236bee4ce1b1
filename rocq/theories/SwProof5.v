(** Refutations packaged for SwProps. *)
From Coq Require Import Reals ZArith List Bool Lia Lra.
From Verif Require Import Vec NbrModel NbrProof NbrProof3 PairModel PairSpec PairProof3 GradProof CellSpec CellProof CellProof2 ThreeSpec ThreeProof5
  SwModel SwSpec SwProof SwProof2 SwProof3 SwProof4.
Import ListNotations.
Local Open Scope R_scope.

Lemma self_refuted : exists V lam n cs pos bx rcut s,
  (forall ci, cnfstart (cs (S ci)) = (cnfstart (cs ci) + inconf (cs ci))%nat) /\
  (forall i j k, lam i j k = lam i k j) /\ full_geometry (cs 0%nat) pos bx rcut /\ uf (cs 0%nat) = true /\
  exists L, (forall a, (cnfstart (cs 0%nat) <= a < cnfstart (cs 0%nat) + inconf (cs 0%nat))%nat -> all_neighbors (cs 0%nat) pos bx rcut a (L a)) /\
  forall bld pow0 ew sw,
  en (calc_forces bld pow0 V lam n ew sw 0 cs 1 s) 0%nat <>
  (pair_energy (cs 0%nat) pos bx (two (par V n)) (two_in (par V n)) L + three_energy (cs 0%nat) pos bx (three (par V n) lam) L)
    / INR (inconf (cs 0%nat)) - energy_0 (cs 0%nat).
Proof.
  exists repulsive, (fun _ _ _ => 0), 1%nat, one, origin, cube, (fun _ _ => 1), zero_dev.
  split; [apply single_cont|]. split; [auto|]. split; [exact one_full|]. split; [auto|].
  destruct (full_neighbors _ _ _ _ one_full) as (L & HL). exists L. split; [exact HL|]. intros bld pow0 ew sw.
  destruct (one_half bld pow0 ew sw L HL) as (E & P). rewrite E, no_three.
  change (inconf (one 0)) with 1%nat. change (energy_0 (one 0)) with 0. simpl INR. lra.
Qed.

Lemma cells_refuted : exists V lam n cs1 cs2 pos1 pos2 bx1 bx2 rcut m tau s,
  (forall i j k, lam i j k = lam i k j) /\
  (forall ci, cnfstart (cs1 (S ci)) = (cnfstart (cs1 ci) + inconf (cs1 ci))%nat) /\
  (forall ci, cnfstart (cs2 (S ci)) = (cnfstart (cs2 ci) + inconf (cs2 ci))%nat) /\
  full_geometry (cs1 0%nat) pos1 bx1 rcut /\ full_geometry (cs2 0%nat) pos2 bx2 rcut /\
  same_crystal (cs1 0%nat) (cs2 0%nat) pos1 pos2 bx1 bx2 m tau /\
  energy_0 (cs1 0%nat) = energy_0 (cs2 0%nat) /\
  forall bld pow0 ew sw,
  en (calc_forces bld pow0 V lam n ew sw 0 cs1 1 s) 0%nat < en (calc_forces bld pow0 V lam n ew sw 0 cs2 1 s) 0%nat.
Proof.
  exists repulsive, (fun _ _ _ => 0), 1%nat, one, two_atoms, origin, pair_pos, cube, two_box, (fun _ _ => 1), 2%nat, (tau 1 1 2 (one 0) (two_atoms 0)), zero_dev.
  split; [auto|]. split; [apply single_cont|]. split; [apply single_cont|]. split; [exact one_full|]. split; [exact two_full|]. split; [exact two_same|]. split; [auto|].
  intros bld pow0 ew sw.
  destruct (full_neighbors _ _ _ _ one_full) as (L1 & H1). destruct (full_neighbors _ _ _ _ two_full) as (L2 & H2).
  exact (cells_differ bld pow0 ew sw L1 H1 L2 H2).
Qed.

Lemma unused_refuted : exists V lam n cs pos bx rcut s a,
  (forall ci, cnfstart (cs (S ci)) = (cnfstart (cs ci) + inconf (cs ci))%nat) /\
  full_geometry (cs 0%nat) pos bx rcut /\ uf (cs 0%nat) = false /\ (cnfstart (cs 0%nat) <= a < cnfstart (cs 0%nat) + inconf (cs 0%nat))%nat /\
  forall bld pow0 ew sw, frc (calc_forces bld pow0 V lam n ew sw 0 cs 1 s) a <> v0.
Proof.
  exists bending, (fun _ _ _ => 1), 1%nat, elbow_conf, elbow, cube, (fun _ _ => 12/100), zero_dev, 1%nat.
  split; [apply single_cont|]. split; [exact elbow_full|]. split; [auto|]. split; [simpl; lia|]. intros bld pow0 ew sw E.
  apply (unused_forces bld pow0 ew sw). rewrite E. auto.
Qed.

(** a cell without self images: the elbow with forces in use *)
Definition bent := only 3 1 true true (listed 3 elbow cube (12/100) (1, 1, 1)%Z).
Lemma bent_full : full_geometry (bent 0) elbow cube (fun _ _ => 12/100).
Proof. destruct elbow_full as [A B C]. constructor; auto. Qed.
Lemma bent_ex : (forall ci, cnfstart (bent (S ci)) = (cnfstart (bent ci) + inconf (bent ci))%nat) /\
  full_geometry (bent 0) elbow cube (fun _ _ => 12/100) /\
  (forall a, (a < 3)%nat -> all_neighbors (bent 0) elbow cube (fun _ _ => 12/100) a (elbow_list a)) /\
  no_self (bent 0) elbow_list.
Proof.
  split; [apply single_cont|]. split; [exact bent_full|]. split; [intros; apply elbow_neighbors; auto|].
  intros a v Ha I E. change (cnfstart (bent 0)) with 0%nat in Ha. change (inconf (bent 0)) with 3%nat in Ha. destruct a as [|[|[|]]]; try lia; simpl in I; destruct v as [k z]; simpl in E; subst;
    repeat (destruct I as [I|I]); try discriminate; auto.
Qed.
(** parameters for which [sw_gradient] applies to it *)
Lemma bent_off : forall i v, (cnfstart (bent 0) <= i < cnfstart (bent 0) + inconf (bent 0))%nat -> In v (elbow_list i) ->
  dist elbow cube i v <> sw_a1 (par bending 1 (typ (bent 0) i) (typ (bent 0) (fst v))) /\
  dist elbow cube i v <> edge (par bending 1) (typ (bent 0) i) (typ (bent 0) (fst v)).
Proof.
  intros i v Hi IN.
  assert (D : dist elbow cube i v = 1/10).
  { change (cnfstart (bent 0)) with 0%nat in Hi. change (inconf (bent 0)) with 3%nat in Hi. unfold dist. destruct v as [k z].
    assert (Q : z = (0, 0, 0)%Z /\ ((i = 0 /\ (k = 1 \/ k = 2)) \/ (k = 0 /\ (i = 1 \/ i = 2)))%nat).
    { destruct i as [|[|[|]]]; try lia; simpl in IN; repeat (destruct IN as [IN|IN]); try contradiction; injection IN as <- <-; auto. }
    destruct Q as (-> & Q). rewrite elbow_d. apply norm_tenth. destruct Q as [(-> & [-> | ->])|(-> & [-> | ->])]; unfold sprod; simpl; field. }
  rewrite D. change (typ (bent 0) i) with 0%nat. change (typ (bent 0) (fst v)) with 0%nat. unfold edge.
  change (sw_a1 (par bending 1 0 0)) with 0. change (sw_a2 (par bending 1 0 0)) with (1/5). change (sw_gamma (par bending 1 0 0)) with 1. lra.
Qed.
