(** Examples for the electrostatic routine. *)
From Coq Require Import Reals ZArith List Bool Lia Lra.
From Verif Require Import Vec NbrModel NbrProof NbrProof3 PairModel PairProof PairSpec PairProof2 PairProof3 SwProof3 SwProof4 ElSpec ElModel ElProof ElProof2 ElProof6 ElProof9 ElProof10.
Import ListNotations.
Local Open Scope R_scope.
Lemma duo_example : (forall f ci, cnfstart (duo kinds f (S ci)) = (cnfstart (duo kinds f ci) + inconf (duo kinds f ci))%nat) /\
  (forall f, geometry (duo kinds f 0) elbow cube (fun _ _ => 12/100)) /\
  (forall f a, (a < 2)%nat -> all_neighbors (duo kinds f 0) elbow cube (fun _ _ => 12/100) a (duo_list a)) /\
  (forall f a, (a < 2)%nat -> pm1 (typ (duo kinds f 0) a) <> 0) /\
  (forall f g p x y, p 0%nat = V3 x 0 0 -> p 1%nat = V3 y 0 0 ->
     dip_energy (duo kinds f 0) elbow cube pm1 g 1 duo_list all_one (fun _ _ => 0) (fun _ _ => 0) p = g (1/10) * ((y + x) / 10 + 2 * x * y)).
Proof.
  split; [exact (duo_cont kinds)|]. split; [exact (duo_geo kinds)|]. split; [exact (duo_neighbors kinds)|]. split.
  - intros f a _. unfold pm1. destruct (Nat.eqb _ 0); lra.
  - intros f g p x y P0 P1. rewrite (proj1 (duo_energy f pm1 g p x y P0 P1)). unfold pm1. cbn [Nat.eqb]. field.
Qed.
Lemma duo_first_ex : forall bld phi dphi in_range fel gel ggel tol mix sc ew sw pu s x y,
  E_ind (edp s) 0%nat = V3 x 0 0 -> E_ind (edp s) 1%nat = V3 y 0 0 -> 0 < tol ->
  let s' := ElModel.calc_forces bld true phi dphi in_range pm1 all_one (fun _ _ => 0) (fun _ _ => 0) fel gel ggel 1 tol mix sc ew sw pu (duo kinds true) 1 s in
  let G := gel (1/10) in let p0 := x + -1 * G / 10 in let p1 := y - 1 * G / 10 in
  (sq (x - 2 * G * p1) + sq (y - 2 * G * p0)) / 6 < tol * tol ->
  p_ind (edp s') 0%nat = V3 p0 0 0 /\ p_ind (edp s') 1%nat = V3 p1 0 0.
Proof.
  intros bld phi dphi in_range fel gel ggel tol mix sc ew sw pu s x y X Y T s' G p0 p1 H.
  destruct (duo_first bld phi dphi in_range fel gel ggel tol mix sc ew sw pu true pm1 s x y X Y T H) as (A & B & _). split; auto.
Qed.
