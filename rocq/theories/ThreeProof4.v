(** The three-body forces of a structure sum to zero. *)
From Coq Require Import Reals ZArith List Bool Lia Lra Permutation.
From Verif Require Import Vec NbrModel NbrProof NbrProof2 PairModel PairProof PairSpec PairProof2 PairProof3 ThreeSpec ThreeProof ThreeProof2 SwSpec.
Import ListNotations.
Local Open Scope R_scope.

Section Zero.
Variables (c : conf) (pos : nat -> vec) (b : box) (rcut : nat -> nat -> R).
Hypothesis FG : full_geometry c pos b rcut.
Notation lo := (cnfstart c).
Notation hi := (cnfstart c + inconf c)%nat.
Variable L : nat -> list (nat * image).
Hypothesis HL : forall a, (lo <= a < hi)%nat -> all_neighbors c pos b rcut a (L a).
Lemma spread : forall (X : nat -> nat * image -> R),
  rsumf (fun a => rsumf (fun i => rsumf (fun v => if Nat.eqb (fst v) a then X i v else 0) (L i)) (seq lo (inconf c))) (seq lo (inconf c)) =
  rsumf (fun i => rsumf (X i) (L i)) (seq lo (inconf c)).
Proof.
  intros X. rewrite rsumf_swap. apply rsumf_ext. intros i Hi. apply in_seq in Hi. rewrite rsumf_swap. apply rsumf_ext. intros [j m] V.
  assert (J : (lo <= j < hi)%nat) by (apply (HL i ltac:(lia)) in V; tauto). cbn [fst].
  transitivity (rsumf (fun a => if Nat.eqb a j then X i (j, m) else 0) (seq lo (inconf c))).
  - apply rsumf_ext. intros a _. rewrite Nat.eqb_sym. auto.
  - apply (pick (fun _ => X i (j, m))); [apply seq_NoDup|apply in_seq; lia].
Qed.
Lemma vif : forall (p : bool) x, (vx (if p then x else v0) = if p then vx x else 0) /\ (vy (if p then x else v0) = if p then vy x else 0) /\ (vz (if p then x else v0) = if p then vz x else 0).
Proof. intros [] x; auto. Qed.
Lemma zero_sum : forall (X Y : nat -> R) (G : nat -> nat * image -> R),
  (forall a, X a = rsumf (G a) (L a) - Y a) ->
  (forall a, Y a = rsumf (fun i => rsumf (fun v => if Nat.eqb (fst v) a then G i v else 0) (L i)) (seq lo (inconf c))) ->
  rsumf X (seq lo (inconf c)) = 0.
Proof.
  intros X Y G HX HY.
  rewrite (rsumf_ext X (fun a => rsumf (G a) (L a) + -1 * rsumf (fun i => rsumf (fun v => if Nat.eqb (fst v) a then G i v else 0) (L i)) (seq lo (inconf c)))).
  - rewrite rsumf_plus, rsumf_scale, spread. ring.
  - intros a _. rewrite HX, HY. ring.
Qed.
Theorem three_newton : forall h1 hc, vsum (three_force c pos b h1 hc L) (seq lo (inconf c)) = v0.
Proof.
  intros h1 hc. set (G := fun a v => vsum (tri_grad c pos b h1 hc a v) (others L a v)).
  apply vec_eq; unfold vsum at 1; cbn [vx vy vz v0].
  - apply (zero_sum _ (fun a => rsumf (fun i => rsumf (fun v => vx (if Nat.eqb (fst v) a then G i v else v0)) (L i)) (seq lo (inconf c))) (fun a v => vx (G a v))).
    + intros a. unfold three_force, vsub, vsum. cbn [vx]. auto.
    + intros a. apply rsumf_ext. intros i _. apply rsumf_ext. intros v _. apply vif.
  - apply (zero_sum _ (fun a => rsumf (fun i => rsumf (fun v => vy (if Nat.eqb (fst v) a then G i v else v0)) (L i)) (seq lo (inconf c))) (fun a v => vy (G a v))).
    + intros a. unfold three_force, vsub, vsum. cbn [vy]. auto.
    + intros a. apply rsumf_ext. intros i _. apply rsumf_ext. intros v _. apply vif.
  - apply (zero_sum _ (fun a => rsumf (fun i => rsumf (fun v => vz (if Nat.eqb (fst v) a then G i v else v0)) (L i)) (seq lo (inconf c))) (fun a v => vz (G a v))).
    + intros a. unfold three_force, vsub, vsum. cbn [vz]. auto.
    + intros a. apply rsumf_ext. intros i _. apply rsumf_ext. intros v _. apply vif.
Qed.
Theorem full_newton : forall dphi in_range, (forall s t r, dphi s t r = dphi t s r) -> (forall s t r, in_range s t r = in_range t s r) ->
  vsum (pair_force c pos b dphi in_range L) (seq lo (inconf c)) = v0.
Proof.
  intros dphi in_range DS IS. destruct (half_exists c pos b rcut FG) as (f & GEO).
  exact (newton dphi in_range DS IS (with_nb c f) pos b rcut GEO L HL).
Qed.
(** without self images nothing is missing *)
Lemma no_self_energy : forall phi in_range, no_self c L -> self_energy c pos b L phi in_range = 0.
Proof.
  intros phi in_range NS. unfold self_energy. rewrite rsumf_zero; [ring|]. intros a Ha. apply in_seq in Ha. apply rsumf_zero. intros v V.
  destruct (Nat.eqb_spec (fst v) a); auto. exfalso. apply (NS a v); auto; lia.
Qed.
Lemma no_self_virial : forall dphi in_range k, no_self c L -> self_virial c pos b L dphi in_range k = 0.
Proof.
  intros phi in_range k NS. unfold self_virial. rewrite rsumf_zero; [ring|]. intros a Ha. apply in_seq in Ha. apply rsumf_zero. intros v V.
  destruct (Nat.eqb_spec (fst v) a); auto. exfalso. apply (NS a v); auto; lia.
Qed.
End Zero.
