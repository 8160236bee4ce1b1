(** Three-body sums on two descriptions of one crystal. *)
From Coq Require Import Reals ZArith List Bool Lia Lra Permutation.
From Verif Require Import Vec NbrModel NbrProof NbrProof2 PairModel PairProof PairSpec PairProof2 PairProof3 CellSpec CellProof CellProof2 ThreeSpec ThreeProof.
Import ListNotations.
Local Open Scope R_scope.

Lemma full_neighbors : forall c pos b rcut, full_geometry c pos b rcut ->
  exists L, forall a, (cnfstart c <= a < cnfstart c + inconf c)%nat -> all_neighbors c pos b rcut a (L a).
Proof. intros c pos b rcut G. destruct (nb_full c pos b rcut G) as (B & _ & H & _). eauto. Qed.
Lemma full_neighbors_all : forall rcut n cs pos bx, (forall ci, (ci < n)%nat -> full_geometry (cs ci) pos (bx ci) rcut) -> exists L, forall ci a, (ci < n)%nat ->
    (cnfstart (cs ci) <= a < cnfstart (cs ci) + inconf (cs ci))%nat -> all_neighbors (cs ci) pos (bx ci) rcut a (L ci a).
Proof.
  intros rcut n cs pos bx. induction n; intros G.
  - exists (fun _ _ => []). intros; lia.
  - destruct IHn as (L & HL); [intros; apply G; lia|]. destruct (full_neighbors (cs n) pos (bx n) rcut (G n ltac:(lia))) as (M & HM).
    exists (fun ci => if Nat.eqb ci n then M else L ci). intros ci a H Ha. destruct (Nat.eqb_spec ci n) as [E|N]; [rewrite E in *; auto|apply HL; auto; lia].
Qed.

Section Cell.
Variables (c1 c2 : conf) (pos1 pos2 : nat -> vec) (b1 b2 : box) (m : nat) (tau : nat * image -> nat * image).
Hypothesis SC : same_crystal c1 c2 pos1 pos2 b1 b2 m tau.
Variable rcut : nat -> nat -> R.
Notation in1 i := (cnfstart c1 <= i < cnfstart c1 + inconf c1)%nat.
Notation in2 i := (cnfstart c2 <= i < cnfstart c2 + inconf c2)%nat.
Variables L1 L2 : nat -> list (nat * image).
Hypothesis HL1 : forall a, in1 a -> all_neighbors c1 pos1 b1 rcut a (L1 a).
Hypothesis HL2 : forall a, in2 a -> all_neighbors c2 pos2 b2 rcut a (L2 a).
Notation rp := (rep tau).
Notation ev := (env tau).
Lemma env_same : forall A B N C M, in2 A -> in2 B -> in2 C -> same (ev A (B, N)) (ev A (C, M)) = same (B, N) (C, M).
Proof.
  intros A B N C M HA HB HC.
  destruct (same (B, N) (C, M)) eqn:E.
  - apply same_spec in E. rewrite E. apply same_refl.
  - destruct (same (ev A (B, N)) (ev A (C, M))) eqn:F; auto. apply same_spec in F.
    apply (env_inj _ _ _ _ _ _ _ _ SC) in F; auto. rewrite F, same_refl in E. discriminate.
Qed.
Lemma env_others : forall A B N (f1 f2 : nat * image -> R), in2 A -> in2 B ->
  (forall C M, in2 C -> f2 (C, M) = f1 (ev A (C, M))) -> rsumf f2 (others L2 A (B, N)) = rsumf f1 (others L1 (rp A) (ev A (B, N))).
Proof.
  intros A B N f1 f2 HA HB H. unfold others. rewrite !rsumf_filter.
  apply (env_sum _ _ _ _ _ _ _ _ SC rcut L1 L2 HL1 HL2); auto. intros C M HC. rewrite env_same, H by auto. auto.
Qed.
Variables h h1 hc : nat -> nat -> nat -> R -> R -> R -> R.
Lemma env_cosine : forall A B N C M, in2 A -> in2 B -> in2 C -> cosine pos2 b2 A (B, N) (C, M) = cosine pos1 b1 (rp A) (ev A (B, N)) (ev A (C, M)).
Proof. intros. unfold cosine. rewrite !(env_dist _ _ _ _ _ _ _ _ SC), !(env_dvec _ _ _ _ _ _ _ _ SC) by auto. auto. Qed.
Lemma env_at : forall f A B N C M, in2 A -> in2 B -> in2 C -> at_ c2 pos2 b2 f A (B, N) (C, M) = at_ c1 pos1 b1 f (rp A) (ev A (B, N)) (ev A (C, M)).
Proof.
  intros. unfold at_. rewrite env_cosine, !(env_dist _ _ _ _ _ _ _ _ SC), !(env_type _ _ _ _ _ _ _ _ SC), (rep_type _ _ _ _ _ _ _ _ SC) by auto. auto.
Qed.
Lemma env_grad : forall A B N C M, in2 A -> in2 B -> in2 C -> tri_grad c2 pos2 b2 h1 hc A (B, N) (C, M) = tri_grad c1 pos1 b1 h1 hc (rp A) (ev A (B, N)) (ev A (C, M)).
Proof.
  intros. unfold tri_grad. rewrite !env_at, env_cosine, !(env_dist _ _ _ _ _ _ _ _ SC), !(env_dvec _ _ _ _ _ _ _ _ SC) by auto. auto.
Qed.
Theorem same_three_energy : three_energy c2 pos2 b2 h L2 = INR m * three_energy c1 pos1 b1 h L1.
Proof.
  unfold three_energy. set (g := fun a => 1/2 * rsumf (fun v => rsumf (at_ c1 pos1 b1 h a v) (others L1 a v)) (L1 a)).
  rewrite (rsumf_ext _ (fun A => g (rp A))).
  - apply (rep_sum _ _ _ _ _ _ _ _ SC g).
  - intros A HA. apply in_seq in HA. unfold g. f_equal. apply (env_sum _ _ _ _ _ _ _ _ SC rcut L1 L2 HL1 HL2); [lia|]. intros B N HB.
    apply env_others; auto; try lia. intros C M HC. apply env_at; auto; lia.
Qed.
Theorem same_three_virial : forall k, three_virial c2 pos2 b2 h1 hc L2 k = INR m * three_virial c1 pos1 b1 h1 hc L1 k.
Proof.
  intros k. unfold three_virial. set (g := fun a => rsumf (fun v => rsumf (fun w => stress_of (dvec pos1 b1 a v) (tri_grad c1 pos1 b1 h1 hc a v w) k) (others L1 a v)) (L1 a)).
  rewrite (rsumf_ext _ (fun A => g (rp A))).
  - rewrite (rep_sum _ _ _ _ _ _ _ _ SC g). ring.
  - intros A HA. apply in_seq in HA. unfold g. apply (env_sum _ _ _ _ _ _ _ _ SC rcut L1 L2 HL1 HL2); [lia|]. intros B N HB.
    apply (env_others A B N (fun w => stress_of (dvec pos1 b1 (rp A) (ev A (B, N))) (tri_grad c1 pos1 b1 h1 hc (rp A) (ev A (B, N)) w) k)); auto; try lia. intros C M HC.
    rewrite env_grad, (env_dvec _ _ _ _ _ _ _ _ SC) by (auto; lia). auto.
Qed.
End Cell.
