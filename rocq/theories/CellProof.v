(** The environments of an atom are the same in both descriptions of a crystal. *)
From Coq Require Import Reals ZArith List Bool Lia Lra Permutation.
From Verif Require Import Vec NbrModel NbrProof NbrProof2 PairModel PairProof PairSpec PairProof2 CellSpec.
Import ListNotations.
Local Open Scope R_scope.

Lemma count_sum : forall (g : nat -> R) (h : nat -> nat) lo n l m, 
  (forall A, In A l -> (lo <= h A < lo + n)%nat) ->
  (forall i, (lo <= i < lo + n)%nat -> count_occ Nat.eq_dec (map h l) i = m) ->
  rsumf (fun A => g (h A)) l = INR m * rsumf g (seq lo n).
Proof.
  intros g h lo n l m HR HC.
  transitivity (rsumf (fun A => rsumf (fun i => if Nat.eqb i (h A) then g i else 0) (seq lo n)) l).
  { apply rsumf_ext. intros A HA. symmetry. apply (pick g); [apply seq_NoDup|apply in_seq; auto]. }
  rewrite (rsumf_swap (fun A i => if Nat.eqb i (h A) then g i else 0)). rewrite <- rsumf_scale. apply rsumf_ext. intros i Hi. apply in_seq in Hi.
  rewrite <- (HC i Hi). clear. induction l; [simpl; unfold rsumf; simpl; ring|].
  rewrite rsumf_cons. simpl map. destruct (Nat.eq_dec (h a) i) as [E|N].
  - rewrite count_occ_cons_eq by auto. rewrite S_INR, IHl. rewrite (proj2 (Nat.eqb_eq i (h a))) by auto. ring.
  - rewrite count_occ_cons_neq by auto. rewrite IHl. rewrite (proj2 (Nat.eqb_neq i (h a))) by auto. ring.
Qed.

Lemma nodup_map_in : forall {A B} (f : A -> B) l, (forall x y, In x l -> In y l -> f x = f y -> x = y) -> NoDup l -> NoDup (map f l).
Proof.
  intros A B f l. induction l; intros I N; simpl; [constructor|]. inversion N; subst. constructor.
  - intros H. apply in_map_iff in H. destruct H as (x & E & Hx). assert (x = a) by (apply I; [right|left|]; auto). subst. auto.
  - apply IHl; auto. intros; apply I; auto; right; auto.
Qed.

Section Cell.
Variables (c1 c2 : conf) (pos1 pos2 : nat -> vec) (b1 b2 : box) (m : nat) (tau : nat * image -> nat * image).
Hypothesis SC : same_crystal c1 c2 pos1 pos2 b1 b2 m tau.
Variable rcut : nat -> nat -> R.
Notation in1 i := (cnfstart c1 <= i < cnfstart c1 + inconf c1)%nat.
Notation in2 i := (cnfstart c2 <= i < cnfstart c2 + inconf c2)%nat.
Notation O3 := (0, 0, 0)%Z.

(** the atom of c1 that stands for A, and the neighbour of it that stands for v *)
Definition rep (A : nat) : nat := fst (tau (A, O3)).
Definition env (A : nat) (v : nat * image) : nat * image := (fst (tau v), zsub (snd (tau v)) (snd (tau (A, O3)))).

Lemma rep_in : forall A, in2 A -> in1 (rep A).
Proof. intros A HA. apply (sc_range _ _ _ _ _ _ _ _ SC); auto. Qed.
Lemma rep_type : forall A, in2 A -> typ c1 (rep A) = typ c2 A.
Proof. intros A HA. apply (sc_type _ _ _ _ _ _ _ _ SC); auto. Qed.

Lemma displacement_place : forall pos b i j n, displacement pos b i j n = vsub (place pos b (j, n)) (pos i).
Proof. intros pos b i j [[x y] z]. auto. Qed.
Lemma place_0 : forall pos b i, place pos b (i, O3) = pos i.
Proof. intros. unfold place, comb. vring. Qed.
Lemma place_zsub : forall pos b j i n n0, vsub (place pos b (j, zsub n n0)) (pos i) = vsub (place pos b (j, n)) (place pos b (i, n0)).
Proof. intros pos b j i [[x y] z] [[u v] w]. unfold place, zsub, comb. rewrite !minus_IZR. vring. Qed.

Lemma env_displacement : forall A B N, in2 A -> in2 B ->
  displacement pos1 b1 (rep A) (fst (env A (B, N))) (snd (env A (B, N))) = displacement pos2 b2 A B N.
Proof.
  intros A B N HA HB. rewrite !displacement_place. unfold env. cbn [fst snd]. rewrite place_zsub.
  replace (fst (tau (B, N)), snd (tau (B, N))) with (tau (B, N)) by (destruct (tau (B, N)); auto).
  replace (rep A, snd (tau (A, O3))) with (tau (A, O3)) by (unfold rep; destruct (tau (A, O3)); auto).
  rewrite !(sc_place _ _ _ _ _ _ _ _ SC) by auto. rewrite place_0. auto.
Qed.
Lemma env_type : forall A B N, in2 B -> typ c1 (fst (env A (B, N))) = typ c2 B.
Proof. intros. apply (sc_type _ _ _ _ _ _ _ _ SC); auto. Qed.
Lemma zsub_inj : forall a b n, zsub a n = zsub b n -> a = b.
Proof. intros [[x y] z] [[u v] w] [[a b] c] H. unfold zsub in H. injection H as H1 H2 H3. repeat f_equal; lia. Qed.
Lemma zsub_0 : forall a b, zsub a b = O3 <-> a = b.
Proof. intros [[x y] z] [[u v] w]. unfold zsub. split; intros H; injection H; intros; subst; repeat f_equal; lia. Qed.
Lemma env_inj : forall A B N B' N', in2 B -> in2 B' -> env A (B, N) = env A (B', N') -> (B, N) = (B', N').
Proof.
  intros A B N B' N' HB HB' E. unfold env in E. injection E as E1 E2. apply zsub_inj in E2.
  apply (sc_inj _ _ _ _ _ _ _ _ SC); auto. destruct (tau (B, N)), (tau (B', N')). simpl in *. congruence.
Qed.
Lemma env_onto : forall A i n, in1 i -> exists B N, in2 B /\ env A (B, N) = (i, n).
Proof.
  intros A i n Hi. destruct (snd (tau (A, O3))) as [[u v] w] eqn:E. destruct n as [[x y] z].
  destruct (sc_onto _ _ _ _ _ _ _ _ SC i (x + u, y + v, z + w)%Z Hi) as (B & N & HB & T).
  exists B, N. split; auto. unfold env. rewrite T, E. simpl. repeat f_equal; lia.
Qed.
Lemma env_self : forall A B N, in2 A -> in2 B -> (env A (B, N) = (rep A, O3) <-> (B, N) = (A, O3)).
Proof.
  intros A B N HA HB. split.
  - intros E. apply (sc_inj _ _ _ _ _ _ _ _ SC); auto. unfold env, rep in E. injection E as E1 E2. apply (proj1 (zsub_0 _ _)) in E2.
    apply injective_projections; auto.
  - intros E. injection E as -> ->. unfold env, rep. f_equal. apply zsub_0. auto.
Qed.

Lemma env_bond : forall A B N, in2 A -> in2 B ->
  (bond pos1 (typ c1) b1 rcut (rep A) (fst (env A (B, N))) (snd (env A (B, N))) <-> bond pos2 (typ c2) b2 rcut A B N).
Proof.
  intros A B N HA HB. unfold bond. rewrite env_displacement, rep_type, env_type by auto.
  assert (S := env_self A B N HA HB).
  assert ((rep A = fst (env A (B, N)) /\ snd (env A (B, N)) = O3) <-> (A = B /\ N = O3)).
  { split.
    - intros [E1 E2]. assert (E : (B, N) = (A, O3)) by (apply (proj1 S); apply injective_projections; auto). injection E; auto.
    - intros [E1 E2]. assert (E : env A (B, N) = (rep A, O3)) by (apply (proj2 S); rewrite E1, E2; auto). rewrite E. auto. }
  tauto.
Qed.

Theorem env_perm : forall A L1 L2, in2 A -> all_neighbors c1 pos1 b1 rcut (rep A) L1 -> all_neighbors c2 pos2 b2 rcut A L2 ->
  Permutation (map (env A) L2) L1.
Proof.
  intros A L1 L2 HA [N1 H1] [N2 H2]. apply NoDup_Permutation; auto.
  - apply nodup_map_in; auto. intros [B N] [B' N'] HB HB' E.
    apply (env_inj A); auto; [apply (H2 B N); auto|apply (H2 B' N'); auto].
  - intros [j n]. rewrite in_map_iff, H1. split.
    + intros ([B N] & E & I). apply H2 in I. destruct I as [HB BD]. apply env_bond in BD; auto. rewrite E in BD. split; auto.
      replace j with (fst (env A (B, N))) by (rewrite E; auto). apply (sc_range _ _ _ _ _ _ _ _ SC); auto.
    + intros [Hj BD]. destruct (env_onto A j n Hj) as (B & N & HB & E). exists (B, N). split; auto. apply H2. split; auto.
      apply env_bond; auto. rewrite E. auto.
Qed.

Section Pair.
Variables phi dphi : nat -> nat -> R -> R.
Variable in_range : nat -> nat -> R -> bool.
Variables L1 L2 : nat -> list (nat * image).
Hypothesis HL1 : forall a, in1 a -> all_neighbors c1 pos1 b1 rcut a (L1 a).
Hypothesis HL2 : forall a, in2 a -> all_neighbors c2 pos2 b2 rcut a (L2 a).

Lemma env_sum : forall A (f1 f2 : nat * image -> R), in2 A ->
  (forall B N, in2 B -> f2 (B, N) = f1 (env A (B, N))) -> rsumf f2 (L2 A) = rsumf f1 (L1 (rep A)).
Proof.
  intros A f1 f2 HA E. rewrite <- (rsumf_perm f1 _ _ (env_perm A (L1 (rep A)) (L2 A) HA (HL1 _ (rep_in A HA)) (HL2 A HA))).
  rewrite rsumf_map. apply rsumf_ext. intros [B N] I. apply E. apply (proj2 (HL2 A HA) B N). auto.
Qed.
Lemma rep_sum : forall g, rsumf (fun A => g (rep A)) (seq (cnfstart c2) (inconf c2)) = INR m * rsumf g (seq (cnfstart c1) (inconf c1)).
Proof.
  intros g. apply count_sum.
  - intros A HA. apply in_seq in HA. apply rep_in. lia.
  - apply (sc_count _ _ _ _ _ _ _ _ SC).
Qed.
Lemma env_dvec : forall A B N, in2 A -> in2 B -> dvec pos2 b2 A (B, N) = dvec pos1 b1 (rep A) (env A (B, N)).
Proof. intros. unfold dvec. cbn [fst snd]. rewrite env_displacement; auto. Qed.
Lemma env_dist : forall A B N, in2 A -> in2 B -> dist pos2 b2 A (B, N) = dist pos1 b1 (rep A) (env A (B, N)).
Proof. intros. unfold dist. rewrite env_dvec; auto. Qed.
Lemma env_energy : forall A B N, in2 A -> in2 B ->
  bond_energy c2 pos2 b2 phi in_range A (B, N) = bond_energy c1 pos1 b1 phi in_range (rep A) (env A (B, N)).
Proof. intros. unfold bond_energy, active. rewrite env_dist, rep_type, env_type by auto. auto. Qed.
Lemma env_force : forall A B N, in2 A -> in2 B ->
  bond_force c2 pos2 b2 dphi in_range A (B, N) = bond_force c1 pos1 b1 dphi in_range (rep A) (env A (B, N)).
Proof. intros. unfold bond_force, active. rewrite env_dist, env_dvec, rep_type, env_type by auto. auto. Qed.

Theorem same_energy : pair_energy c2 pos2 b2 phi in_range L2 = INR m * pair_energy c1 pos1 b1 phi in_range L1.
Proof.
  unfold pair_energy. rewrite (rsumf_ext _ (fun A => (fun a => rsumf (bond_energy c1 pos1 b1 phi in_range a) (L1 a)) (rep A))).
  - rewrite (rep_sum (fun a => rsumf (bond_energy c1 pos1 b1 phi in_range a) (L1 a))). ring.
  - intros A HA. apply in_seq in HA. apply env_sum; [lia|]. intros. apply env_energy; auto; lia.
Qed.
Theorem same_virial : forall k, pair_virial c2 pos2 b2 dphi in_range L2 k = INR m * pair_virial c1 pos1 b1 dphi in_range L1 k.
Proof.
  intros k. unfold pair_virial.
  rewrite (rsumf_ext _ (fun A => (fun a => rsumf (fun v => stress_of (dvec pos1 b1 a v) (bond_force c1 pos1 b1 dphi in_range a v) k) (L1 a)) (rep A))).
  - rewrite (rep_sum (fun a => rsumf (fun v => stress_of (dvec pos1 b1 a v) (bond_force c1 pos1 b1 dphi in_range a v) k) (L1 a))). ring.
  - intros A HA. apply in_seq in HA. apply env_sum; [lia|]. intros. rewrite env_dvec, env_force by (auto; lia). auto.
Qed.
Theorem same_force : forall A, in2 A -> pair_force c2 pos2 b2 dphi in_range L2 A = pair_force c1 pos1 b1 dphi in_range L1 (rep A).
Proof.
  intros A HA. unfold pair_force, vsum. f_equal; apply env_sum; auto; intros B N HB; rewrite env_force; auto.
Qed.
End Pair.
End Cell.
