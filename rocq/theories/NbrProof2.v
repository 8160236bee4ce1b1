(** Half lists: sums over them against sums over all neighbours. *)
From Coq Require Import Reals ZArith List Bool Lia Lra Permutation.
From Verif Require Import Vec NbrModel NbrProof.
Import ListNotations.
Local Open Scope R_scope.

Definition neg (n : image) : image := let '(x, y, z) := n in (- x, - y, - z)%Z.
Lemma neg_neg : forall n, neg (neg n) = n.
Proof. intros [[x y] z]. simpl. rewrite !Z.opp_involutive. auto. Qed.
Lemma within_neg : forall s n, within s n -> within s (neg n).
Proof. intros [[sx sy] sz] [[x y] z]. simpl. lia. Qed.
Lemma images_neg : forall s, Permutation (map neg (images s)) (images s).
Proof.
  intros s. apply NoDup_Permutation.
  - apply FinFun.Injective_map_NoDup; [|apply images_nodup]. intros a b H. rewrite <- (neg_neg a), H. apply neg_neg.
  - apply images_nodup.
  - intros n. rewrite in_map_iff. setoid_rewrite images_in. split.
    + intros (m & <- & M). apply within_neg. auto.
    + intros W. exists (neg n). split; [apply neg_neg|apply within_neg; auto].
Qed.

Section Half.
Variables (lo cnt : nat) (pos : nat -> vec) (typ : nat -> nat) (b : box).
Variables (rcut : nat -> nat -> R) (scale : image).
Hypothesis SYM : forall s t, rcut s t = rcut t s.

Notation disp := (displacement pos b).
Lemma displacement_neg : forall i j n, disp j i (neg n) = vscale (-1) (disp i j n).
Proof. intros i j [[x y] z]. unfold displacement, comb, neg. rewrite !opp_IZR. vring. Qed.
Lemma norm_neg : forall v, norm (vscale (-1) v) = norm v.
Proof. intros v. unfold norm, sprod. f_equal. simpl. ring. Qed.
Lemma bond_sym : forall i j n, bond pos typ b rcut i j n <-> bond pos typ b rcut j i (neg n).
Proof.
  intros i j n. unfold bond. rewrite displacement_neg, norm_neg, (SYM (typ j)).
  assert (E : (i = j /\ n = (0, 0, 0)%Z) <-> (j = i /\ neg n = (0, 0, 0)%Z)); [|tauto].
  split; intros [-> H]; split; auto.
  - subst. auto.
  - rewrite <- (neg_neg n), H. auto.
Qed.
Notation bb := (bondb pos typ b rcut).
Lemma bondb_sym : forall i j n, bb i (j, n) = bb j (i, neg n).
Proof.
  intros i j n. apply eq_true_iff_eq. rewrite !bondb_true. apply bond_sym.
Qed.

Definition all_bonds (i : nat) : list (nat * image) := filter (bb i) (visits lo (lo + cnt) scale).
Definition half_bonds (i : nat) : list (nat * image) := filter (bb i) (visits i (lo + cnt) scale).

Lemma visits_from : forall i, (lo <= i <= lo + cnt)%nat ->
  visits i (lo + cnt) scale = filter (fun v => Nat.leb i (fst v)) (visits lo (lo + cnt) scale).
Proof.
  intros i H. unfold visits.
  assert (G : forall l, flat_map (fun j => map (pair j) (images scale)) (filter (Nat.leb i) l) =
     filter (fun v => Nat.leb i (fst v)) (flat_map (fun j => map (pair j) (images scale)) l)).
  { induction l as [|j l IH]; simpl; auto. rewrite filter_app.
    assert (Q : filter (fun v => Nat.leb i (fst v)) (map (pair j) (images scale)) = if Nat.leb i j then map (pair j) (images scale) else []).
    { clear IH. induction (images scale) as [|m im IM]; cbn [map filter fst]; [destruct (Nat.leb i j); auto|]. rewrite IM. destruct (Nat.leb i j); auto. }
    rewrite Q. destruct (Nat.leb i j); simpl; rewrite IH; auto. }
  rewrite <- G. f_equal. replace (lo + cnt - lo)%nat with ((i - lo) + (lo + cnt - i))%nat by lia. rewrite seq_app, filter_app.
  replace (lo + (i - lo))%nat with i by lia.
  assert (A : forall l, (forall k, In k l -> (k < i)%nat) -> filter (Nat.leb i) l = []).
  { induction l; intros K; simpl; auto. rewrite IHl by (intros; apply K; right; auto). replace (Nat.leb i a) with false; auto. symmetry. apply Nat.leb_gt. apply K. left. auto. }
  assert (B : forall l, (forall k, In k l -> (i <= k)%nat) -> filter (Nat.leb i) l = l).
  { induction l; intros K; simpl; auto. rewrite IHl by (intros; apply K; right; auto). replace (Nat.leb i a) with true; auto. symmetry. apply Nat.leb_le. apply K. left. auto. }
  rewrite A, B; auto; intros k K; apply in_seq in K; lia.
Qed.

Lemma half_all : forall i, (lo <= i <= lo + cnt)%nat -> half_bonds i = filter (fun v => Nat.leb i (fst v)) (all_bonds i).
Proof.
  intros i H. unfold half_bonds, all_bonds. rewrite visits_from by auto.
  induction (visits lo (lo + cnt) scale) as [|a l IH]; simpl; auto.
  destruct (Nat.leb i (fst a)) eqn:E1, (bb i a) eqn:E2; simpl; rewrite ?E1, ?E2, ?IH; auto.
Qed.

Lemma all_expand : forall i (g : nat * image -> R), rsumf g (all_bonds i) =
  rsumf (fun j => rsumf (fun n => if bb i (j, n) then g (j, n) else 0) (images scale)) (seq lo cnt).
Proof.
  intros i g. unfold all_bonds, visits. rewrite rsumf_filter, rsumf_flat_map. replace (lo + cnt - lo)%nat with cnt by lia.
  apply rsumf_ext. intros j _. rewrite rsumf_map. auto.
Qed.

Lemma pick : forall (f : nat -> R) a l, NoDup l -> In a l -> rsumf (fun j => if Nat.eqb j a then f j else 0) l = f a.
Proof.
  intros f a l N. induction N; intros I; [contradiction|]. rewrite rsumf_cons. destruct (Nat.eqb_spec x a) as [->|NE].
  - rewrite rsumf_zero; [ring|]. intros y Y. destruct (Nat.eqb_spec y a); [subst; contradiction|auto].
  - destruct I as [->|I]; [contradiction|]. rewrite IHN by auto. ring.
Qed.

(** sums over bonds seen from the other end *)
Lemma reverse : forall a (G : nat -> nat * image -> R), (lo <= a < lo + cnt)%nat ->
  rsumf (fun k => rsumf (fun v => if Nat.eqb (fst v) a then G k v else 0) (all_bonds k)) (seq lo cnt) =
  rsumf (fun v => G (fst v) (a, neg (snd v))) (all_bonds a).
Proof.
  intros a G Ha. rewrite (all_expand a). apply rsumf_ext. intros k K. rewrite all_expand. simpl.
  transitivity (rsumf (fun j => if Nat.eqb j a then rsumf (fun n => if bb k (j, n) then G k (j, n) else 0) (images scale) else 0) (seq lo cnt)).
  { apply rsumf_ext. intros j _. destruct (Nat.eqb j a); [auto|]. apply rsumf_zero. intros n _. destruct (bb k (j, n)); auto. }
  rewrite pick; [|apply seq_NoDup|apply in_seq; lia].
  rewrite <- (rsumf_perm _ _ _ (images_neg scale)), rsumf_map. apply rsumf_ext. intros n _.
  rewrite (bondb_sym a k n). auto.
Qed.

Definition weight (i : nat) (v : nat * image) : R := if Nat.eqb (fst v) i then 1/2 else 1.

Lemma sum_pick_back : forall (H : nat -> R), rsumf (fun k => H k) (seq lo cnt) = rsumf H (seq lo cnt).
Proof. auto. Qed.

(** total over all ordered bonds, seen from the other end *)
Lemma reverse_total : forall (G : nat -> nat * image -> R),
  rsumf (fun k => rsumf (fun v => G k v) (all_bonds k)) (seq lo cnt) =
  rsumf (fun a => rsumf (fun v => G (fst v) (a, neg (snd v))) (all_bonds a)) (seq lo cnt).
Proof.
  intros G.
  transitivity (rsumf (fun k => rsumf (fun a => rsumf (fun v => if Nat.eqb (fst v) a then G k v else 0) (all_bonds k)) (seq lo cnt)) (seq lo cnt)).
  - apply rsumf_ext. intros k _. rewrite rsumf_swap. apply rsumf_ext. intros v V.
    assert (I : In (fst v) (seq lo cnt)). { destruct v as [j n]. apply filter_In in V. destruct V as [V _]. apply visits_in in V. apply in_seq. simpl. lia. }
    symmetry. rewrite (rsumf_ext _ (fun j => if Nat.eqb j (fst v) then G k v else 0)).
    + apply (pick (fun _ => G k v)); [apply seq_NoDup|auto].
    + intros j _. rewrite Nat.eqb_sym. auto.
  - rewrite rsumf_swap. apply rsumf_ext. intros a A. apply reverse. apply in_seq in A. lia.
Qed.

(** ** half lists with weight 1/2 for self images *)
Theorem half_energy : forall (G : nat -> nat * image -> R),
  (forall i j n, G i (j, n) = G j (i, neg n)) ->
  rsumf (fun i => rsumf (fun v => weight i v * G i v) (half_bonds i)) (seq lo cnt) =
  1/2 * rsumf (fun i => rsumf (G i) (all_bonds i)) (seq lo cnt).
Proof.
  intros G S.
  set (up := fun k (v : nat * image) => if Nat.ltb k (fst v) then G k v else 0).
  set (dn := fun k (v : nat * image) => if Nat.ltb (fst v) k then G k v else 0).
  set (eq := fun k (v : nat * image) => if Nat.eqb (fst v) k then G k v else 0).
  assert (A : rsumf (fun i => rsumf (fun v => weight i v * G i v) (half_bonds i)) (seq lo cnt) =
     rsumf (fun i => rsumf (up i) (all_bonds i) + 1/2 * rsumf (eq i) (all_bonds i)) (seq lo cnt)).
  { apply rsumf_ext. intros i Hi. apply in_seq in Hi. rewrite half_all by lia. rewrite rsumf_filter, <- rsumf_scale, <- rsumf_plus.
    apply rsumf_ext. intros v _. unfold up, eq, weight.
    destruct (Nat.leb_spec i (fst v)), (Nat.eqb_spec (fst v) i), (Nat.ltb_spec i (fst v)); try lia; lra. }
  assert (B : rsumf (fun i => rsumf (G i) (all_bonds i)) (seq lo cnt) =
     rsumf (fun i => rsumf (up i) (all_bonds i) + rsumf (dn i) (all_bonds i) + rsumf (eq i) (all_bonds i)) (seq lo cnt)).
  { apply rsumf_ext. intros i _. rewrite <- !rsumf_plus. apply rsumf_ext. intros v _. unfold up, dn, eq.
    destruct (Nat.eqb_spec (fst v) i), (Nat.ltb_spec i (fst v)), (Nat.ltb_spec (fst v) i); try lia; lra. }
  rewrite A, B. rewrite !rsumf_plus.
  assert (C : rsumf (fun i => rsumf (dn i) (all_bonds i)) (seq lo cnt) = rsumf (fun i => rsumf (up i) (all_bonds i)) (seq lo cnt)).
  { rewrite reverse_total. apply rsumf_ext. intros a _. apply rsumf_ext. intros [j n] _. unfold dn, up. simpl.
    destruct (Nat.ltb a j); auto. }
  rewrite C, rsumf_scale. lra.
Qed.

Theorem half_force : forall (G : nat -> nat * image -> R) a,
  (forall i j n, G i (j, n) = - G j (i, neg n)) -> (lo <= a < lo + cnt)%nat ->
  rsumf (fun v => weight a v * G a v) (half_bonds a) -
  rsumf (fun k => rsumf (fun v => if Nat.eqb (fst v) a then weight k v * G k v else 0) (half_bonds k)) (seq lo cnt) =
  rsumf (G a) (all_bonds a).
Proof.
  intros G a S Ha.
  set (up := fun k (v : nat * image) => if Nat.ltb k (fst v) then G k v else 0).
  set (dn := fun k (v : nat * image) => if Nat.ltb (fst v) k then G k v else 0).
  set (eq := fun k (v : nat * image) => if Nat.eqb (fst v) k then G k v else 0).
  assert (E0 : rsumf (eq a) (all_bonds a) = 0).
  { assert (Q : rsumf (eq a) (all_bonds a) = - rsumf (eq a) (all_bonds a)); [|lra].
    rewrite all_expand at 1. rewrite all_expand at 1.
    replace (- rsumf (fun j => rsumf (fun n => if bb a (j, n) then eq a (j, n) else 0) (images scale)) (seq lo cnt))
      with (-1 * rsumf (fun j => rsumf (fun n => if bb a (j, n) then eq a (j, n) else 0) (images scale)) (seq lo cnt)) by ring.
    rewrite <- rsumf_scale. apply rsumf_ext. intros j _. rewrite <- (rsumf_perm _ _ _ (images_neg scale)) at 1. rewrite rsumf_map, <- rsumf_scale.
    apply rsumf_ext. intros n _. unfold eq. simpl. destruct (Nat.eqb_spec j a) as [->|_].
    - rewrite <- bondb_sym. destruct (bb a (a, n)); [|ring]. rewrite (S a a n). ring.
    - destruct (bb a (j, neg n)), (bb a (j, n)); ring. }
  assert (A : rsumf (fun v => weight a v * G a v) (half_bonds a) = rsumf (up a) (all_bonds a)).
  { transitivity (rsumf (up a) (all_bonds a) + 1/2 * rsumf (eq a) (all_bonds a)); [|rewrite E0; ring].
    rewrite half_all by lia. rewrite rsumf_filter, <- rsumf_scale, <- rsumf_plus. apply rsumf_ext. intros v _. unfold up, eq, weight.
    destruct (Nat.leb_spec a (fst v)), (Nat.eqb_spec (fst v) a), (Nat.ltb_spec a (fst v)); try lia; lra. }
  assert (B : rsumf (fun k => rsumf (fun v => if Nat.eqb (fst v) a then weight k v * G k v else 0) (half_bonds k)) (seq lo cnt) =
     - rsumf (dn a) (all_bonds a)).
  { transitivity (rsumf (fun k => rsumf (fun v => if Nat.eqb (fst v) a then up k v + 1/2 * eq k v else 0) (all_bonds k)) (seq lo cnt)).
    - apply rsumf_ext. intros k K. apply in_seq in K. rewrite half_all by lia. rewrite rsumf_filter. apply rsumf_ext. intros v _. unfold up, eq, weight.
      destruct (Nat.leb_spec k (fst v)), (Nat.eqb_spec (fst v) a), (Nat.eqb_spec (fst v) k), (Nat.ltb_spec k (fst v)); try lia; lra.
    - rewrite (reverse a (fun k v => up k v + 1/2 * eq k v)) by auto.
      transitivity (rsumf (fun v => -1 * (dn a v + 1/2 * eq a v)) (all_bonds a)).
      + apply rsumf_ext. intros [j n] _. unfold up, dn, eq. simpl. rewrite (S j a (neg n)), neg_neg. rewrite (Nat.eqb_sym a j).
        destruct (Nat.ltb j a), (Nat.eqb j a); lra.
      + rewrite rsumf_scale, rsumf_plus, rsumf_scale, E0. ring. }
  rewrite A, B.
  transitivity (rsumf (up a) (all_bonds a) + rsumf (dn a) (all_bonds a) + rsumf (eq a) (all_bonds a)); [lra|].
  rewrite <- !rsumf_plus. apply rsumf_ext. intros v _. unfold up, dn, eq.
  destruct (Nat.eqb_spec (fst v) a), (Nat.ltb_spec a (fst v)), (Nat.ltb_spec (fst v) a); try lia; lra.
Qed.

(** C26: pairs in the half lists *)
Theorem pair_once : forall i j n, (lo <= i < lo + cnt)%nat -> (lo <= j < lo + cnt)%nat -> within scale n ->
  bond pos typ b rcut i j n ->
  ((i < j)%nat -> In (j, n) (half_bonds i) /\ ~ In (i, neg n) (half_bonds j)) /\
  ((j < i)%nat -> ~ In (j, n) (half_bonds i) /\ In (i, neg n) (half_bonds j)) /\
  (i = j -> In (i, n) (half_bonds i) /\ In (i, neg n) (half_bonds i)).
Proof.
  intros i j n Hi Hj W B. unfold half_bonds. rewrite !filter_In, !visits_in, !bondb_true.
  pose proof (proj1 (bond_sym i j n) B) as B'. pose proof (within_neg _ _ W).
  split; [|split].
  - intros L. split; [split; [split; [lia|auto]|auto]|]. intros [[K _] _]. lia.
  - intros L. split; [|split; [split; [lia|auto]|auto]]. intros [[K _] _]. lia.
  - intros <-. split; (split; [split; [lia|auto]|auto]).
Qed.
End Half.
