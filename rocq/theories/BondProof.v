(** Sums over the half neighbour lists as sums over all neighbours, for any bond quantity. *)
From Coq Require Import Reals ZArith List Bool Lia Lra Permutation.
From Verif Require Import Vec NbrModel NbrProof NbrProof2 LoopUtil PairModel PairProof PairSpec PairProof2.
Import ListNotations.
Local Open Scope R_scope.

Section Half.
Variables (lo cnt : nat) (pos : nat -> vec) (typ : nat -> nat) (b : box).
Variables (rcut : nat -> nat -> R) (scale : image).
Hypothesis RS : forall s t, rcut s t = rcut t s.
Notation hb := (half_bonds lo cnt pos typ b rcut scale).
Notation ab := (all_bonds lo cnt pos typ b rcut scale).
(** [G k v] goes to atom k, [H k v] to the neighbour unless it is an image of k *)
Theorem half_density : forall (G H : nat -> nat * image -> R) a,
  (forall i j n, G i (j, n) = H j (i, neg n)) -> (lo <= a < lo + cnt)%nat ->
  rsumf (G a) (hb a) +
  rsumf (fun k => rsumf (fun v => if Nat.eqb (fst v) a then (if Nat.eqb (fst v) k then 0 else H k v) else 0) (hb k)) (seq lo cnt) =
  rsumf (G a) (ab a).
Proof.
  intros G H a S Ha.
  assert (A : rsumf (G a) (hb a) = rsumf (fun v => if Nat.leb a (fst v) then G a v else 0) (ab a)).
  { rewrite half_all by lia. rewrite rsumf_filter. auto. }
  assert (B : rsumf (fun k => rsumf (fun v => if Nat.eqb (fst v) a then (if Nat.eqb (fst v) k then 0 else H k v) else 0) (hb k)) (seq lo cnt) =
    rsumf (fun v => if Nat.ltb (fst v) a then G a v else 0) (ab a)).
  { transitivity (rsumf (fun k => rsumf (fun v => if Nat.eqb (fst v) a then (if Nat.ltb k (fst v) then H k v else 0) else 0) (ab k)) (seq lo cnt)).
    - apply rsumf_ext. intros k K. apply in_seq in K. rewrite half_all by lia. rewrite rsumf_filter. apply rsumf_ext. intros v _.
      destruct (Nat.leb_spec k (fst v)), (Nat.eqb_spec (fst v) a), (Nat.eqb_spec (fst v) k), (Nat.ltb_spec k (fst v)); try lia; auto.
    - rewrite (reverse lo cnt pos typ b rcut scale RS a (fun k v => if Nat.ltb k (fst v) then H k v else 0)) by auto.
      apply rsumf_ext. intros [j n] _. cbn [fst snd]. destruct (Nat.ltb j a); auto. }
  rewrite A, B, <- rsumf_plus. apply rsumf_ext. intros v _. destruct (Nat.leb_spec a (fst v)), (Nat.ltb_spec (fst v) a); try lia; ring.
Qed.
End Half.

Section Geo.
Variables (c : conf) (pos : nat -> vec) (b : box) (rcut : nat -> nat -> R).
Hypothesis GEO : geometry c pos b rcut.
Notation lo := (cnfstart c).
Notation hi := (cnfstart c + inconf c)%nat.
Notation ent i v := (entry pos (typ c) b i (fst v) (snd v)).
Variable L : nat -> list (nat * image).
Hypothesis HL : forall a, (lo <= a < hi)%nat -> all_neighbors c pos b rcut a (L a).

(** entries of the lists are entries of bonds *)
Lemma nb_entry : forall i e, (lo <= i < hi)%nat -> In e (nb c i) -> exists v, (i <= fst v < hi)%nat /\ In v (L i) /\ e = ent i v /\
  dvec pos b i v <> v0.
Proof.
  intros i e Hi He. destruct (geo_box _ _ _ _ GEO) as (t & rm & sc & MB & R0 & IB & RM & NBI).
  pose proof (init_neighbors_spec lo (inconf c) pos (typ c) b rcut sc false i) as H. cbv zeta in H. rewrite (NBI i Hi) in H. destruct H as [H NO].
  rewrite H in He. apply in_map_iff in He. destruct He as ([j n] & E & V). exists (j, n). apply filter_In in V. destruct V as [V B]. apply visits_in in V.
  simpl j_start in V, NO. apply bondb_true in B. split; [simpl; tauto|]. split; [|split; [auto|]].
  - apply (HL i Hi). split; [lia|auto].
  - intros D. apply (NO j n); [tauto|tauto|]. split; [apply B|auto].
Qed.

Lemma no_overlap : forall a v, (lo <= a < hi)%nat -> In v (L a) -> dvec pos b a v <> v0.
Proof.
  assert (W : forall i j n, (lo <= i < hi)%nat -> (i <= j < hi)%nat -> bond pos (typ c) b rcut i j n -> displacement pos b i j n <> v0).
  { intros i j n Hi Hj B D. destruct (geo_box _ _ _ _ GEO) as (t & rm & sc & MB & R0 & IB & RM & NBI).
    pose proof (init_neighbors_spec lo (inconf c) pos (typ c) b rcut sc false i) as H. cbv zeta in H. rewrite (NBI i Hi) in H. destruct H as [H NO].
    apply (NO j n); auto; [|split; [apply B|auto]].
    apply (scale_suffices pos b sc t (conf_vol c) rm i j n); auto; [apply (geo_cell _ _ _ _ GEO); auto|apply (geo_cell _ _ _ _ GEO); lia|].
    destruct B as [_ B]. eapply Rle_trans; [exact B|apply RM]. }
  intros a [j n] Ha V. apply (HL a Ha) in V. destruct V as [Hj B]. unfold dvec; cbn [fst snd]. destruct (Nat.le_gt_cases a j) as [LE|GT].
  - apply W; auto. lia.
  - apply (bond_sym pos (typ c) b rcut (geo_sym _ _ _ _ GEO)) in B. intros D. apply (W j a (neg n)); auto; [lia|].
    rewrite displacement_neg, D. vring.
Qed.

Theorem gen_density : forall (A B : nat -> neigh -> R) (G : nat -> nat * image -> R),
  (forall i v, A i (ent i v) = G i v) ->
  (forall i j n, fst (j, n) <> i -> B i (ent i (j, n)) = G j (i, neg n)) ->
  (forall i e, n_nr e = i -> B i e = 0) ->
  forall a, (lo <= a < hi)%nat ->
  rsumf (A a) (nb c a) + rsumf (fun k => rsumf (fun e => if Nat.eqb (n_nr e) a then B k e else 0) (nb c k)) (seq lo (inconf c)) =
  rsumf (G a) (L a).
Proof.
  intros A B G HA HB HB0 a Ha. destruct (nb_half c pos b rcut GEO) as (scale & NB & AN).
  rewrite <- (rsumf_perm _ _ _ (all_neighbors_perm c pos b rcut a _ _ (AN a Ha) (HL a Ha))).
  rewrite <- (half_density lo (inconf c) pos (typ c) b rcut scale (geo_sym _ _ _ _ GEO) G (fun k v => G (fst v) (k, neg (snd v))) a); auto.
  - f_equal.
    + rewrite NB by auto. rewrite rsumf_map. apply rsumf_ext. intros v _. apply HA.
    + apply rsumf_ext. intros k K. apply in_seq in K. rewrite NB by lia. rewrite rsumf_map. apply rsumf_ext. intros [j n] _. cbn [fst snd].
      change (n_nr (entry pos (typ c) b k j n)) with j. destruct (Nat.eqb_spec j a); auto. destruct (Nat.eqb_spec j k) as [E|N].
      * apply HB0. rewrite E. reflexivity.
      * apply (HB k j n). auto.
  - intros i j n. cbn [fst snd]. rewrite neg_neg. auto.
Qed.

Theorem gen_energy : forall (P : nat -> neigh -> R) (G : nat -> nat * image -> R),
  (forall i v, P i (ent i v) = weight i v * G i v) -> (forall i j n, G i (j, n) = G j (i, neg n)) ->
  rsumf (fun i => rsumf (P i) (nb c i)) (seq lo (inconf c)) = 1/2 * rsumf (fun a => rsumf (G a) (L a)) (seq lo (inconf c)).
Proof.
  intros P G HP S. destruct (nb_half c pos b rcut GEO) as (scale & NB & AN).
  transitivity (rsumf (fun i => rsumf (fun v => weight i v * G i v) (half_bonds lo (inconf c) pos (typ c) b rcut scale i)) (seq lo (inconf c))).
  - apply rsumf_ext. intros i Hi. apply in_seq in Hi. rewrite NB by lia. rewrite rsumf_map. apply rsumf_ext. intros v _. apply HP.
  - rewrite (half_energy lo (inconf c) pos (typ c) b rcut scale (geo_sym _ _ _ _ GEO) G S). f_equal.
    apply rsumf_ext. intros a Ha. apply in_seq in Ha. apply rsumf_perm. apply (all_neighbors_perm c pos b rcut a); [apply AN; lia|apply HL; lia].
Qed.

Section Force.
Variables (T : nat -> neigh -> vec) (G : nat -> nat * image -> vec).
Hypothesis HT : forall i v, T i (ent i v) = vscale (weight i v) (G i v).
Hypothesis HG : forall i j n, G i (j, n) = vscale (-1) (G j (i, neg n)).

Theorem gen_force : forall a, (lo <= a < hi)%nat ->
  vsub (vsumf (T a) (nb c a)) (vsumf (fun k => vsumf (fun e => if Nat.eqb (n_nr e) a then T k e else v0) (nb c k)) (seq lo (inconf c))) =
  vsum (G a) (L a).
Proof.
  intros a Ha. destruct (nb_half c pos b rcut GEO) as (scale & NB & AN).
  pose proof (all_neighbors_perm c pos b rcut _ _ _ (AN a Ha) (HL a Ha)) as PM.
  assert (Q : forall (pr : vec -> R), (forall w v, pr (vscale w v) = w * pr v) -> pr v0 = 0 ->
    rsumf (fun e => pr (T a e)) (nb c a) -
    rsumf (fun k => rsumf (fun e => pr (if Nat.eqb (n_nr e) a then T k e else v0)) (nb c k)) (seq lo (inconf c)) =
    rsumf (fun v => pr (G a v)) (L a)).
  { intros pr LIN Z. rewrite <- (rsumf_perm _ _ _ PM). pose proof (half_force lo (inconf c) pos (typ c) b rcut scale (geo_sym _ _ _ _ GEO)
      (fun i v => pr (G i v)) a) as HF. rewrite <- HF; auto.
    - f_equal.
      + rewrite NB by auto. rewrite rsumf_map. apply rsumf_ext. intros v _. rewrite HT, LIN. auto.
      + apply rsumf_ext. intros k K. apply in_seq in K. rewrite NB by lia. rewrite rsumf_map. apply rsumf_ext. intros v _.
        change (n_nr (entry pos (typ c) b k (fst v) (snd v))) with (fst v). rewrite HT. destruct (Nat.eqb (fst v) a); auto.
    - intros i j n. rewrite HG, LIN. ring. }
  apply vec_eq; simpl; apply Q; auto.
Qed.

Theorem gen_newton : vsum (fun a => vsum (G a) (L a)) (seq lo (inconf c)) = v0.
Proof.
  destruct (nb_half c pos b rcut GEO) as (scale & NB & AN).
  assert (Q : forall (pr : vec -> R), (forall w v, pr (vscale w v) = w * pr v) ->
    rsumf (fun a => rsumf (fun v => pr (G a v)) (L a)) (seq lo (inconf c)) = 0).
  { intros pr LIN.
    assert (E : rsumf (fun a => rsumf (fun v => pr (G a v)) (L a)) (seq lo (inconf c)) =
      rsumf (fun a => rsumf (fun v => pr (G a v)) (all_bonds lo (inconf c) pos (typ c) b rcut scale a)) (seq lo (inconf c))).
    { apply rsumf_ext. intros a Ha. apply in_seq in Ha. apply rsumf_perm. apply (all_neighbors_perm c pos b rcut a); [apply HL; lia|apply AN; lia]. }
    rewrite E.
    assert (W := reverse_total lo (inconf c) pos (typ c) b rcut scale (geo_sym _ _ _ _ GEO) (fun a v => pr (G a v))).
    assert (W2 : rsumf (fun a => rsumf (fun v => pr (G (fst v) (a, neg (snd v)))) (all_bonds lo (inconf c) pos (typ c) b rcut scale a)) (seq lo (inconf c)) =
      -1 * rsumf (fun a => rsumf (fun v => pr (G a v)) (all_bonds lo (inconf c) pos (typ c) b rcut scale a)) (seq lo (inconf c))).
    { rewrite <- rsumf_scale. apply rsumf_ext. intros a _. rewrite <- rsumf_scale. apply rsumf_ext. intros [j n] _. cbn [fst snd].
      rewrite (HG a j n), LIN. ring. }
    cbv beta in W. rewrite W2 in W. lra. }
  apply vec_eq; simpl; apply Q; auto.
Qed.

Theorem gen_virial : forall k,
  rsumf (fun i => rsumf (fun e => stress_of (n_dist e) (T i e) k) (nb c i)) (seq lo (inconf c)) =
  1/2 * rsumf (fun a => rsumf (fun v => stress_of (dvec pos b a v) (G a v) k) (L a)) (seq lo (inconf c)).
Proof.
  intros k. 
  transitivity (rsumf (fun i => rsumf (fun e => stress_of (vscale (n_r e) (n_dist_r e)) (T i e) k) (nb c i)) (seq lo (inconf c))).
  - apply rsumf_ext. intros i Hi. apply in_seq in Hi. apply rsumf_ext. intros e He. destruct (nb_entry i e ltac:(lia) He) as (v & _ & _ & -> & _).
    f_equal. unfold entry; simpl. vring.
  - rewrite (gen_energy (fun i e => stress_of (vscale (n_r e) (n_dist_r e)) (T i e) k) (fun i v => stress_of (vscale (dist pos b i v) (unscale (dvec pos b i v) (dist pos b i v))) (G i v) k)).
    + f_equal. apply rsumf_ext. intros a Ha. apply in_seq in Ha. apply rsumf_ext. intros v V. f_equal. unfold dist, unscale.
      pose proof (no_overlap a v ltac:(lia) V) as ND. assert (norm (dvec pos b a v) <> 0) by (intros Z; apply norm_0 in Z; auto).
      apply vec_eq; simpl; field; auto.
    + intros i [j n]. rewrite HT, stress_scale. f_equal. unfold entry, dist, dvec; simpl. rewrite shift_displacement. auto.
    + intros i j n. rewrite HG, stress_scale. rewrite (dist_sym pos b j i (neg n)), neg_neg. unfold dvec; cbn [fst snd]. rewrite (displacement_neg pos b i j n).
      unfold stress_of, unscale. destruct k as [|[|[|[|[|]]]]]; simpl; unfold Rdiv; ring.
Qed.
End Force.
End Geo.
