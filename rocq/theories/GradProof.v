(** The textbook force is the negative gradient of the energy. *)
From Coq Require Import Reals ZArith List Bool Lia Lra Permutation.
From Verif Require Import Vec NbrModel NbrProof NbrProof2 NbrProof3 PairModel PairProof PairSpec PairProof2 PairProof3 BondProof EamSpec.
Import ListNotations.
Local Open Scope R_scope.

(** atom [a] moved by [t u] *)
Definition moved (pos : nat -> vec) (a : nat) (u : vec) (t : R) : nat -> vec :=
  fun i => if Nat.eqb i a then vadd (pos i) (vscale t u) else pos i.

Lemma deriv_sum : forall {A} (l : list A) (f : A -> R -> R) (f' : A -> R) t,
  (forall x, In x l -> derivable_pt_lim (f x) t (f' x)) -> derivable_pt_lim (fun s => rsumf (fun x => f x s) l) t (rsumf f' l).
Proof.
  intros A l f f' t. induction l as [|x l IH]; intros H.
  - unfold rsumf; simpl. apply derivable_pt_lim_const.
  - rewrite rsumf_cons. apply (derivable_pt_lim_plus (f x) (fun s => rsumf (fun y => f y s) l)).
    + apply H. left. auto.
    + apply IH. intros y Y. apply H. right. auto.
Qed.
Lemma deriv_eq : forall f t l l', derivable_pt_lim f t l -> l = l' -> derivable_pt_lim f t l'.
Proof. intros; subst; auto. Qed.
Lemma deriv_ext : forall f g t l, (forall s, f s = g s) -> derivable_pt_lim f t l -> derivable_pt_lim g t l.
Proof.
  intros f g t l E H eps He. destruct (H eps He) as (d & Q). exists d. intros h H1 H2. rewrite <- !E. auto.
Qed.

Lemma norm_pos : forall d, d <> v0 -> 0 < sprod d d.
Proof.
  intros d N. assert (0 <= vx d * vx d /\ 0 <= vy d * vy d /\ 0 <= vz d * vz d) as (A & B & C) by (repeat split; apply Rle_0_sqr).
  unfold sprod. destruct (Req_dec (vx d * vx d + vy d * vy d + vz d * vz d) 0) as [E|E]; [|lra].
  exfalso. apply N. apply vec_eq; simpl; apply Rsqr_0_uniq; unfold Rsqr; lra.
Qed.
Lemma norm_deriv : forall d u k, d <> v0 -> derivable_pt_lim (fun t => norm (vadd d (vscale (t * k) u))) 0 (k * sprod u d / norm d).
Proof.
  intros d u k N. pose proof (norm_pos d N) as P.
  assert (Q : derivable_pt_lim (fun t => sprod d d + (2 * k * sprod u d) * t + (k * k * sprod u u) * (t * t)) 0 (2 * k * sprod u d)).
  { apply (deriv_eq _ _ (0 + 2 * k * sprod u d * 1 + (k * k * sprod u u) * (1 * 0 + 0 * 1))); [|ring].
    apply (derivable_pt_lim_plus (fun t => sprod d d + 2 * k * sprod u d * t)).
    - apply (derivable_pt_lim_plus (fun _ => sprod d d)); [apply derivable_pt_lim_const|].
      apply (derivable_pt_lim_scal (fun t => t)). apply derivable_pt_lim_id.
    - apply (derivable_pt_lim_scal (fun t => t * t)). apply (derivable_pt_lim_mult (fun t => t) (fun t => t)); apply derivable_pt_lim_id. }
  apply (deriv_ext (fun t => sqrt (sprod d d + (2 * k * sprod u d) * t + (k * k * sprod u u) * (t * t)))).
  { intros s. unfold norm. f_equal. unfold sprod, vadd, vscale; simpl. ring. }
  apply (deriv_eq _ _ (/ (2 * sqrt (sprod d d + (2 * k * sprod u d) * 0 + (k * k * sprod u u) * (0 * 0))) * (2 * k * sprod u d))).
  - apply (derivable_pt_lim_comp (fun t => sprod d d + (2 * k * sprod u d) * t + (k * k * sprod u u) * (t * t)) sqrt); auto.
    apply derivable_pt_lim_sqrt. lra.
  - replace (sprod d d + 2 * k * sprod u d * 0 + k * k * sprod u u * (0 * 0)) with (sprod d d) by ring. fold (norm d).
    assert (norm d <> 0) by (unfold norm; apply Rgt_not_eq, sqrt_lt_R0; auto). field. auto.
Qed.

Section Grad.
Variables (c : conf) (pos : nat -> vec) (bx : box) (rcut : nat -> nat -> R).
Hypothesis GEO : geometry c pos bx rcut.
Notation lo := (cnfstart c).
Notation hi := (cnfstart c + inconf c)%nat.
Variable L : nat -> list (nat * image).
Hypothesis HL : forall a, (lo <= a < hi)%nat -> all_neighbors c pos bx rcut a (L a).
Variables (a : nat) (u : vec).
Hypothesis Ha : (lo <= a < hi)%nat.
Definition kap (i : nat) (v : nat * image) : R := (if Nat.eqb (fst v) a then 1 else 0) - (if Nat.eqb i a then 1 else 0).

Lemma moved_dvec : forall i v t, dvec (moved pos a u t) bx i v = vadd (dvec pos bx i v) (vscale (t * kap i v) u).
Proof.
  intros i [j [[x y] z]] t. unfold dvec, displacement, moved, kap. cbn [fst snd]. destruct (Nat.eqb j a), (Nat.eqb i a); vring.
Qed.
Lemma moved_0 : forall i v, dvec (moved pos a u 0) bx i v = dvec pos bx i v.
Proof. intros. rewrite moved_dvec. vring. Qed.
Lemma moved_dist0 : forall i v, dist (moved pos a u 0) bx i v = dist pos bx i v.
Proof. intros. unfold dist. rewrite moved_0. auto. Qed.
(** derivative of a distance *)
Definition dr (i : nat) (v : nat * image) : R := sprod u (dvec pos bx i v) / dist pos bx i v.
Lemma dist_deriv : forall i v, (lo <= i < hi)%nat -> In v (L i) ->
  derivable_pt_lim (fun t => dist (moved pos a u t) bx i v) 0 (kap i v * dr i v).
Proof.
  intros i v Hi Hv. apply (deriv_ext (fun t => norm (vadd (dvec pos bx i v) (vscale (t * kap i v) u)))).
  { intros s. unfold dist. rewrite moved_dvec. auto. }
  apply (deriv_eq _ _ (kap i v * sprod u (dvec pos bx i v) / norm (dvec pos bx i v))).
  - apply norm_deriv. apply (no_overlap c pos bx rcut GEO L HL i v Hi Hv).
  - unfold dr, dist. unfold Rdiv. ring.
Qed.
Lemma bond_deriv : forall (f : R -> R) f' i v, (lo <= i < hi)%nat -> In v (L i) -> derivable_pt_lim f (dist pos bx i v) f' ->
  derivable_pt_lim (fun t => f (dist (moved pos a u t) bx i v)) 0 (kap i v * (f' * dr i v)).
Proof.
  intros f f' i v Hi Hv Hf. apply (deriv_eq _ _ (f' * (kap i v * dr i v))); [|ring].
  apply (derivable_pt_lim_comp (fun t => dist (moved pos a u t) bx i v) f).
  - apply dist_deriv; auto.
  - rewrite moved_dist0. auto.
Qed.
Lemma dr_neg : forall i j n, dr j (i, neg n) = - dr i (j, n).
Proof.
  intros i j n. unfold dr. rewrite <- (dist_sym pos bx i j n). unfold dvec. cbn [fst snd]. rewrite (displacement_neg pos bx i j n).
  unfold sprod, vscale, Rdiv; simpl. ring.
Qed.
(** sums with kap reduce to the bonds of the moved atom *)
Lemma kap_sum : forall H : nat -> nat * image -> R,
  rsumf (fun i => rsumf (fun v => kap i v * H i v) (L i)) (seq lo (inconf c)) =
  rsumf (fun v => H (fst v) (a, neg (snd v)) - H a v) (L a).
Proof.
  intros H. destruct (nb_half c pos bx rcut GEO) as (scale & _ & AN).
  pose proof (fun i Hi => all_neighbors_perm c pos bx rcut _ _ _ (AN i Hi) (HL i Hi)) as PM.
  set (ab := all_bonds lo (inconf c) pos (typ c) bx rcut scale) in *.
  transitivity (rsumf (fun i => rsumf (fun v => if Nat.eqb (fst v) a then H i v else 0) (ab i)) (seq lo (inconf c)) -
    rsumf (fun i => if Nat.eqb i a then rsumf (H i) (L i) else 0) (seq lo (inconf c))).
  - unfold Rminus. rewrite <- (Rmult_1_l (rsumf (fun i => if Nat.eqb i a then _ else 0) _)), <- Ropp_mult_distr_l_reverse, <- rsumf_scale, <- rsumf_plus.
    apply rsumf_ext. intros i Hi. apply in_seq in Hi. rewrite (rsumf_perm _ _ _ (PM i ltac:(lia))).
    unfold kap. destruct (Nat.eqb i a).
    + rewrite <- rsumf_scale, <- rsumf_plus. apply rsumf_ext. intros v _. destruct (Nat.eqb (fst v) a); ring.
    + rewrite Rmult_0_r, Rplus_0_r. apply rsumf_ext. intros v _. destruct (Nat.eqb (fst v) a); ring.
  - unfold ab. rewrite (reverse lo (inconf c) pos (typ c) bx rcut scale (geo_sym _ _ _ _ GEO) a H Ha). rewrite pick; [|apply seq_NoDup|apply in_seq; lia].
    fold ab. rewrite (rsumf_perm _ _ _ (PM a Ha)).
    unfold Rminus. rewrite <- (Rmult_1_l (rsumf (H a) (L a))), <- Ropp_mult_distr_l_reverse, <- rsumf_scale, <- rsumf_plus.
    apply rsumf_ext. intros v _. ring.
Qed.

Variables phi dphi : nat -> nat -> R -> R.
Variable in_range : nat -> nat -> R -> bool.
Hypothesis DS : forall s t r, dphi s t r = dphi t s r.
Hypothesis IS : forall s t r, in_range s t r = in_range t s r.
(** the functions, cut off, are differentiable where they are used *)
Hypothesis HP : forall i v, (lo <= i < hi)%nat -> In v (L i) ->
  derivable_pt_lim (fun r => if in_range (typ c i) (typ c (fst v)) r then phi (typ c i) (typ c (fst v)) r else 0) (dist pos bx i v)
    (if in_range (typ c i) (typ c (fst v)) (dist pos bx i v) then dphi (typ c i) (typ c (fst v)) (dist pos bx i v) else 0).
Definition p' (i : nat) (v : nat * image) : R := if in_range (typ c i) (typ c (fst v)) (dist pos bx i v) then dphi (typ c i) (typ c (fst v)) (dist pos bx i v) else 0.

Lemma sprod_vsum : forall {A} (f : A -> vec) l, sprod u (vsum f l) = rsumf (fun x => sprod u (f x)) l.
Proof.
  intros A f l. unfold sprod, vsum; simpl. rewrite <- !rsumf_scale, <- !rsumf_plus. auto.
Qed.
Theorem pair_gradient : derivable_pt_lim (fun t => pair_energy c (moved pos a u t) bx phi in_range L) 0 (- sprod u (pair_force c pos bx dphi in_range L a)).
Proof.
  apply (deriv_eq _ _ (1/2 * rsumf (fun i => rsumf (fun v => kap i v * (p' i v * dr i v)) (L i)) (seq lo (inconf c)))).
  - unfold pair_energy. apply (derivable_pt_lim_scal (fun t => rsumf (fun a0 => rsumf (bond_energy c (moved pos a u t) bx phi in_range a0) (L a0)) (seq lo (inconf c)))).
    apply (deriv_sum _ (fun i t => rsumf (bond_energy c (moved pos a u t) bx phi in_range i) (L i))). intros i Hi. apply in_seq in Hi.
    apply (deriv_sum _ (fun v t => bond_energy c (moved pos a u t) bx phi in_range i v)). intros v Hv.
    apply (bond_deriv (fun r => if in_range (typ c i) (typ c (fst v)) r then phi (typ c i) (typ c (fst v)) r else 0)); auto.
    apply HP; auto.
  - rewrite kap_sum. unfold pair_force. rewrite sprod_vsum, <- rsumf_scale.
    transitivity (rsumf (fun v => -1 * sprod u (bond_force c pos bx dphi in_range a v)) (L a)).
    + apply rsumf_ext. intros [j n] _. cbn [fst snd]. rewrite dr_neg.
      assert (Q : p' j (a, neg n) = p' a (j, n)).
      { unfold p'. cbn [fst]. rewrite <- (dist_sym pos bx a j n), (IS (typ c j)), (DS (typ c j)). auto. }
      rewrite Q. unfold p', bond_force, active, dr. cbn [fst snd]. unfold Rdiv at 2 3 4. set (w := / dist pos bx a (j, n)). clearbody w. destruct (in_range _ _ _); unfold sprod, vscale; simpl; field.
    + rewrite rsumf_scale. ring.
Qed.

Variable nbd : nat.
Variables dens ddens : nat -> nat -> R -> R.
Variable reach : nat -> nat -> R -> bool.
Variables E dE : nat -> nat -> R -> R.
Hypothesis HD : forall k i v, (k < nbd)%nat -> (lo <= i < hi)%nat -> In v (L i) ->
  derivable_pt_lim (fun r => if reach k (typ c (fst v)) r then dens k (typ c (fst v)) r else 0) (dist pos bx i v)
    (dtrans ddens reach k (typ c (fst v)) (dist pos bx i v)).
Hypothesis HE : forall k i, (k < nbd)%nat -> (lo <= i < hi)%nat ->
  derivable_pt_lim (E k (typ c i)) (density c pos bx dens reach L k i) (slope c pos bx dens reach dE L k i).
Notation slp := (slope c pos bx dens reach dE L).

Theorem embed_gradient : derivable_pt_lim (fun t => embed_energy c (moved pos a u t) bx nbd dens reach E L) 0 (- sprod u (embed_force c pos bx nbd dens ddens reach dE L a)).
Proof.
  set (H := fun i v => rsumf (fun k => slp k i * (dtrans ddens reach k (typ c (fst v)) (dist pos bx i v) * dr i v)) (seq 0 nbd)).
  apply (deriv_eq _ _ (rsumf (fun i => rsumf (fun v => kap i v * H i v) (L i)) (seq lo (inconf c)))).
  - unfold embed_energy. apply (deriv_sum _ (fun i t => rsumf (fun k => E k (typ c i) (density c (moved pos a u t) bx dens reach L k i)) (seq 0 nbd))).
    intros i Hi. apply in_seq in Hi.
    apply (deriv_eq _ _ (rsumf (fun k => slp k i * rsumf (fun v => kap i v * (dtrans ddens reach k (typ c (fst v)) (dist pos bx i v) * dr i v)) (L i)) (seq 0 nbd))).
    + apply (deriv_sum _ (fun k t => E k (typ c i) (density c (moved pos a u t) bx dens reach L k i))). intros k Hk. apply in_seq in Hk.
      apply (derivable_pt_lim_comp (fun t => density c (moved pos a u t) bx dens reach L k i) (E k (typ c i))).
      * unfold density. apply (deriv_sum _ (fun v t => (if reach k (typ c (fst v)) (dist (moved pos a u t) bx i v) then dens k (typ c (fst v)) (dist (moved pos a u t) bx i v) else 0))).
        intros v Hv. apply (bond_deriv (fun r => if reach k (typ c (fst v)) r then dens k (typ c (fst v)) r else 0)); auto. apply HD; auto; lia.
      * replace (density c (moved pos a u 0) bx dens reach L k i) with (density c pos bx dens reach L k i); [apply HE; lia|].
        unfold density. apply rsumf_ext. intros v _. rewrite moved_dist0. auto.
    + unfold H. transitivity (rsumf (fun k => rsumf (fun v => slp k i * (kap i v * (dtrans ddens reach k (typ c (fst v)) (dist pos bx i v) * dr i v))) (L i)) (seq 0 nbd)).
      * apply rsumf_ext. intros k _. rewrite rsumf_scale. auto.
      * rewrite (rsumf_swap (fun k v => slp k i * (kap i v * (dtrans ddens reach k (typ c (fst v)) (dist pos bx i v) * dr i v)))). apply rsumf_ext. intros v _. rewrite <- rsumf_scale. apply rsumf_ext. intros k _. ring.
  - rewrite kap_sum. unfold embed_force. rewrite sprod_vsum.
    transitivity (rsumf (fun v => -1 * sprod u (embed_bond c pos bx nbd dens ddens reach dE L a v)) (L a)).
    + apply rsumf_ext. intros [j n] _. unfold H, embed_bond. cbn [fst snd]. rewrite <- (dist_sym pos bx a j n).
      transitivity (rsumf (fun k => -1 * (sprod u (dvec pos bx a (j, n)) / dist pos bx a (j, n)) * 
        (dtrans ddens reach k (typ c j) (dist pos bx a (j, n)) * slp k a + dtrans ddens reach k (typ c a) (dist pos bx a (j, n)) * slp k j)) (seq 0 nbd)).
      * unfold Rminus. rewrite <- (Rmult_1_l (rsumf (fun k => slp k a * _) _)), <- Ropp_mult_distr_l_reverse, <- rsumf_scale, <- rsumf_plus. apply rsumf_ext. intros k _. rewrite dr_neg. unfold dr. ring.
      * rewrite rsumf_scale. unfold sprod, vscale, Rdiv; simpl. ring.
    + rewrite rsumf_scale. ring.
Qed.
Theorem eam_gradient : derivable_pt_lim (fun t => pair_energy c (moved pos a u t) bx phi in_range L + embed_energy c (moved pos a u t) bx nbd dens reach E L) 0
  (- sprod u (vadd (pair_force c pos bx dphi in_range L a) (embed_force c pos bx nbd dens ddens reach dE L a))).
Proof.
  apply (deriv_eq _ _ (- sprod u (pair_force c pos bx dphi in_range L a) + - sprod u (embed_force c pos bx nbd dens ddens reach dE L a))).
  - apply (derivable_pt_lim_plus (fun t => pair_energy c (moved pos a u t) bx phi in_range L)); [apply pair_gradient|apply embed_gradient].
  - unfold sprod, vadd; simpl. ring.
Qed.
End Grad.
