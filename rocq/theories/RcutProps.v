(** C81: cutoff radii of the neighbour lists. *)
From Coq Require Import List Arith Reals Lra.
From Verif Require Import RcutModel RcutProof.
Import ListNotations.

(** C81.  The cutoff of two types is the largest upper end of the functions taken into account
    (and the Coulomb cutoff); it does not depend on what the memory held before. *)
Theorem C81_cutoff_partial : forall b n (end_ : nat -> R) dp a i j, i < n -> j < n ->
  let v := rcut b n end_ dp a (i * n + j) in
  (forall k, In k (considered b n i j) -> (end_ k <= v)%R) /\ (forall c, dp = Some c -> (c <= v)%R) /\
  (dp = Some v \/ exists k, In k (considered b n i j) /\ v = end_ k).
Proof. exact rcut_at. Qed.
Print Assumptions C81_cutoff_partial.
(** It is symmetric (hypothesis of C26_each_pair_once) and at most the largest cutoff, which
    is not negative (hypotheses of C25_complete_and_sound). *)
Theorem C81_symmetric : forall b n (end_ : nat -> R) dp a i j, i < n -> j < n ->
  rcut b n end_ dp a (i * n + j) = rcut b n end_ dp a (j * n + i).
Proof. exact rcut_sym. Qed.
Print Assumptions C81_symmetric.
Theorem C81_largest : forall n (rc : nat -> R) i j, i < n -> j < n ->
  (rc (i * n + j)%nat <= rcutmax n rc)%R /\ (0 <= rcutmax n rc)%R.
Proof. exact (fun n rc i j A B => conj (rcutmax_above n rc i j A B) (rcutmax_nonneg n rc)). Qed.
Print Assumptions C81_largest.
(** The smallest and largest cutoffs are cutoffs of two types. *)
Theorem C81_extremes : forall n (rc : nat -> R), 0 < n ->
  (forall i j, i < n -> j < n -> (0 <= rc (i * n + j)%nat <= 9999 / 10)%R) ->
  (exists i j, i < n /\ j < n /\ rcutmax n rc = rc (i * n + j)) /\
  (exists i j, i < n /\ j < n /\ rcutmin n rc = rc (i * n + j)) /\
  forall i j, i < n -> j < n -> (rcutmin n rc <= rc (i * n + j)%nat)%R.
Proof.
  exact (fun n rc N B => conj (rcutmax_attained n rc N (fun i j A C => proj1 (B i j A C)))
    (conj (proj2 (rcutmin_spec n rc) N (fun i j A C => proj2 (B i j A C))) (proj1 (rcutmin_spec n rc)))).
Qed.
Print Assumptions C81_extremes.
Example C81_extremes_example : let rc := fun k : nat => if k =? 0 then 3%R else 5%R in
  forall i j, i < 2 -> j < 2 -> (0 <= rc (i * 2 + j)%nat <= 9999 / 10)%R.
Proof. intros rc i j _ _. unfold rc. destruct (i * 2 + j =? 0); lra. Qed.
(** Pair and EAM potentials: every function looked up for a neighbour ends within the cutoff,
    and a neighbour closer than the start of any of them is reported. *)
Theorem C81_all_functions : forall b n (end_ : nat -> R) dp a t1 t2 k, b = Pairs \/ b = Eam -> t1 < n -> t2 < n ->
  In k (slots b n t1 t2) -> (end_ k <= rcut b n end_ dp a (t1 * n + t2)%nat)%R.
Proof. exact all_covered. Qed.
Print Assumptions C81_all_functions.
Example C81_ex : In 4 (slots Eam 2 0 1) /\ In 1 (slots Eam 2 1 0) /\ considered Eam 2 1 0 = [1; 4; 3].
Proof. repeat split; simpl; auto. Qed.
Theorem C81_all_starts : forall b n (beg : nat -> R) a t1 t2 k, b = Pairs \/ b = Eam -> t1 < n -> t2 < n ->
  In k (slots b n t1 t2) -> (beg k <= rmin b n beg a (t1 * n + t2)%nat)%R.
Proof. exact all_warned. Qed.
Print Assumptions C81_all_starts.
(** All the others: the second band's density (TBEAM), dipole and quadrupole functions (ADP),
    the angular f (MEAM, ANG) and the exponential (STIWEB) are not considered. *)
Theorem C81_refuted : forall b n t1 t2, b <> Pairs -> b <> Eam -> t1 < n -> t2 < n ->
  exists (end_ : nat -> R) k, In k (slots b n t1 t2) /\
    forall a, (rcut b n end_ None a (t1 * n + t2)%nat < end_ k)%R.
Proof. exact uncovered. Qed.
Print Assumptions C81_refuted.
Theorem C81_starts_refuted : forall b n t1 t2, b <> Pairs -> b <> Eam -> t1 < n -> t2 < n ->
  exists (beg : nat -> R) k, In k (slots b n t1 t2) /\
    forall a, (rmin b n beg a (t1 * n + t2)%nat < beg k)%R.
Proof. exact unwarned. Qed.
Print Assumptions C81_starts_refuted.
(** What a user has to see to: none of these ends beyond the pair function. *)
Theorem C81_sufficient : forall b n (end_ : nat -> R) dp a t1 t2, t1 < n -> t2 < n ->
  (forall k, In k (slots b n t1 t2) -> ~ In k (considered b n t1 t2) -> (end_ k <= end_ (col0 n t1 t2))%R) ->
  forall k, In k (slots b n t1 t2) -> (end_ k <= rcut b n end_ dp a (t1 * n + t2)%nat)%R.
Proof. exact enough. Qed.
Print Assumptions C81_sufficient.
