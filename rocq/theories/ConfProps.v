(** C54, C55, C69: contributing atoms, pair histogram, start of the analytic tables. *)
From Coq Require Import Reals ZArith List Lra.
From Verif Require Import Vec PairIndexModel ConfModel ConfProof.
Import ListNotations.
Local Open Scope R_scope.

(** C54.  What is tested: the projections on the box vectors are in (-1, 2), or the atom is in a
    sphere. *)
Theorem C54_exact_test : forall c p, (have_box c = true -> cbox_a c <> v0 /\ cbox_b c <> v0 /\ cbox_c c <> v0) ->
  exists b, does_contribute p c = Some b /\ (b = true <-> projections c p \/ in_spheres c p).
Proof. exact contribute_exact. Qed.
Print Assumptions C54_exact_test.
(** No atom of an orthogonal box or a sphere is lost. *)
Theorem C54_inside_partial : forall c p, orthogonal c -> in_box c p \/ in_spheres c p -> does_contribute p c = Some true.
Proof. exact box_contributes. Qed.
Print Assumptions C54_inside_partial.
Example C54_ex : orthogonal unit_box /\ in_box unit_box (V3 (1/2) (1/2) (1/2)).
Proof. exact (conj unit_box_orthogonal unit_box_ex). Qed.
(** An atom outside is accepted; with a skew box an atom inside is not. *)
Theorem C54_outside_refuted : exists c p, orthogonal c /\ does_contribute p c = Some true /\ ~ in_box c p /\ ~ in_spheres c p.
Proof. exact box_refuted. Qed.
Print Assumptions C54_outside_refuted.
Theorem C54_skew_refuted : exists c p, cbox_a c <> v0 /\ cbox_b c <> v0 /\ cbox_c c <> v0 /\
  in_box c p /\ does_contribute p c = Some false.
Proof. exact skew_refuted. Qed.
Print Assumptions C54_skew_refuted.

(** C55.  Distances below the cutoff: entry p of column k holds the number of neighbours of that
    column whose bin is p; the bin is the interval of the distance. *)
Theorem C55_counts : forall paircol steps rcut, (0 < steps)%Z -> forall nbs,
  (forall nb, In nb nbs -> inside paircol rcut nb) ->
  exists t, histogram paircol steps rcut nbs = Some t /\
  forall k p, (0 <= k < paircol)%Z -> (0 <= p < steps)%Z -> t (k * steps + p)%Z = count steps rcut k p nbs.
Proof. exact histogram_counts. Qed.
Print Assumptions C55_counts.
Theorem C55_bins : forall steps rcut, (0 < steps)%Z -> forall k p nb, 0 < rcut k -> 0 <= snd nb ->
  (bin_of steps rcut k p nb = true <->
   fst nb = k /\ IZR p * (rcut k / IZR steps) <= snd nb < (IZR p + 1) * (rcut k / IZR steps)).
Proof. exact bin_interval. Qed.
Print Assumptions C55_bins.
Example C55_ex : (0 < 500)%Z /\ forall nb, In nb [(0%Z, 1/2); (1%Z, 3/4)] -> inside 2 (fun _ => 1) nb.
Proof. exact (conj eq_refl histogram_ex). Qed.
(** A neighbour exactly at the cutoff: in the last column written behind the block, in the
    others counted for the next column. *)
Theorem C55_cutoff_refuted : histogram 1 500 (fun _ => 1) [(0%Z, 1)] = None.
Proof. exact cutoff_distance_refuted. Qed.
Print Assumptions C55_cutoff_refuted.
Theorem C55_column_refuted : exists t, histogram 2 500 (fun _ => 1) [(0%Z, 1)] = Some t /\
  t 500%Z = 1%Z /\ forall p, (0 <= p < 500)%Z -> t p = 0%Z.
Proof. exact cutoff_other_column. Qed.
Print Assumptions C55_column_refuted.

(** C69. *)
Theorem C69_table_starts : forall DBL_MAX n nbs old oldmin, proper DBL_MAX n nbs ->
  match start_tables DBL_MAX n (mindists DBL_MAX nbs) old oldmin with
  | Some s =>
      (forall i j, (0 <= i < n)%Z -> (0 <= j < n)%Z -> exists r, In (pair_index n i j, r) nbs /\
         (forall r', In (pair_index n i j, r') nbs -> r <= r') /\
         s_begin s (pair_index n i j) = r * (95 / 100) /\ s_rmin s (i, j) = r) /\
      (forall c r, In (c, r) nbs -> s_begin s c < r) /\
      (forall t c r, (0 <= t < n)%Z -> In (c, r) nbs -> start_transfer n s (paircol n + t) < r)
  | None => exists i j, (0 <= i < n)%Z /\ (0 <= j < n)%Z /\ forall r, ~ In (pair_index n i j, r) nbs
  end.
Proof. exact table_starts. Qed.
Print Assumptions C69_table_starts.
Example C69_ex : proper 1000 1 [(0%Z, 2); (0%Z, 3)].
Proof. exact proper_ex. Qed.
