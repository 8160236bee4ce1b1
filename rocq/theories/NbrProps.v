(** C25, C26, C63: periodic box and neighbour lists. *)
From Coq Require Import Reals ZArith List.
From Verif Require Import Vec NbrModel NbrProof NbrProof2 NbrProof3.
Local Open Scope R_scope.

(** C63.  The reciprocal vectors are dual to the box vectors; fractional coordinates
    reconstruct every position; degenerate boxes are refused. *)
Theorem C63_dual : forall b t v, make_box b = Some (t, v) ->
  sprod (bx b) (bx t) = 1 /\ sprod (bx b) (by_ t) = 0 /\ sprod (bx b) (bz t) = 0 /\
  sprod (by_ b) (bx t) = 0 /\ sprod (by_ b) (by_ t) = 1 /\ sprod (by_ b) (bz t) = 0 /\
  sprod (bz b) (bx t) = 0 /\ sprod (bz b) (by_ t) = 0 /\ sprod (bz b) (bz t) = 1.
Proof. exact make_box_dual. Qed.
Print Assumptions C63_dual.
Theorem C63_reconstruct : forall b t v p, make_box b = Some (t, v) -> comb b (frac t p) = p.
Proof. exact comb_frac. Qed.
Print Assumptions C63_reconstruct.
Theorem C63_volume : forall b, (det b = 0 -> make_box b = None) /\
  (det b <> 0 -> exists t, make_box b = Some (t, det b)).
Proof. exact make_box_spec. Qed.
Print Assumptions C63_volume.
(** The volume is the signed one: it is negative for a left-handed box. *)
Theorem C63_volume_positive_refuted : exists b t v, make_box b = Some (t, v) /\ v < 0.
Proof. destruct left_handed_volume as (t & H). exists left_handed, t, (-1). split; [exact H|Lra.lra]. Qed.
Print Assumptions C63_volume_positive_refuted.
Example C63_ex : make_box cube = Some (cube, 1).
Proof. exact cube_box. Qed.

(** C25.  All atoms in the unit cell, cutoffs at most rcutmax: the list of atom i holds
    exactly the atoms and images closer than the cutoff, each once, with their distances. *)
Theorem C25_complete_and_sound :
  forall natoms atom_count pos typ b rcut scale full t v rcutmax i l,
  make_box b = Some (t, v) -> 0 <= rcutmax -> init_box_vectors t rcutmax = Some scale ->
  (forall k, (natoms <= k < natoms + atom_count)%nat -> in_cell b (pos k)) ->
  (forall k m, rcut k m <= rcutmax) ->
  (natoms <= i < natoms + atom_count)%nat ->
  init_neighbors natoms atom_count pos typ b rcut scale full i = Neighbors l ->
  (forall e, In e l -> exists j n, (j_start natoms full i <= j < natoms + atom_count)%nat /\
     bond pos typ b rcut i j n /\
     n_nr e = j /\ n_image e = n /\ n_type e = typ j /\
     n_dist e = displacement pos b i j n /\ n_r e = norm (displacement pos b i j n) /\
     n_r2 e = n_r e * n_r e /\ n_inv_r e = 1 / n_r e /\
     0 < n_r e /\ vscale (n_r e) (n_dist_r e) = n_dist e) /\
  (forall j n, (j_start natoms full i <= j < natoms + atom_count)%nat -> bond pos typ b rcut i j n ->
     exists e, In e l /\ n_nr e = j /\ n_image e = n) /\
  NoDup (map (fun e => (n_nr e, n_image e)) l).
Proof. exact complete_and_sound. Qed.
Print Assumptions C25_complete_and_sound.
Example C25_ex : make_box cube = Some (cube, 1) /\ init_box_vectors cube 1 = Some (1, 1, 1)%Z /\
  forall full, exists l,
  init_neighbors 0 1 origin (fun _ => 0%nat) cube (fun _ _ => 1) (1, 1, 1)%Z full 0 = Neighbors l /\
  in_cell cube (origin 0%nat) /\ exists e, In e l /\ n_image e = (1, 0, 0)%Z.
Proof. split; [exact cube_box|]. split; [exact cube_scale|exact one_atom]. Qed.
(** For an atom outside the cell, neighbours are missed; nothing in the code checks this. *)
Theorem C25_outside_refuted : exists l,
  make_box cube = Some (cube, 1) /\ init_box_vectors cube 1 = Some (1, 1, 1)%Z /\
  init_neighbors 0 2 outside (fun _ => 0%nat) cube (fun _ _ => 1) (1, 1, 1)%Z false 0 = Neighbors l /\
  bond outside (fun _ => 0%nat) cube (fun _ _ => 1) 0 1 (-5, 0, 0)%Z /\
  forall e, In e l -> n_nr e <> 1%nat.
Proof. exact outside_missed. Qed.
Print Assumptions C25_outside_refuted.

(** C26.  The two passes agree for every configuration: no write behind the array, no
    count mismatch; the only other outcome is the error for overlapping atoms. *)
Theorem C26_passes_agree : forall natoms atom_count pos typ b rcut scale full i,
  let lo := j_start natoms full i in
  match init_neighbors natoms atom_count pos typ b rcut scale full i with
  | Neighbors l =>
      l = map (fun v => entry pos typ b i (fst v) (snd v))
            (filter (bondb pos typ b rcut i) (visits lo (natoms + atom_count) scale)) /\
      forall j n, (lo <= j < natoms + atom_count)%nat -> within scale n -> ~ overlap pos b i j n
  | Overlap => exists j n, (lo <= j < natoms + atom_count)%nat /\ within scale n /\ overlap pos b i j n
  | Out_of_bounds | Count_mismatch => False
  end.
Proof. exact init_neighbors_spec. Qed.
Print Assumptions C26_passes_agree.
(** In the half lists a bond of two different atoms is held by the list of the first of
    them only; a bond of an atom with its own image occurs twice, as n and as -n. *)
Theorem C26_each_pair_once : forall lo cnt pos typ b rcut scale,
  (forall s t, rcut s t = rcut t s) ->
  forall i j n, (lo <= i < lo + cnt)%nat -> (lo <= j < lo + cnt)%nat -> within scale n ->
  bond pos typ b rcut i j n ->
  ((i < j)%nat -> In (j, n) (half_bonds lo cnt pos typ b rcut scale i) /\
                  ~ In (i, neg n) (half_bonds lo cnt pos typ b rcut scale j)) /\
  ((j < i)%nat -> ~ In (j, n) (half_bonds lo cnt pos typ b rcut scale i) /\
                  In (i, neg n) (half_bonds lo cnt pos typ b rcut scale j)) /\
  (i = j -> In (i, n) (half_bonds lo cnt pos typ b rcut scale i) /\
            In (i, neg n) (half_bonds lo cnt pos typ b rcut scale i)).
Proof. exact pair_once. Qed.
Print Assumptions C26_each_pair_once.
Example C26_ex : within (1, 1, 1)%Z (1, 0, 0)%Z /\ bond origin (fun _ => 0%nat) cube (fun _ _ => 1) 0 0 (1, 0, 0)%Z.
Proof.
  split; [simpl; Lia.lia|]. split; [intros [_ K]; discriminate|]. rewrite cube_displacement. unfold norm, sprod; simpl.
  replace (1 * 1 + 0 * 0 + 0 * 0) with 1 by Lra.lra. rewrite sqrt_1. Lra.lra.
Qed.
