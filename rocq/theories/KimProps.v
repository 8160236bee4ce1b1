(** C56, C68, C73-C75: KIM interface. *)
From Coq Require Import Reals ZArith List String Ascii Lra.
From Verif Require Import Vec NbrModel NbrProof NbrProof2 NbrProof3 ParamsModel ParamsProof KimModel KimProof KimProof2.
Import ListNotations.
Local Open Scope R_scope.

(** C56.  A numeral of an integer that fits is read as written if it starts with one of the
    digits 0 to 8, and refused otherwise. *)
Theorem C56_read_iff_plain : forall d s z, written s z -> (- 2^31 <= z < 2^31)%Z ->
  (plain_start s -> read_kim_int d s = Some z) /\ (~ plain_start s -> read_kim_int d s = None).
Proof. exact kim_int_written. Qed.
Print Assumptions C56_read_iff_plain.
Theorem C56_refuted : exists s s' : text, written s 9 /\ written s' (-1) /\
  forall d, read_kim_int d s = None /\ read_kim_int d s' = None.
Proof. exact int_refused. Qed.
Print Assumptions C56_refuted.
Theorem C56_too_large_refuted : exists s z v, written s z /\ (0 < z)%Z /\ read_kim_int 0 s = Some v /\ v <> z.
Proof. exact int_wraps. Qed.
Print Assumptions C56_too_large_refuted.
Example C56_ex : written (txt "12") 12 /\ plain_start (txt "12") /\ read_kim_int 0 (txt "12") = Some 12%Z.
Proof.
  split; [exact written_12|]. split; [exists "1"%char, ["2"%char]; split; [reflexivity|split; discriminate]|reflexivity].
Qed.

(** C73.  Potential files without '!' lines: values and limits are the written ones, a
    parameter is optimised iff its limits differ, and then its value lies between them. *)
Theorem C73_limits_and_index : forall ls ps, read_entries ls = Some ps -> (forall l, In l ls -> no_bang l) ->
  List.length ps = List.length ls /\
  (forall k p l, nth_error ps k = Some p -> nth_error ls k = Some l ->
     (forall v mn mx, asks l v mn mx ->
        k_val p = v /\ k_min p = Rmin mn mx /\ k_max p = Rmax mn mx /\ (k_inv p = true <-> mn = mx)) /\
     (k_inv p = false -> k_min p < k_max p /\ k_min p <= k_val p <= k_max p)) /\
  NoDup (kim_index ps) /\
  (forall k, In k (kim_index ps) <-> exists p, nth_error ps k = Some p /\ k_inv p = false) /\
  kim_idxlen ps = Z.of_nat (List.length (kim_index ps)).
Proof. exact kim_limits. Qed.
Print Assumptions C73_limits_and_index.
(** A '!' line makes a free parameter with value and both limits 0. *)
Theorem C73_refuted : exists ls ps p, read_entries ls = Some ps /\ nth_error ps 0 = Some p /\ In 0%nat (kim_index ps) /\
  k_min p = 0 /\ k_max p = 0.
Proof. exact bang_free. Qed.
Print Assumptions C73_refuted.
Example C73_ex : read_entries [LDbl (DNums (Some (1, 3, 0))) 7; LDbl (DDefault (Some (2, 2))) 7] =
  Some [KPar 1 0 3 false; KPar 7 2 2 true] /\ kim_index [KPar 1 0 3 false; KPar 7 2 2 true] = [0%nat].
Proof. exact entries_ex. Qed.

(** C74.  Models with double parameters only: at every evaluation each parameter has the
    requested value, if no parameter ever returns to its default after leaving it. *)
Theorem C74_values_passed : forall dbl vals xis xi k, (forall d, In d dbl -> d = true) -> (k < List.length dbl)%nat ->
  never_back vals (List.length dbl) (xis ++ [xi]) -> evaluations dbl vals (xis ++ [xi]) vals k = xi k.
Proof. exact kim_history. Qed.
Print Assumptions C74_values_passed.
Theorem C74_default_refuted : exists vals xi1 xi2, evaluations [true] vals [xi1; xi2] vals 0%nat <> xi2 0%nat.
Proof. exact kim_stale. Qed.
Print Assumptions C74_default_refuted.
Theorem C74_integer_refuted : exists vals xi, evaluations [false; true] vals [xi] vals 1%nat = xi 0%nat /\ xi 1%nat <> xi 0%nat.
Proof. exact kim_int_shift. Qed.
Print Assumptions C74_integer_refuted.
Example C74_ex : never_back (fun _ => 1) 1 [fun _ => 1; fun _ => 2; fun _ => 3].
Proof. exact never_back_ex. Qed.

(** C75.  Exact result: the old entry takes part; the result is the weighted deviation of
    the summed particle forces if the old entries are zero. *)
Theorem C75_exact : forall w uf src kf f0 lo cnt f a, (lo <= a < lo + cnt)%nat ->
  kim_forces w uf src kf f0 lo cnt f a = if uf then w * (f a + on_atom src kf a - f0 a) else 0.
Proof. exact kim_forces_spec. Qed.
Print Assumptions C75_exact.
Theorem C75_fresh_vector : forall w src kf f0 lo cnt f a, (lo <= a < lo + cnt)%nat -> f a = 0 ->
  kim_forces w true src kf f0 lo cnt f a = w * (on_atom src kf a - f0 a).
Proof. exact kim_forces_fresh. Qed.
Print Assumptions C75_fresh_vector.
Theorem C75_refuted : exists w src kf f0 lo cnt f a, (lo <= a < lo + cnt)%nat /\
  let f1 := kim_forces w true src kf f0 lo cnt f in
  f a = 0 /\ kim_forces w true src kf f0 lo cnt f1 a <> f1 a.
Proof. exact kim_forces_accumulate. Qed.
Print Assumptions C75_refuted.
Example C75_ex : on_atom [0; 1; 0]%nat (fun p => INR p) 0 = 2.
Proof. unfold on_atom, rsumf; simpl. lra. Qed.

(** C68.  Atoms in the cell, cutoffs at most rcutmax: no index leaves the blocks, the
    particles are the atoms followed by exactly the images within the cutoff of some atom,
    none twice; every neighbour of an atom points to the particle of its source and image. *)
Theorem C68_padding : forall natoms cnt pos typ b rcut t v rcutmax s,
  make_box b = Some (t, v) -> 0 <= rcutmax -> init_box_vectors t rcutmax = Some s ->
  (forall k, (natoms <= k < natoms + cnt)%nat -> in_cell b (pos k)) -> (forall k m, rcut k m <= rcutmax) ->
  exists st pads,
  init_padding natoms cnt pos typ b rcut s = Some st /\
  pd_list st = map (fun i => (i, (0, 0, 0)%Z)) (seq natoms cnt) ++ pads /\ NoDup (pd_list st) /\
  (forall j n, In (j, n) pads <-> (natoms <= j < natoms + cnt)%nat /\ n <> (0, 0, 0)%Z /\
     exists i, (natoms <= i < natoms + cnt)%nat /\ norm (displacement pos b i j n) <= rcut (typ i) (typ j)) /\
  (forall i, (natoms <= i < natoms + cnt)%nat ->
     let l := kim_neighbors natoms cnt pos typ b rcut s st i in
     (forall j n, In (j, n) (map snd l) <-> (natoms <= j < natoms + cnt)%nat /\ bond pos typ b rcut i j n) /\
     NoDup (map snd l) /\
     forall q p, In (q, p) l -> nth_error (pd_list st) q = Some p).
Proof. exact padding_complete. Qed.
Print Assumptions C68_padding.
Theorem C68_particle_place : forall pos b i j n,
  vsub (coordinates pos b (j, n)) (pos i) = displacement pos b i j n.
Proof. exact particle_place. Qed.
Print Assumptions C68_particle_place.
Example C68_ex : make_box cube = Some (cube, 1) /\ init_box_vectors cube 1 = Some (1, 1, 1)%Z /\
  in_cell cube (origin 0%nat) /\ norm (displacement origin cube 0 0 (1, 0, 0)%Z) <= 1.
Proof. exact padding_ex. Qed.
