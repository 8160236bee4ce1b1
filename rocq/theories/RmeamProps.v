(** C111, C112, C113: rescaling of MEAM potentials. *)
From Coq Require Import Reals ZArith List Bool.
From Verif Require Import Vec NbrModel NbrProof3 LoopUtil PairModel PairSpec PairProof3 ThreeSpec AngSpec MeamSpec SwProof4 SwProof5 SplineModel
  RescaleModel RescaleProof2 RescaleProof3 RmeamModel RmeamSpec RmeamProof RmeamProof3 RmeamProof4 RmeamProof5 RmeamProof6 RmeamProof7 RmeamProof8.
Import ListNotations.
Local Open Scope R_scope.

(** ** C111 *)
(** missing: that this holds for the slots as they are in a build with tables; see the next theorem *)
Theorem C111_densities_partial : forall fmt3 slots nt cs nconf r0 p0 upper flag,
  let p := m_init p0 in let s := m_found fmt3 slots p cs nconf r0 in
  let r := m_rescale fmt3 slots nt cs nconf r0 p0 upper flag in let q := m_init (snd r) in
  (forall ci, cnfstart (cs (S ci)) = (cnfstart (cs ci) + inconf (cs ci))%nat) ->
  forall pos bx rcut, (forall ci, (ci < nconf)%nat -> full_geometry (cs ci) pos (bx ci) rcut) ->
  forall L, (forall ci x, atom_of cs nconf ci x -> all_neighbors (cs ci) pos (bx ci) rcut x (L ci x)) ->
  (forall ci x, atom_of cs nconf ci x -> (typ (cs ci) x < nt)%nat) ->
  (forall t, (t < nt)%nat -> exists ci x, atom_of cs nconf ci x /\ typ (cs ci) x = t) ->
  (forall ci x, atom_of cs nconf ci x -> Rabs (table_density fmt3 slots p (cs ci) pos (bx ci) (L ci) x) < 10 ^ 100) ->
  (forall t, (t < nt)%nat -> 0 < step (col (mem p0 t))) -> 0 < upper -> (0 < nt)%nat ->
  needed nt (m_embed p) upper s flag = true -> columns_ok fmt3 p0 nt (factor nt (m_embed p) upper s) ->
  slots = true -> forall ci x, atom_of cs nconf ci x ->
  let u := table_density fmt3 slots p (cs ci) pos (bx ci) (L ci) x in
  let v := table_density fmt3 slots q (cs ci) pos (bx ci) (L ci) x in
  v = fst r * u /\ Rabs v < upper /\ begin (col (mem q (typ (cs ci) x))) < v < endr (col (mem q (typ (cs ci) x))).
Proof. exact m_densities. Qed.
Print Assumptions C111_densities_partial.
(** three atoms; densities 2, 1, 1; factor 2 *)
Example C111_ex : forall fmt3, let p := m_init p_pos in let s := m_found fmt3 true p bent 1 (fun _ => 0) in let a := factor 1 (m_embed p) 10 s in
  (forall ci, cnfstart (bent (S ci)) = (cnfstart (bent ci) + inconf (bent ci))%nat) /\
  (forall ci, (ci < 1)%nat -> full_geometry (bent ci) elbow cube (fun _ _ => 12/100)) /\
  (forall ci x, atom_of bent 1 ci x -> all_neighbors (bent ci) elbow cube (fun _ _ => 12/100) x (elbow_list x)) /\
  (forall ci x, atom_of bent 1 ci x -> (typ (bent ci) x < 1)%nat) /\
  (forall t, (t < 1)%nat -> exists ci x, atom_of bent 1 ci x /\ typ (bent ci) x = t) /\
  (forall ci x, atom_of bent 1 ci x -> Rabs (table_density fmt3 true p (bent ci) elbow cube elbow_list x) < 10 ^ 100) /\
  (forall t, (t < 1)%nat -> 0 < step (col (mem p_pos t))) /\ 0 < 10 /\ (0 < 1)%nat /\
  needed 1 (m_embed p) 10 s true = true /\ columns_ok fmt3 p_pos 1 a /\
  (forall t, (t < 1)%nat -> ok true (mem p_pos t) /\ cubic_column (mem p_pos t) 0 0 1 0 /\
    forall u, u = left_of (m_embed p) s t \/ u = (left_of (m_embed p) s t + right_of (m_embed p) s t) / 2 \/ u = right_of (m_embed p) s t ->
    Rabs (cub1 0 1 0 u) < E29 / 2 /\ Rabs (cub1 0 1 0 u / a) < E29 / 2) /\
  (forall ci x, atom_of bent 1 ci x -> let u := table_density fmt3 true p (bent ci) elbow cube elbow_list x in
    begin (col (mem p_pos (typ (bent ci) x))) <= u < endr (col (mem p_pos (typ (bent ci) x)))) /\
  upwards 1 s = true /\ a = 2 /\ table_density fmt3 true p (bent 0) elbow cube elbow_list 0 = 2.
Proof. exact p_pos_ex. Qed.
(** a build with tables: the density goes from 3 to 1.2 with factor 0.1, and the table ends at 0.6 *)
Theorem C111_tables_refuted : forall fmt3, exists p0 upper cs pos b rcut L,
  let p := m_init p0 in let r := m_rescale fmt3 false 1 cs 1 (fun _ => 0) p0 upper true in let q := m_init (snd r) in
  let rho p := table_density fmt3 false p (cs 0%nat) pos b L in
  full_geometry (cs 0%nat) pos b rcut /\ (forall a, (a < 3)%nat -> all_neighbors (cs 0%nat) pos b rcut a (L a)) /\
  columns_ok fmt3 p0 1 (fst r) /\ ok true (mem p0 0%nat) /\
  fst r = 1 / 10 /\ rho p 0%nat = 3 /\ rho q 0%nat = 12 / 10 /\ endr (col (mem q 0%nat)) = 6 / 10.
Proof. exact (fun fmt3 => ex_intro _ p_tab (ex_intro _ (6 / 10) (ex_intro _ bent (ex_intro _ elbow (ex_intro _ cube (ex_intro _ (fun _ _ => 12/100) (ex_intro _ elbow_list (density_not_scaled fmt3)))))))). Qed.
Print Assumptions C111_tables_refuted.
(** a type without atoms *)
Theorem C111_absent_refuted : forall fmt3 slots nt cs nconf r0 p0 upper flag t,
  (forall ci, cnfstart (cs (S ci)) = (cnfstart (cs ci) + inconf (cs ci))%nat) ->
  (forall ci a, (ci < nconf)%nat -> (cnfstart (cs ci) <= a < cnfstart (cs ci) + inconf (cs ci))%nat -> typ (cs ci) a <> t) ->
  0 < step (col (mem p0 t)) < 10 ^ 100 -> (first (col (mem p0 t)) < last (col (mem p0 t)))%nat ->
  let s := m_found fmt3 slots (m_init p0) cs nconf r0 in
  let r := m_rescale fmt3 slots nt cs nconf r0 p0 upper flag in
  needed nt (m_embed (m_init p0)) upper s flag = true ->
  upwards nt s = true /\ 0 < fst r \/ upwards nt s = false /\ fst r < 0 ->
  endr (col (mem (snd r) t)) < begin (col (mem (snd r) t)) /\ step (col (mem (snd r) t)) < 0.
Proof. exact absent_reversed. Qed.
Print Assumptions C111_absent_refuted.
Example C111_absent_ex : forall fmt3, let s := m_found fmt3 true (m_init p_pos) bent 1 (fun _ => 0) in let r := m_rescale fmt3 true 2 bent 1 (fun _ => 0) p_pos 10 true in
  (forall ci a, (ci < 1)%nat -> (cnfstart (bent ci) <= a < cnfstart (bent ci) + inconf (bent ci))%nat -> typ (bent ci) a <> 1%nat) /\
  0 < step (col (mem p_pos 1%nat)) < 10 ^ 100 /\ (first (col (mem p_pos 1%nat)) < last (col (mem p_pos 1%nat)))%nat /\
  needed 2 (m_embed (m_init p_pos)) 10 s true = true /\ upwards 2 s = true /\ 0 < fst r.
Proof. exact absent_ex. Qed.

(** ** C112 *)
Theorem C112_nodes : forall up a lo hi f, (first (col f) < last (col f))%nat -> up = true /\ 0 < a \/ up = false /\ a < 0 -> lo < hi ->
  forall fmt3 i, (i < npts f)%nat -> let u := lo + INR i * ((hi - lo) / INR (last (col f) - first (col f))) in
  ev fmt3 (spl true true (scaled_em up a lo hi (resampled f lo hi))) (a * u) = Some (splint_ne (col f) (val f) u).
Proof. exact m_embed_nodes. Qed.
Print Assumptions C112_nodes.
Example C112_ex : ok true (two (-10) 0 100 0 (-20) 0) /\ cubic_column (two (-10) 0 100 0 (-20) 0) 0 0 1 0 /\ (first (col (two (-10) 0 100 0 (-20) 0)) < last (col (two (-10) 0 100 0 (-20) 0)))%nat.
Proof. exact (conj (two_ok true (-10) 0 100 0 (-20) 0 ltac:(Lra.lra)) (conj p_neg_cubic (le_n 3))). Qed.
(** missing: embedding functions that are not cubic, and negative densities; see the theorems after this one *)
Theorem C112_energy_partial : forall fmt3 slots nt cs nconf r0 p0 upper flag,
  let p := m_init p0 in let s := m_found fmt3 slots p cs nconf r0 in let a := factor nt (m_embed p) upper s in
  let q := m_init (snd (m_rescale fmt3 slots nt cs nconf r0 p0 upper flag)) in
  (forall ci, cnfstart (cs (S ci)) = (cnfstart (cs ci) + inconf (cs ci))%nat) ->
  forall pos bx rcut, (forall ci, (ci < nconf)%nat -> full_geometry (cs ci) pos (bx ci) rcut) ->
  forall L, (forall ci x, atom_of cs nconf ci x -> all_neighbors (cs ci) pos (bx ci) rcut x (L ci x)) ->
  (forall ci x, atom_of cs nconf ci x -> (typ (cs ci) x < nt)%nat) ->
  (forall t, (t < nt)%nat -> exists ci x, atom_of cs nconf ci x /\ typ (cs ci) x = t) ->
  (forall ci x, atom_of cs nconf ci x -> Rabs (table_density fmt3 slots p (cs ci) pos (bx ci) (L ci) x) < 10 ^ 100) ->
  (forall t, (t < nt)%nat -> 0 < step (col (mem p0 t))) -> 0 < upper -> (0 < nt)%nat ->
  needed nt (m_embed p) upper s flag = true -> columns_ok fmt3 p0 nt a ->
  forall c0 c1 c2 c3,
  (forall t, (t < nt)%nat -> ok true (mem p0 t) /\ cubic_column (mem p0 t) (c0 t) (c1 t) (c2 t) (c3 t) /\
    forall u, u = left_of (m_embed p) s t \/ u = (left_of (m_embed p) s t + right_of (m_embed p) s t) / 2 \/ u = right_of (m_embed p) s t ->
    Rabs (cub1 (c1 t) (c2 t) (c3 t) u) < E29 / 2 /\ Rabs (cub1 (c1 t) (c2 t) (c3 t) u / a) < E29 / 2) ->
  (forall ci x, atom_of cs nconf ci x -> let u := table_density fmt3 slots p (cs ci) pos (bx ci) (L ci) x in
    begin (col (mem p0 (typ (cs ci) x))) <= u < endr (col (mem p0 (typ (cs ci) x)))) ->
  slots = true -> upwards nt s = true -> forall ci, (ci < nconf)%nat ->
  table_energy fmt3 slots q (cs ci) pos (bx ci) (L ci) = table_energy fmt3 slots p (cs ci) pos (bx ci) (L ci).
Proof. exact m_energy. Qed.
Print Assumptions C112_energy_partial.
(** an embedding function that is not cubic *)
Theorem C112_between_refuted : exists p0 upper cs pos b rcut L,
  let p := m_init p0 in let r := m_rescale true true 1 cs 1 (fun _ => 0) p0 upper true in let q := m_init (snd r) in
  full_geometry (cs 0%nat) pos b rcut /\ (forall a, (a < 3)%nat -> all_neighbors (cs 0%nat) pos b rcut a (L a)) /\
  columns_ok true p0 1 (fst r) /\ ok true (mem p0 0%nat) /\ fst r = 1 /\
  (forall i, (i < 3)%nat -> begin (col (mem p0 0%nat)) < table_density true true p (cs 0%nat) pos b L i < endr (col (mem p0 0%nat))) /\
  table_energy true true p (cs 0%nat) pos b L = 0 /\ table_energy true true q (cs 0%nat) pos b L = - (15 / 10000).
Proof. exact (ex_intro _ p_mid (ex_intro _ (3 / 10) (ex_intro _ bent (ex_intro _ elbow (ex_intro _ cube (ex_intro _ (fun _ _ => 12/100) (ex_intro _ elbow_list between_energy))))))). Qed.
Print Assumptions C112_between_refuted.
(** the embedding function u^2 and negative densities: energy 6 before, 3750/49 after *)
Theorem C112_negative_refuted : forall fmt3, exists p0 upper cs pos b rcut L,
  let p := m_init p0 in let r := m_rescale fmt3 true 1 cs 1 (fun _ => 0) p0 upper true in let q := m_init (snd r) in
  full_geometry (cs 0%nat) pos b rcut /\ (forall a, (a < 3)%nat -> all_neighbors (cs 0%nat) pos b rcut a (L a)) /\
  columns_ok fmt3 p0 1 (fst r) /\ ok true (mem p0 0%nat) /\ cubic_column (mem p0 0%nat) 0 0 1 0 /\ fst r = -1 /\
  (forall i, (i < 3)%nat -> begin (col (mem p0 0%nat)) < table_density fmt3 true p (cs 0%nat) pos b L i < endr (col (mem p0 0%nat))) /\
  table_energy fmt3 true p (cs 0%nat) pos b L = 6 /\ table_energy fmt3 true q (cs 0%nat) pos b L = 3750 / 49.
Proof. exact (fun fmt3 => ex_intro _ p_neg (ex_intro _ 5 (ex_intro _ bent (ex_intro _ elbow (ex_intro _ cube (ex_intro _ (fun _ _ => 12/100) (ex_intro _ elbow_list (negative_energy fmt3)))))))). Qed.
Print Assumptions C112_negative_refuted.
(** the reason, for every cubic F: with a < 0 the derivative of u |-> F(u/a) at the left end is
    F'(hi)/a, and the spline has the negative of it.  These are also the columns of rescale.c in
    format 3 (C49). *)
Theorem C112_negative_slope_refuted : forall fmt3 a lo hi f0 p0 p1 p2 p3, ok true f0 -> a < 0 -> lo < hi -> cubic_column f0 p0 p1 p2 p3 ->
  (forall u, u = lo \/ u = hi -> Rabs (cub1 p1 p2 p3 u) < E29 /\ Rabs (cub1 p1 p2 p3 u / a) < E29) ->
  let h := spl true true (scaled_em false a lo hi (resampled (spl true true f0) lo hi)) in
  begin (col h) = a * hi /\ ev fmt3 h (a * hi) = Some (cub p0 p1 p2 p3 hi) /\ evg fmt3 h (a * hi) = Some (- (cub1 p1 p2 p3 hi / a)).
Proof. exact down_derivative. Qed.
Print Assumptions C112_negative_slope_refuted.

(** ** C113 *)
Theorem C113_format4_refuted : exists f, ok false f /\ step (col f) = (endr (col f) - begin (col f)) / INR (npts f - 1) /\ NATURAL < sl f /\ NATURAL < sr f /\
  (forall i, (i < npts f)%nat -> vals f i = nodes f i) /\
  ev false (spl true true f) (1 / 2) = Some (1 / 2 - 1 / 24) /\
  (forall r, 0 <= r < 1 -> evg false (spl true true f) r = Some (8 / 9 + r * r / 3)) /\
  (forall r, 1 <= r < 3 -> evg false (spl true true f) r = Some (11 / 9 - (3 - r) * (3 - r) / 6)).
Proof. exact format4_refuted. Qed.
Print Assumptions C113_format4_refuted.
