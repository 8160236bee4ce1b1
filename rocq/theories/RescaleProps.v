(** C49, C65, C86, C87: rescaling. *)
From Coq Require Import Reals ZArith List Bool.
From Verif Require Import Vec NbrModel NbrProof3 LoopUtil PairModel PairSpec PairProof3 EamModel EamSpec EamProof5 SplineModel RescaleModel RescaleSpec
  RescaleProof RescaleProof2 RescaleProof3 RescaleProof4 RescaleProof5 RescaleProof6 RescaleProof7 RescaleProof8 RescaleProof9.
Import ListNotations.
Local Open Scope R_scope.

(** ** C49 *)
(** Every configuration keeps its energy.  Missing for the full statement: embedding functions
    that are not one cubic (false, see below), pair functions on other points than the transfer
    functions, negative dominant densities, cells smaller than the cutoff (see C65). *)
Theorem C49_energy_partial : forall (fmt3 : bool) (nt : nat) (cs : nat -> conf) (nconf : nat) (rho : nat -> R) (p0 : pot) (upper : R) (flag : bool),
  let p := init fmt3 p0 in let s := scanned fmt3 cs nconf rho p0 in
  (forall ci, cnfstart (cs (S ci)) = (cnfstart (cs ci) + inconf (cs ci))%nat) ->
  forall (pos : nat -> vec) (bx : nat -> box) (rcut : nat -> nat -> R), (forall ci, (ci < nconf)%nat -> geometry (cs ci) pos (bx ci) rcut) ->
  forall L : nat -> nat -> list (nat * image),
  (forall ci x, (ci < nconf)%nat -> (cnfstart (cs ci) <= x < cnfstart (cs ci) + inconf (cs ci))%nat -> all_neighbors (cs ci) pos (bx ci) rcut x (L ci x)) ->
  (forall ci x n, (ci < nconf)%nat -> ~ In (x, n) (L ci x)) ->
  forall c0 c1 c2 c3 : nat -> R, let a := factor nt p upper s in
  needed nt p upper s flag = true -> upwards nt s = true -> 0 < a ->
  nice fmt3 p0 nt a (left_of p s) (right_of p s) c0 c1 c2 c3 ->
  (forall t, (t < nt)%nat -> 0 < step (col (em p0 t))) ->
  (forall ci x, (ci < nconf)%nat -> (cnfstart (cs ci) <= x < cnfstart (cs ci) + inconf (cs ci))%nat -> (typ (cs ci) x < nt)%nat) ->
  (forall ci x v t, (ci < nconf)%nat -> (cnfstart (cs ci) <= x < cnfstart (cs ci) + inconf (cs ci))%nat -> In v (L ci x) -> (t < nt)%nat ->
     begin (col (tr p0 t)) <= dist pos (bx ci) x v) ->
  (forall ci x, (ci < nconf)%nat -> (cnfstart (cs ci) <= x < cnfstart (cs ci) + inconf (cs ci))%nat ->
     let u := density (cs ci) pos (bx ci) (dens_of fmt3 p) (reach_of p) (L ci) 0 x in
     begin (col (em p0 (typ (cs ci) x))) <= u < endr (col (em p0 (typ (cs ci) x)))) ->
  forall ci, (ci < nconf)%nat ->
  total_energy fmt3 (init fmt3 (snd (rescale fmt3 nt cs nconf rho p0 upper flag))) (cs ci) pos (bx ci) (L ci) =
  total_energy fmt3 p (cs ci) pos (bx ci) (L ci).
Proof. exact rescale_energy. Qed.
Print Assumptions C49_energy_partial.
Example C49_ex : let p := init true ex_pot in let s := scanned true alone 1 (fun _ => 0) ex_pot in let a := factor 1 p (6 / 10) s in
  geometry (alone 0) origin cube (fun _ _ => 1 / 2) /\ all_neighbors (alone 0) origin cube (fun _ _ => 1 / 2) 0 [] /\
  a = 2 /\ needed 1 p (6 / 10) s false = true /\ upwards 1 s = true /\
  nice true ex_pot 1 a (left_of p s) (right_of p s) (fun _ => 0) (fun _ => 0) (fun _ => 1) (fun _ => 0).
Proof. exact ex_rescale. Qed.
(** The factor puts the dominant end of the new ranges at the bound asked for. *)
Theorem C49_factor : forall nt p upper s, (0 < nt)%nat ->
  (forall t, (t < nt)%nat -> - 10 ^ 100 < maxrho s t /\ minrho s t < 10 ^ 100) ->
  exists t u, (t < nt)%nat /\ (u < nt)%nat /\ (forall v, (v < nt)%nat -> maxrho s v <= maxrho s t) /\ (forall v, (v < nt)%nat -> minrho s u <= minrho s v) /\
  (upwards nt s = true <-> - minrho s u <= maxrho s t) /\
  let right := maxrho s t + 3 / 10 * step (col (em p t)) in
  let left := minrho s u - 3 / 10 * step (col (em p u)) in
  (- minrho s u <= maxrho s t -> right <> 0 -> factor nt p upper s * right = upper) /\
  (maxrho s t < - minrho s u -> left <> 0 -> factor nt p upper s * left = upper).
Proof. exact factor_dominant. Qed.
Print Assumptions C49_factor.
Example C49_factor_example : let s := mk_scan (fun _ => 0) (fun t => INR t) (fun t => - 1) in
  forall t, (t < 2)%nat -> - 10 ^ 100 < maxrho s t /\ minrho s t < 10 ^ 100.
Proof. exact ex_factor. Qed.
(** One cell with any neighbours, given bounds and factor: also with images of the atoms themselves. *)
Theorem C49_update_partial : forall (fmt3 : bool) (p0 : pot) (nt : nat) (a : R) (lo hi c0 c1 c2 c3 : nat -> R),
  nice fmt3 p0 nt a lo hi c0 c1 c2 c3 -> 0 < a ->
  forall (c : conf) (pos : nat -> vec) (bx : box) (rcut : nat -> nat -> R), geometry c pos bx rcut ->
  forall L : nat -> list (nat * image), (forall x, (cnfstart c <= x < cnfstart c + inconf c)%nat -> all_neighbors c pos bx rcut x (L x)) ->
  (forall x, (cnfstart c <= x < cnfstart c + inconf c)%nat -> (typ c x < nt)%nat) ->
  (forall x v t, (cnfstart c <= x < cnfstart c + inconf c)%nat -> In v (L x) -> (t < nt)%nat -> begin (col (tr p0 t)) <= dist pos bx x v) ->
  (forall x, (cnfstart c <= x < cnfstart c + inconf c)%nat ->
     let u := density c pos bx (dens_of fmt3 (init fmt3 p0)) (reach_of (init fmt3 p0)) L 0 x in
     lo (typ c x) <= u < hi (typ c x) /\ begin (col (em p0 (typ c x))) <= u < endr (col (em p0 (typ c x)))) ->
  total_energy fmt3 (init fmt3 (update fmt3 (init fmt3 p0) true a lo hi)) c pos bx L = total_energy fmt3 (init fmt3 p0) c pos bx L.
Proof. exact energy_unchanged. Qed.
Print Assumptions C49_update_partial.
Example C49_update_ex : nice true ex_pot 1 2 (fun _ => - (3 / 10)) (fun _ => 3 / 10) (fun _ => 0) (fun _ => 0) (fun _ => 1) (fun _ => 0) /\
  exists l, l <> [] /\ geometry (cube_conf l) origin cube (fun _ _ => 1).
Proof. exact (conj (ex_nice _ _ eq_refl eq_refl) cube_geometry). Qed.
(** Every embedding function: at its new points it is the old function up to the gauge. *)
Theorem C49_nodes : forall fmt3 p a lo hi t, ok fmt3 (em p t) -> 0 < a -> lo t < hi t ->
  let f := em (init fmt3 p) t in let h := em (init fmt3 (update fmt3 (init fmt3 p) true a lo hi)) t in
  exists l, forall i, (i < npts f)%nat -> let u := lo t + INR i * ((hi t - lo t) / INR (npts f - 1)) in
  nodes h i = a * u /\ splint_ne (col h) (val h) (a * u) = splint_ne (col f) (val f) u - l * (a * u).
Proof. exact update_nodes. Qed.
Print Assumptions C49_nodes.
Example C49_nodes_ex : ok true (em ex_pot 0) /\ npts (em ex_pot 0) = 4%nat.
Proof. exact (conj par_ok eq_refl). Qed.
(** If nothing needs to be done, nothing is done. *)
Theorem C49_not_needed : forall fmt3 nt cs nconf rho p upper flag, needed nt (init fmt3 p) upper (scanned fmt3 cs nconf rho p) flag = false ->
  rescale fmt3 nt cs nconf rho p upper flag = (0, init fmt3 p).
Proof. exact rescale_not_needed. Qed.
Print Assumptions C49_not_needed.
(** Between its points the function changes: one atom, embedding function max(x,0)^3, energy 0
    before and -0.0005 after. *)
Theorem C49_refuted : let p := init true wp in let p' := snd (rescale true 1 alone 1 (fun _ => 0) wp (3 / 10) true) in
  geometry (alone 0) origin cube (fun _ _ => 1 / 2) /\ all_neighbors (alone 0) origin cube (fun _ _ => 1 / 2) 0 [] /\
  (forall t, ok true (em wp t)) /\
  total_energy true p (alone 0) origin cube (fun _ => []) = 0 /\
  total_energy true (init true p') (alone 0) origin cube (fun _ => []) = - (5 / 10000).
Proof. exact energy_refuted. Qed.
Print Assumptions C49_refuted.

(** ** C65 *)
(** Cells that no atom sees its own images in: the densities are those of the energy. *)
Theorem C65_densities_partial : forall (fmt3 : bool) (cs : nat -> conf) (nconf : nat) (rho : nat -> R) (p0 : pot),
  let p := init fmt3 p0 in
  (forall ci, cnfstart (cs (S ci)) = (cnfstart (cs ci) + inconf (cs ci))%nat) ->
  forall (pos : nat -> vec) (bx : nat -> box) (rcut : nat -> nat -> R), (forall ci, (ci < nconf)%nat -> geometry (cs ci) pos (bx ci) rcut) ->
  forall L : nat -> nat -> list (nat * image),
  (forall ci x, (ci < nconf)%nat -> (cnfstart (cs ci) <= x < cnfstart (cs ci) + inconf (cs ci))%nat -> all_neighbors (cs ci) pos (bx ci) rcut x (L ci x)) ->
  (forall ci x n, (ci < nconf)%nat -> ~ In (x, n) (L ci x)) ->
  forall ci x, (ci < nconf)%nat -> (cnfstart (cs ci) <= x < cnfstart (cs ci) + inconf (cs ci))%nat ->
  let s := scanned fmt3 cs nconf rho p0 in
  let u := density (cs ci) pos (bx ci) (dens_of fmt3 p) (reach_of p) (L ci) 0 x in
  srho s x = u /\ minrho s (typ (cs ci) x) <= u <= maxrho s (typ (cs ci) x).
Proof. exact scan_density. Qed.
Print Assumptions C65_densities_partial.
(** All cells: the densities without the images of the atom itself. *)
Theorem C65_others : forall dens reach cs nconf, (forall ci, cnfstart (cs (S ci)) = (cnfstart (cs ci) + inconf (cs ci))%nat) ->
  forall pos bx rcut, (forall ci, (ci < nconf)%nat -> geometry (cs ci) pos (bx ci) rcut) ->
  forall L, (forall ci a, (ci < nconf)%nat -> (cnfstart (cs ci) <= a < cnfstart (cs ci) + inconf (cs ci))%nat ->
    all_neighbors (cs ci) pos (bx ci) rcut a (L ci a)) ->
  forall f, let s := scan_all dens reach cs nconf f in
  forall ci, (ci < nconf)%nat -> forall a, (cnfstart (cs ci) <= a < cnfstart (cs ci) + inconf (cs ci))%nat ->
  let x := density (cs ci) pos (bx ci) (fun _ => dens) (fun _ => reach) (others_of (L ci)) 0 a in
  srho s a = x /\ minrho s (typ (cs ci) a) <= x <= maxrho s (typ (cs ci) a).
Proof. exact scan_textbook. Qed.
Print Assumptions C65_others.
Example C65_ex : geometry (alone 0) origin cube (fun _ _ => 1 / 2) /\ all_neighbors (alone 0) origin cube (fun _ _ => 1 / 2) 0 [] /\
  exists l, l <> [] /\ geometry (cube_conf l) origin cube (fun _ _ => 1).
Proof. exact (conj alone_geometry (conj alone_neighbors cube_geometry)). Qed.
(** One atom that only sees its own images: density 0 instead of the number of images. *)
Theorem C65_refuted : exists l L, let c := one_conf l 0 in
  geometry c origin cube (fun _ _ => 1) /\ all_neighbors c origin cube (fun _ _ => 1) 0 (L 0%nat) /\
  forall f, srho (scan_all (fun _ _ => 1) (fun _ _ => true) (one_conf l) 1 f) 0%nat = 0 /\
  1 <= density c origin cube (fun _ _ _ => 1) (fun _ _ _ => true) L 0 0.
Proof. exact density_refuted. Qed.
Print Assumptions C65_refuted.

(** ** C86 *)
(** Format 3: after the synchronisation a worker evaluates the embedding function of the root,
    whatever it held before. *)
Theorem C86_eq_dist : forall w m, ok true m -> same_layout w m -> forall r, begin (col m) <= r < endr (col m) ->
  ev true (spl true true (synced w m)) r = ev true (spl true true m) r /\ evg true (spl true true (synced w m)) r = evg true (spl true true m) r.
Proof. exact workers_eq. Qed.
Print Assumptions C86_eq_dist.
Example C86_ex : ok true par_fn /\ same_layout wf par_fn /\ begin (col par_fn) <= 1 < endr (col par_fn).
Proof. exact (conj par_ok (conj (conj eq_refl eq_refl) par_1)). Qed.
(** Format 4: the points of the embedding function are not sent.  Function u^2 on 0, 1, scaled
    by 2: the root has -1/4 at density 1, the worker 0. *)
Theorem C86_refuted : exists (p : pot) a lo hi, let w := em (init false p) 0 in let m := em (update false (init false p) true a lo hi) 0 in
  same_layout w m /\ ok false (em p 0) /\ 0 < a /\ lo 0%nat < hi 0%nat /\ begin (col m) <= 1 < endr (col m) /\
  ev false (spl false true m) 1 = Some (- (1 / 4)) /\ ev false (spl false true (synced w m)) 1 = Some 0.
Proof. exact workers_refuted. Qed.
Print Assumptions C86_refuted.

(** ** C87 *)
(** The new range of an embedding function contains the densities used. *)
Theorem C87_contains : forall dens reach cs nconf, (forall ci, cnfstart (cs (S ci)) = (cnfstart (cs ci) + inconf (cs ci))%nat) ->
  forall pos bx rcut, (forall ci, (ci < nconf)%nat -> geometry (cs ci) pos (bx ci) rcut) ->
  forall f p, let s := scan_all dens reach cs nconf f in
  forall ci, (ci < nconf)%nat -> forall a, (cnfstart (cs ci) <= a < cnfstart (cs ci) + inconf (cs ci))%nat -> 0 < step (col (em p (typ (cs ci) a))) ->
  left_of p s (typ (cs ci) a) < srho s a < right_of p s (typ (cs ci) a).
Proof. exact range_contains. Qed.
Print Assumptions C87_contains.
(** A type without atoms: the range is empty, its left end lies right of its right end. *)
Theorem C87_refuted : forall dens reach cs nconf, (forall ci, cnfstart (cs (S ci)) = (cnfstart (cs ci) + inconf (cs ci))%nat) ->
  forall pos bx rcut, (forall ci, (ci < nconf)%nat -> geometry (cs ci) pos (bx ci) rcut) ->
  forall f p t, let s := scan_all dens reach cs nconf f in
  0 < step (col (em p t)) < 10 ^ 100 ->
  (forall ci a, (ci < nconf)%nat -> (cnfstart (cs ci) <= a < cnfstart (cs ci) + inconf (cs ci))%nat -> typ (cs ci) a <> t) ->
  right_of p s t < left_of p s t.
Proof. exact absent_type. Qed.
Print Assumptions C87_refuted.
Example C87_ex : geometry (alone 0) origin cube (fun _ _ => 1 / 2) /\ typ (alone 0) 0 <> 1%nat /\ 0 < step (col (em ex_pot 1)) < 10 ^ 100.
Proof. exact (conj alone_geometry (conj (fun H => O_S _ H) par_step)). Qed.
