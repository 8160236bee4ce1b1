(** C44-C48: input of analytic potentials, calculation table, cutoffs. *)
From Coq Require Import Reals ZArith List Bool String Lra Lia.
From Verif Require Import ApotModel ApotSpec ApotProof ApotProof2 ApotProof3 ApotProof4 ApotProof5.
Import ListNotations.
Local Open Scope R_scope.

(** C44.  Without a fixed chemical potential, and without globals in an electrostatic
    potential: the optimiser's index lists exactly the free parameters, each once, with the
    place where the force routines read it; start values are put there. *)
Theorem C44_index_partial : forall nt a, sizes_ok nt a -> cp_free a -> no_clash a -> index_right nt a.
Proof. exact index_is_right. Qed.
Print Assumptions C44_index_partial.
(** Then the analytic table follows the optimised one: free parameters and uses of globals
    take the optimised values, all others keep theirs. *)
Theorem C44_table_follows_partial : forall f nt a xi vals, read_file f = Some a ->
  sizes_ok nt a -> cp_free a -> no_clash a ->
  let l := read_pot_table0 nt a in
  let v := update_apot_table a l xi vals in
  (forall i j, free_par a i j -> v i j = xi (home nt a l i j)) /\
  (forall g i j, In (g, (i, j)) (uses a) -> v i j = xi (l_global_idx l + Z.of_nat g)%Z) /\
  (forall i j, ~ free_par a i j -> (forall g, ~ In (g, (i, j)) (uses a)) -> v i j = vals i j).
Proof.
  exact (fun f nt a xi vals R S C N => apot_mirrors nt a xi vals (index_is_right nt a S C N) (read_bound f a R)).
Qed.
Print Assumptions C44_table_follows_partial.
Example C44_ex : let a := Apot [Pot false false [(fr 1, None); (fx 2, None)]] (Some [fr 5]) None None [] in
  sizes_ok 1 a /\ cp_free a /\ no_clash a /\ l_idx (read_pot_table0 1 a) = [(2, 0, 0); (4, 1, 0)]%nat.
Proof.
  split; [repeat split; simpl; auto|]. split; [|split; [intros H; simpl in H; congruence|reflexivity]].
  intros c H; inversion H; subst. reflexivity.
Qed.
(** After a fixed chemical potential the index is wrong: the entry of the free parameter
    (3,1) is the place of the fixed one (3,0). *)
Theorem C44_fixed_chempot_refuted : exists nt a p i j i' j' q, sizes_ok nt a /\
  let l := read_pot_table0 nt a in
  In (p, i, j) (l_idx l) /\ free_par a i j /\ Z.of_nat p <> home nt a l i j /\
  Z.of_nat p = home nt a l i' j' /\ has_par a i' j' false q /\ p_inv q = true.
Proof. exact fixed_chempot. Qed.
Print Assumptions C44_fixed_chempot_refuted.
(** With electrostatics and a global parameter kappa is read at the place of the global
    parameter, and the global one at the place of kappa. *)
Theorem C44_elstat_globals_refuted : exists nt a ka g k, sizes_ok nt a /\ cp_free a /\
  let l := read_pot_table0 nt a in let n := List.length (a_pots a) in
  has_par a (n + 1) 0 false ka /\ has_par a (global_pot a) k false g /\
  nth_error (l_tab l) (Z.to_nat (home nt a l (n + 1) 0)) = Some (Some (p_val g)) /\
  nth_error (l_tab l) (Z.to_nat (home nt a l (global_pot a) k)) = Some (Some (p_val ka)) /\ p_val g <> p_val ka.
Proof. exact elstat_globals. Qed.
Print Assumptions C44_elstat_globals_refuted.

(** C45.  If no line has its bounds in the wrong order and electrostatic parameters lie
    within theirs, every free parameter starts within its bounds... *)
Theorem C45_start_in_bounds_partial : forall f a, read_file f = Some a -> f_opt f = true ->
  (forall r, In r (checked_raws f) -> r_min r <= r_max r) ->
  (forall r, In r (elstat_raws f) -> r_min r <= r_val r <= r_max r) ->
  forall i j inv p, has_par a i j inv p -> p_inv p = false -> in_bounds p.
Proof. exact start_in_bounds. Qed.
Print Assumptions C45_start_in_bounds_partial.
(** ... and what each checked line becomes: bounds sorted, fixed iff they are equal, value
    moved to the nearest bound only when optimising and with bounds in order. *)
Theorem C45_line : forall opt r, let p := check_value opt r in
  p_name p = r_name r /\ p_min p = Rmin (r_min r) (r_max r) /\ p_max p = Rmax (r_min r) (r_max r) /\
  (p_inv p = true <-> r_min r = r_max r) /\
  (opt = false \/ r_max r <= r_min r \/ r_min r <= r_val r <= r_max r -> p_val p = r_val r) /\
  (opt = true -> r_min r < r_max r -> p_val p = Rmax (r_min r) (Rmin (r_max r) (r_val r))).
Proof. exact check_spec. Qed.
Print Assumptions C45_line.
Example C45_ex : (forall r, In r (checked_raws f_inv) -> r_min r <= r_max r) /\ (forall r, In r (elstat_raws f_inv) -> r_min r <= r_val r <= r_max r) /\
  f_opt f_inv = true /\ read_file f_inv = Some a_inv.
Proof.
  split; [intros r [<-|[<-|[]]]; simpl; lra|]. split; [intros r []|]. split; [reflexivity|exact f_inv_read].
Qed.
Theorem C45_swapped_refuted : exists f a i j p, read_file f = Some a /\ f_opt f = true /\ elstat_raws f = [] /\
  has_par a i j false p /\ p_inv p = false /\ ~ in_bounds p.
Proof. exact swapped. Qed.
Print Assumptions C45_swapped_refuted.
Theorem C45_elstat_refuted : exists f a i j p, read_file f = Some a /\ f_opt f = true /\
  (forall r, In r (checked_raws f) -> r_min r <= r_max r) /\
  has_par a i j false p /\ p_inv p = false /\ ~ in_bounds p.
Proof. exact charge_out. Qed.
Print Assumptions C45_elstat_refuted.

(** C46.  If no other global parameter's name begins with the name written, the parameter
    is bound to the global of this name; in any case only to a global whose name begins with
    it; if there is none, the file is refused.  Names of globals are unique. *)
Theorem C46_binding_partial : forall opt gs r base, r_name r = (base ++ "!")%string ->
  (forall l, (l < List.length gs)%nat -> p_name (nth l gs dpar) = base ->
   (forall k, (k < List.length gs)%nat -> prefix base (p_name (nth k gs dpar)) = true -> k = l) ->
   read_par opt gs r = Some (Par (r_name r) (p_val (nth l gs dpar)) (p_min (nth l gs dpar)) (p_max (nth l gs dpar)) true, Some l)) /\
  (forall p l, read_par opt gs r = Some (p, Some l) ->
   (l < List.length gs)%nat /\ prefix base (p_name (nth l gs dpar)) = true /\
   p_val p = p_val (nth l gs dpar) /\ p_min p = p_min (nth l gs dpar) /\ p_max p = p_max (nth l gs dpar) /\ p_inv p = true) /\
  ((forall g, In g gs -> prefix base (p_name g) = false) -> read_par opt gs r = None).
Proof.
  exact (fun opt gs r base E => conj (bound_right opt gs r base E) (conj (fun p l => bound_prefix opt gs r base p l E) (unbound_refused opt gs r base E))).
Qed.
Print Assumptions C46_binding_partial.
Theorem C46_unique_names : forall opt rs gs, read_globals opt [] rs = Some gs ->
  gs = map (check_value opt) rs /\ NoDup (map p_name gs).
Proof. exact (fun opt rs gs H => conj (globals_from opt rs [] gs H) (globals_names opt rs [] gs H (NoDup_nil _))). Qed.
Print Assumptions C46_unique_names.
Example C46_ex : read_par true [Par "a" 1 0 9 false; Par "b" 2 0 9 false] (Raw "b!" 0 0 0) = Some (Par "b!" 2 0 9 true, Some 1%nat).
Proof. reflexivity. Qed.
Theorem C46_prefix_refuted : exists gs r base p l k, r_name r = (base ++ "!")%string /\ NoDup (map p_name gs) /\
  read_par true gs r = Some (p, Some l) /\ (k < List.length gs)%nat /\ p_name (nth k gs dpar) = base /\ p_name (nth l gs dpar) <> base.
Proof. exact prefix_refuted. Qed.
Print Assumptions C46_prefix_refuted.

(** C47.  For a file without fixed chemical potentials and electrostatics: after the start
    and any history of parameter vectors, the table holds the analytic functions at the
    current parameters - for every column that is not invariant, and for an invariant one
    as long as its parameters are those of the start. *)
Theorem C47_table_current_partial : forall fval cut grad xcoord steps f nt a,
  read_file f = Some a -> sizes_ok nt a -> cp_free a -> a_elstat a = None -> local fval grad a ->
  forall xi0 lst0 tab0 st xis x l t,
  file_update fval cut grad xcoord steps nt a true xi0 lst0 tab0 = Some st ->
  file_run fval cut grad xcoord steps nt a xis st = Some (x, l, t) ->
  forall i, (i < List.length (a_pots a))%nat ->
  (q_inv (nth i (a_pots a) (Pot false false [])) = false \/
   forall k, (k < npar_of a i)%nat -> params (npar_of a) x i k = params (npar_of a) (fst (fst st)) i k) ->
  file_holds fval cut xcoord steps a i x t.
Proof. exact file_current. Qed.
Print Assumptions C47_table_current_partial.
(** Current parameters: those of the last vector, uses of globals replaced. *)
Theorem C47_current_parameters : forall fval cut grad xcoord steps f nt a,
  read_file f = Some a -> sizes_ok nt a -> cp_free a -> a_elstat a = None -> local fval grad a ->
  forall xis y st x l t, file_run fval cut grad xcoord steps nt a (xis ++ [y]) st = Some (x, l, t) ->
  bound_to (npar_of a) (List.length (a_pots a)) (uses a) (Z.to_nat (l_global_idx (read_pot_table0 nt a))) y x.
Proof. exact file_params. Qed.
Print Assumptions C47_current_parameters.
(** No update fails as long as no function value is NaN and no width h is zero. *)
Theorem C47_update_total : forall fval cut grad xcoord steps f nt a,
  read_file f = Some a -> sizes_ok nt a -> cp_free a -> a_elstat a = None ->
  forall do_all xi lst tab,
  (forall i, (i < List.length (a_pots a))%nat -> q_smooth (nth i (a_pots a) (Pot false false [])) = true ->
     copy_globals (uses a) (pot_first a) (Z.to_nat (l_global_idx (read_pot_table0 nt a))) xi (off (npar_of a) i + 1 + npar_of a i)%nat <> 0) ->
  (forall i r p, fval i r p <> None) ->
  exists st, file_update fval cut grad xcoord steps nt a do_all xi lst tab = Some st.
Proof. exact file_total. Qed.
Print Assumptions C47_update_total.
(** An invariant potential with a parameter bound to a global keeps its old table although
    the parameter changes. *)
Theorem C47_invariant_global_refuted : exists fval cut grad xcoord steps f nt a,
  read_file f = Some a /\ sizes_ok nt a /\ cp_free a /\ a_elstat a = None /\ local fval grad a /\
  exists xi0 lst0 tab0 st xi x l t, file_update fval cut grad xcoord steps nt a true xi0 lst0 tab0 = Some st /\
  file_run fval cut grad xcoord steps nt a [xi] st = Some (x, l, t) /\ ~ file_holds fval cut xcoord steps a 0 x t.
Proof. exact invariant_global. Qed.
Print Assumptions C47_invariant_global_refuted.
Example C47_ex : read_file f_inv = Some a_inv /\ sizes_ok 1 a_inv /\ uses a_inv = [(0, (0, 0))]%nat /\ local w_fval (fun _ _ => 0) a_inv.
Proof. split; [exact f_inv_read|]. split; [repeat split; simpl; auto|]. split; [reflexivity|exact stale_local]. Qed.

(** C48.  For pair and EAM potentials the cutoff reaches the end of every function of the
    distance, with electrostatics also the electrostatic cutoff; the largest cutoff is at
    least each of them. *)
Theorem C48_cutoff_partial : forall m coul n pend i j, (m = MPair \/ m = MEam) ->
  (forall c, In c (reach m n i j) -> pend c <= rcut_of m coul n pend i j) /\
  (forall d, coul = Some d -> d <= rcut_of m coul n pend i j) /\
  ((i < n)%nat -> (j < n)%nat -> rcut_of m coul n pend i j <= rcutmax_of m coul n pend).
Proof.
  exact (fun m coul n pend i j H => conj (fun c => cutoff_covers m coul n pend i j c H)
    (conj (fun d E => eq_ind_r (fun o => d <= rcut_of m o n pend i j) (coulomb_covered m d n pend i j) E) (max_covers m coul n pend i j))).
Qed.
Print Assumptions C48_cutoff_partial.
Example C48_ex : reach MEam 2 1 0 = [1; 4; 3]%nat.
Proof. reflexivity. Qed.
(** TBEAM, ADP, MEAM and angular potentials: some function ends beyond even the largest
    cutoff. *)
Theorem C48_cutoff_refuted : forall m, In m [MTbeam; MAdp; MMeam; MAng] ->
  exists pend c, In c (reach m 1 0 0) /\ (forall k, 0 < pend k) /\ rcutmax_of m None 1 pend < pend c.
Proof. exact uncovered. Qed.
Print Assumptions C48_cutoff_refuted.
