(** C34-C40: normalised parameters, smooth cutoff, punishments, electrostatic functions,
    chemical potential. *)
From Coq Require Import Reals List Lra Lia Permutation Sorted.
From Verif Require Import Vec FuncModel FuncSpec FuncProof FuncProof2 FuncProof3.
Import ListNotations.
Local Open Scope R_scope.

(** C34.  Normalisation ends, moves phase angles into [0, 2 pi], orders the cutoffs of
    Tersoff functions, and changes no function value of the oscillating functions and no
    other parameter. *)
Theorem C34_normalised : forall tersoff pots p, exists n p',
  (forall m, (n <= m)%nat -> apot_check_params m tersoff pots p = Some p') /\
  forall i k s, nth_error pots i = Some (k, s) ->
    normal_form tersoff k (at_ p (offset 2 pots i)) (at_ p' (offset 2 pots i)) /\
    forall a, (offset 2 pots i + num_par k <= a < offset 2 pots i + (2 + num_par k + (if s then 1 else 0)))%nat -> p' a = p a.
Proof. exact normalised. Qed.
Print Assumptions C34_normalised.
Example C34_ex : nth_error [(Other 3, false); (Eopp, true)] 1 = Some (Eopp, true) /\ offset 2 [(Other 3, false); (Eopp, true)] 1 = 7%nat.
Proof. split; reflexivity. Qed.
(** A normalised angle can leave the bounds given for it... *)
Theorem C34_bounds_refuted : exists (lo hi x : R) n y, lo <= x <= hi /\
  (forall m, (n <= m)%nat -> norm_angle m x = Some y) /\ hi < y.
Proof. exact leaves_bounds. Qed.
Print Assumptions C34_bounds_refuted.
(** ... and with binary64 numbers the loop does not end: 2^60 *)
Theorem C34_termination_refuted : exists x, forall fuel, angle_down64 fuel x = None.
Proof. exact (ex_intro _ huge never_ends). Qed.
Print Assumptions C34_termination_refuted.

(** C35.  The factor lies in [0, 1), and a continuously differentiable function times the
    factor is continuously differentiable, with value and slope zero at and beyond the end. *)
Theorem C35_factor : forall r r0 h, 0 <= apot_cutoff r r0 h < 1 /\ (h <> 0 -> r < r0 -> 0 < apot_cutoff r r0 h).
Proof. exact (fun r r0 h => conj (cut_range r r0 h) (cut_positive r r0 h)). Qed.
Print Assumptions C35_factor.
Theorem C35_smooth : forall f df r0 h, h <> 0 ->
  (forall r, derivable_pt_lim f r (df r)) -> (forall r, continuity_pt df r) ->
  exists d, (forall r, derivable_pt_lim (fun r => f r * apot_cutoff r r0 h) r (d r)) /\ (forall r, continuity_pt d r) /\
  forall r, r0 <= r -> f r * apot_cutoff r r0 h = 0 /\ d r = 0.
Proof. exact cut_product. Qed.
Print Assumptions C35_smooth.
Example C35_ex : (forall r, derivable_pt_lim exp r (exp r)) /\ (forall r, continuity_pt exp r).
Proof. split; intros r; [apply derivable_pt_lim_exp|apply derivable_continuous_pt, derivable_pt_exp]. Qed.

(** C36.  Without functions that have punishments of their own, the punishment is ten
    million times the squared distance of each parameter from its range, summed. *)
Theorem C36_bounds : forall ndim idx pmin pmax par_p pot_p pvalue first,
  (forall i, (i < ndim)%nat -> pmin i <= pmax i) -> forall params forces,
  let s := apot_punish ndim idx pmin pmax par_p pot_p pvalue first [] [] params forces in
  psum s = rsumf (fun i => APOT_PUNISH * (outside (params (idx i)) (pmin i) (pmax i) * outside (params (idx i)) (pmin i) (pmax i))) (seq 0 ndim) /\
  (psum s = 0 <-> forall i, (i < ndim)%nat -> pmin i <= params (idx i) <= pmax i) /\ 0 <= psum s.
Proof. exact punish_bounds_only. Qed.
Print Assumptions C36_bounds.
(** With such functions the sum is as follows, unless two exponents are equal (division by
    zero). *)
Theorem C36_general : forall ndim idx pmin pmax par_p pot_p pvalue first,
  (forall i, (i < ndim)%nat -> pmin i <= pmax i) -> forall eopps universals params forces,
  (forall k, In k universals -> params (first k + 2)%nat <> params (first k + 1)%nat) ->
  let s := apot_punish ndim idx pmin pmax par_p pot_p pvalue first eopps universals params forces in
  pinf s = false /\
  psum s = rsumf (fun i => APOT_PUNISH * (outside (params (idx i)) (pmin i) (pmax i) * outside (params (idx i)) (pmin i) (pmax i))) (seq 0 ndim)
    + rsumf (fun k => eopp_pen pvalue (params (first k + 1)%nat - params (first k + 3)%nat)) eopps
    + rsumf (fun k => universal_pen pvalue (Rabs (params (first k + 2)%nat - params (first k + 1)%nat))) universals.
Proof. exact punish_sum. Qed.
Print Assumptions C36_general.
Example C36_ex : (forall i, (i < 2)%nat -> (fun _ : nat => -1) i <= (fun _ : nat => 1) i) /\ outside 3 (-1) 1 = 2.
Proof.
  split; [intros; lra|]. unfold outside. rewrite (Rmax_right (-1 - 3)) by lra. rewrite Rmax_right by lra. ring.
Qed.
(** For oscillating pair potentials wrongly ordered exponents can be free of punishment. *)
Theorem C36_eopp_refuted : exists (params : arr) (k : nat),
  params (k + 1)%nat < params (k + 3)%nat /\
  forall ndim idx pmin pmax par_p pot_p pvalue forces, (forall i, (i < ndim)%nat -> pmin i <= params (idx i) <= pmax i) ->
  psum (apot_punish ndim idx pmin pmax par_p pot_p pvalue (fun _ => k) [O] [] params forces) = 0.
Proof. exact eopp_unpunished. Qed.
Print Assumptions C36_eopp_refuted.

(** C37.  An entry of the deviation vector is written for a parameter out of range only;
    for a parameter in range it stays what it was... *)
Theorem C37_entries : forall ndim idx pmin pmax par_p pot_p pvalue first params forces i,
  (forall i, (i < ndim)%nat -> pmin i <= pmax i) -> (i < ndim)%nat ->
  let f := pforces (apot_punish ndim idx pmin pmax par_p pot_p pvalue first [] [] params forces) in
  (~ pmin i <= params (idx i) <= pmax i ->
     f (par_p + i)%nat = APOT_PUNISH * (outside (params (idx i)) (pmin i) (pmax i) * outside (params (idx i)) (pmin i) (pmax i))) /\
  (pmin i <= params (idx i) <= pmax i -> f (par_p + i)%nat = forces (par_p + i)%nat).
Proof. exact written_entries. Qed.
Print Assumptions C37_entries.
(** ... so that after an evaluation out of range the entry is stale. *)
Theorem C37_stale_refuted : exists (p1 p2 : arr) (par_p : nat),
  let run p f := pforces (apot_punish 1 (fun _ => O) (fun _ => 0) (fun _ => 1) par_p 5 1 (fun _ => O) [] [] p f) in
  psum (apot_punish 1 (fun _ => O) (fun _ => 0) (fun _ => 1) par_p 5 1 (fun _ => O) [] [] p2 (fun _ => 0)) = 0 /\
  run p2 (fun _ => 0) par_p = 0 /\ run p2 (run p1 (fun _ => 0)) par_p <> 0.
Proof. exact stale. Qed.
Print Assumptions C37_stale_refuted.

(** C38.  Value and gradient are zero at the cutoff; the gradient (divided by the distance)
    is the derivative of the value, and in dipole builds the second one that of the first. *)
Theorem C38_shift_zero : forall erfc kappa c dip,
  fst (fst (elstat_shift erfc dip c c kappa)) = 0 /\ snd (fst (elstat_shift erfc dip c c kappa)) = 0 /\
  snd (elstat_shift erfc dip c c kappa) = 0.
Proof. exact shift_at_cut. Qed.
Print Assumptions C38_shift_zero.
Theorem C38_shift_gradient : forall erfc X kappa,
  (forall x, 0 < x < X -> derivable_pt_lim erfc x (- 2 / sqrt PI * exp (- (x * x)))) -> 0 < kappa ->
  forall c dip r, 0 < r -> kappa * r < X ->
  derivable_pt_lim (fun r => fst (fst (elstat_shift erfc dip c r kappa))) r (r * snd (fst (elstat_shift erfc dip c r kappa))).
Proof. exact shift_deriv. Qed.
Print Assumptions C38_shift_gradient.
Theorem C38_shift_second : forall erfc X kappa,
  (forall x, 0 < x < X -> derivable_pt_lim erfc x (- 2 / sqrt PI * exp (- (x * x)))) -> 0 < kappa ->
  forall c r, 0 < r -> kappa * r < X ->
  derivable_pt_lim (fun r => snd (fst (elstat_shift erfc true c r kappa))) r (r * snd (elstat_shift erfc true c r kappa)).
Proof. exact shift_deriv2. Qed.
Print Assumptions C38_shift_second.
(** the same for damped shifted forces *)
Theorem C38_dsf_zero : forall erfc kappa c, 0 < c ->
  fst (fst (elstat_dsf erfc false c c kappa)) = 0 /\ snd (fst (elstat_dsf erfc false c c kappa)) = 0.
Proof. exact dsf_at_cut. Qed.
Print Assumptions C38_dsf_zero.
Theorem C38_dsf_gradient : forall erfc X kappa,
  (forall x, 0 < x < X -> derivable_pt_lim erfc x (- 2 / sqrt PI * exp (- (x * x)))) -> 0 < kappa ->
  forall c r, 0 < r -> kappa * r < X ->
  derivable_pt_lim (fun r => fst (fst (elstat_dsf erfc false c r kappa))) r (r * snd (fst (elstat_dsf erfc false c r kappa))).
Proof. exact dsf_deriv. Qed.
Print Assumptions C38_dsf_gradient.
(** the short-range part of dipole moments *)
Theorem C38_shortrange_gradient : forall b c r, 0 < r ->
  derivable_pt_lim (fun r => fst (shortrange_term r b c)) r (r * snd (shortrange_term r b c)).
Proof. exact shortrange_deriv. Qed.
Print Assumptions C38_shortrange_gradient.
Example C38_ex : forall X, exists erfc, forall x, 0 < x < X -> derivable_pt_lim erfc x (- 2 / sqrt PI * exp (- (x * x))).
Proof. exact erfc_exists. Qed.

(** C39.  The values are zero at the cutoff, the slopes are not: [(c - 1) g] and
    [(1 - c) g] with the gradient g at the cutoff c. *)
Theorem C39_values_zero : forall p c, ms_value c c p = 0 /\ buck_value c c p = 0.
Proof. exact (fun p c => conj (ms_cut p c) (buck_cut p c)). Qed.
Print Assumptions C39_values_zero.
Theorem C39_ms_slope_partial : forall (p : arr) c s, 0 < c -> p 2%nat <> 0 ->
  derivable_pt_lim (fun r => ms_value c r p) c s -> s = (c - 1) * snd (ms_init c p).
Proof. exact ms_slope. Qed.
Print Assumptions C39_ms_slope_partial.
Theorem C39_buck_slope_partial : forall (p : arr) c s, 0 < c -> p 1%nat <> 0 ->
  derivable_pt_lim (fun r => buck_value c r p) c s -> s = (1 - c) * snd (buck_init c p).
Proof. exact buck_slope. Qed.
Print Assumptions C39_buck_slope_partial.
Example C39_ex : derivable_pt_lim (fun r => ms_value 10 r (fun _ => 1)) 10 (10 * snd (ms_init 10 (fun _ => 1)) - snd (ms_init 10 (fun _ => 1))).
Proof. apply ms_deriv; lra. Qed.
(** with the default cutoff *)
Theorem C39_ms_refuted : exists p : arr, 0 < p 2%nat /\ ~ derivable_pt_lim (fun r => ms_value 10 r p) 10 0.
Proof. exact ms_kink. Qed.
Print Assumptions C39_ms_refuted.
Theorem C39_buck_refuted : exists p : arr, 0 < p 1%nat /\ ~ derivable_pt_lim (fun r => buck_value 10 r p) 10 0.
Proof. exact buck_kink. Qed.
Print Assumptions C39_buck_refuted.

(** C40.  Sorting ends with a sorted rearrangement of the nodes (with their values and
    bounds). *)
Theorem C40_sorted : forall fuel l, (length l * length l < fuel)%nat ->
  exists m, sort_chem_pot fuel l = Some m /\ Permutation l m /\ Sorted le_comp m.
Proof. exact (fun fuel l H => sort_spec fuel l (Nat.le_lt_trans _ _ _ (inv_bound l) H)). Qed.
Print Assumptions C40_sorted.
(** Without nodes the energy is linear; left of the first and right of the last node it is
    the interpolation. *)
Theorem C40_no_nodes : forall values n0 n1,
  chemical_potential_2d [] values n0 n1 = INR n0 * values 0%nat + INR n1 * values 1%nat.
Proof. exact chempot_no_nodes. Qed.
Print Assumptions C40_no_nodes.
Theorem C40_first_partial : forall c nodes values n0 n1, (0 < n0)%nat -> (0 < n1)%nat -> 0 < c ->
  let x := INR n1 / INR (n0 + n1) in x <= c ->
  chemical_potential_2d (c :: nodes) values n0 n1 = line 0 (values 0%nat) c (values 2%nat) x * INR (n0 + n1).
Proof. exact chempot_first. Qed.
Print Assumptions C40_first_partial.
Theorem C40_last_partial : forall c nodes values n0 n1, (0 < n0)%nat -> (0 < n1)%nat ->
  let x := INR n1 / INR (n0 + n1) in (forall a, In a (nodes ++ [c]) -> a < x) ->
  chemical_potential_2d (nodes ++ [c]) values n0 n1 = line c (values (2 + length nodes)%nat) 1 (values 1%nat) x * INR (n0 + n1).
Proof. exact chempot_last. Qed.
Print Assumptions C40_last_partial.
Example C40_ex : INR 1 / INR (1 + 1) <= 2 / 3 /\ forall a, In a ([1 / 4] ++ [1 / 3]) -> a < INR 1 / INR (1 + 1).
Proof. simpl. split; [lra|]. intros a [<-|[<-|[]]]; lra. Qed.
(** Between two nodes it is not: at the second node it has the value of the first. *)
Theorem C40_between_refuted : exists c1 c2 (values : arr) n0 n1, 0 < c1 < c2 /\ c2 < 1 /\
  INR n1 / INR (n0 + n1) = c2 /\ values 2%nat <> values 3%nat /\
  chemical_potential_2d [c1; c2] values n0 n1 = values 2%nat * INR (n0 + n1).
Proof. exact chempot_wrong. Qed.
Print Assumptions C40_between_refuted.
