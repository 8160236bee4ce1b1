(** C13-C16: simulated annealing. *)
From Coq Require Import List Arith QArith Qabs.
From Verif Require Import ListUtil DiffEvoModel SimannModel SimannNorm SimannProof SimannProof2.
Import ListNotations.
Local Open Scope nat_scope.

(** C13, runs without rescaling and with a given start temperature: whatever the moves,
    Metropolis decisions and flag files, the vector left behind has the lowest cost of all
    evaluations of the run ([seen]), the start among them. *)
Theorem C13_best_of_all_seen : forall G bld costf ndim idxp move accept flag g x todo g' x' s,
  sa_run G bld costf None ndim idxp move accept flag g x todo = Some (g', x', s) ->
  g' = g /\ (forall f, In f (seen G s) -> (costf g' x' <= f)%Q) /\ In (costf g' x') (seen G s) /\
  (costf g' x' <= costf g x)%Q.
Proof. exact best_of_all. Qed.
Print Assumptions C13_best_of_all_seen.

(** The cost the Metropolis test works with is the cost of the current vector. *)
Theorem C13_current_cost : forall G bld costf ndim idxp move accept flag g x todo s,
  (bld = BApot -> forall k h y v, h < ndim ->
     fst (move k h y v) = upd y (idxp h) (nth (idxp h) (fst (move k h y v)) 0%Q)) ->
  sa_loop G bld costf None ndim idxp move accept flag todo 0 (repeat (costf g x) NEPS)
    (sa_init G costf ndim g x) = Some s ->
  fcur G s = costf g (xi G s).
Proof. exact current_cost. Qed.
Print Assumptions C13_current_cost.
(** Not with a Tersoff potential: the evaluation exchanges S and R of the trial vector, and only
    the parameter that was moved is taken over. *)
Theorem C13_current_cost_refuted : exists (costf : unit -> list Q -> Q) change x s,
  (forall g y, costf g (swap_cut y) == costf g y)%Q /\
  sa_loop unit BApot costf None 2 (fun h => h) (norm_move change) (fun _ => false) (fun _ _ => false) 6 0
    (repeat (costf tt x) NEPS) (sa_init unit costf 2 tt x) = Some s /\
  (fcur unit s < costf tt (xi unit s))%Q.
Proof. exact current_cost_normalised_refuted. Qed.
Print Assumptions C13_current_cost_refuted.

(** With rescaling, MEAM builds (which save the sampling points of the optimum): never
    worse than the start. *)
Theorem C13_meam_rescale_not_worse : forall G bld costf ndim idxp move accept flag resc g x todo g' x' s,
  bld = BMeam ->
  sa_run G bld costf resc ndim idxp move accept flag g x todo = Some (g', x', s) ->
  (costf g' x' <= costf g x)%Q.
Proof. exact meam_not_worse. Qed.
Print Assumptions C13_meam_rescale_not_worse.

(** With rescaling, other tabulated builds: the optimum is put back without its sampling
    points, so that even a rescaling that leaves every cost unchanged makes the result worse
    than the start. *)
Theorem C13_rescale_refuted : exists (costf : Q -> list Q -> Q) resc ndim idxp move accept flag g x g' x' s,
  (forall g x g' x', resc g x = Some (g', x') -> (costf g' x' == costf g x)%Q) /\
  sa_run Q BTab costf (Some resc) ndim idxp move accept flag g x 1 = Some (g', x', s) /\
  (costf g x < costf g' x')%Q.
Proof. exact rescale_refuted. Qed.
Print Assumptions C13_rescale_refuted.

(** With automatic start temperature the trial moves can find a better vector that is
    thrown away. *)
Theorem C13_auto_temperature_refuted : exists (costf : unit -> list Q -> Q) move1 move2 accept flag x x' s f,
  In f (auto_seen unit costf move1 (10 * 1) (fun _ => 0) tt x [1#10]%Q) /\
  sa_run unit BApot costf None 1 (fun h => h) move2 accept flag tt x KMAX = Some (tt, x', s) /\
  (f < costf tt x')%Q.
Proof. exact auto_refuted. Qed.
Print Assumptions C13_auto_temperature_refuted.

Example C13_ex : exists x' s, sa_run unit BApot wa_cost None 1 (fun h => h)
  (fun k _ x v => ([nth 0 x 0 - (1 # Pos.of_succ_nat k)]%Q, v)) (fun _ => false) (fun _ m => m =? 2) tt [10]%Q 5
  = Some (tt, x', s) /\ (wa_cost tt x' < 10)%Q.
Proof. eexists. eexists. split; vm_compute; reflexivity. Qed.

(** C14: the run ends, for every build and with rescaling, and the number of evaluations is
    bounded. *)
Theorem C14_terminates : forall G bld costf ndim idxp move accept flag resc g x, exists g' x' s,
  sa_run G bld costf resc ndim idxp move accept flag g x KMAX = Some (g', x', s) /\
  length (seen G s) <= 1 + KMAX * (3 * ndim * (20 * ndim + 1) + 1).
Proof. exact sa_terminates. Qed.
Print Assumptions C14_terminates.

(** C15, bounded builds: entries that are no free parameters are the same after a whole run,
    provided each move changes only its free parameter. *)
Theorem C15_bounded_fixed_unchanged : forall G bld costf ndim idxp move accept flag resc g x todo g' x' s p,
  bld = BApot -> resc = None ->
  (forall k h y v q, h < ndim -> (forall j, j < ndim -> q <> idxp j) ->
     nth q (fst (move k h y v)) 0%Q = nth q y 0%Q) ->
  (forall j, j < ndim -> p <> idxp j) ->
  sa_run G bld costf resc ndim idxp move accept flag g x todo = Some (g', x', s) ->
  nth p x' 0%Q = nth p x 0%Q.
Proof. exact fixed_unchanged. Qed.
Print Assumptions C15_bounded_fixed_unchanged.

(** C15, tabulated potentials: a move changes only free entries, as long as its window ends
    before the last free parameter or the index one past the end names a free entry. *)
Theorem C15_tab_move_partial : forall idx ndim first last n amount m xi xi', n < ndim ->
  tab_move idx ndim first last n m amount xi = Some xi' ->
  forall q, ~ free idx ndim q -> (n + m < ndim \/ nth_error idx ndim <> Some q) ->
  nth q xi' 0%Q = nth q xi 0%Q.
Proof. exact tab_move_free. Qed.
Print Assumptions C15_tab_move_partial.

(** A wide move reads the (zero) index behind the last free parameter and moves entry 0,
    the fixed end gradient. *)
Theorem C15_tab_move_refuted : exists idx ndim first last n m amount xi xi' q,
  n < ndim /\ ndim < length idx /\ (forall k, ndim <= k -> k < length idx -> nth_error idx k = Some 0) /\
  tab_move idx ndim first last n m amount xi = Some xi' /\
  ~ free idx ndim q /\ ~ (nth q xi' 0 == nth q xi 0)%Q.
Proof. exact tab_refuted. Qed.
Print Assumptions C15_tab_move_refuted.

(** C16: in bounds if one of the ten attempts is; never further than the step width and the
    width of the interval. *)
Theorem C16_move_in_bounds_partial : forall x lo hi v us,
  (exists u, In u (firstn 10 us) /\ (lo <= x + (2 * u - 1) * cap_step v lo hi <= hi)%Q) ->
  (lo <= apot_move x lo hi v us <= hi)%Q.
Proof. exact move_in_bounds. Qed.
Print Assumptions C16_move_in_bounds_partial.

Theorem C16_move_distance : forall x lo hi v us, (lo <= hi)%Q -> (0 <= v)%Q ->
  (forall u, In u us -> (0 <= u <= 1)%Q) -> us <> [] ->
  (Qabs (apot_move x lo hi v us - x) <= hi - lo)%Q /\ (Qabs (apot_move x lo hi v us - x) <= v)%Q.
Proof. exact move_distance. Qed.
Print Assumptions C16_move_distance.

(** Ten unlucky attempts leave the interval. *)
Theorem C16_move_refuted : exists x lo hi v us, (lo <= x <= hi)%Q /\ (0 < v)%Q /\
  (forall u, In u us -> (0 <= u < 1)%Q) /\ length us = 10 /\ (apot_move x lo hi v us < lo)%Q.
Proof. exact move_out. Qed.
Print Assumptions C16_move_refuted.

Example C16_ex : (0 <= apot_move 0 0 1 (1#10) [1#4; 3#4] <= 1)%Q.
Proof. apply C16_move_in_bounds_partial. exists (3#4)%Q. split; [right; left; reflexivity|].
  split; vm_compute; discriminate. Qed.

(** C15: the step width of a parameter stays positive, grows exactly for more than 12 and
    shrinks exactly for less than 8 accepted moves of the last 20, at most by a factor of 3;
    and there are never more than 20. *)
Theorem C15_step_width : forall na v, na <= NSTEP -> (0 < v)%Q ->
  (v / 3 <= adjust1 na v /\ adjust1 na v <= 3 * v /\
   (v < adjust1 na v <-> (12 < na)%nat) /\ (adjust1 na v < v <-> (na < 8)%nat))%Q.
Proof. exact adjust_spec. Qed.
Print Assumptions C15_step_width.
Theorem C15_accepted_count : forall G bld costf ndim idxp move accept s k, nth k (nacc G s) 0 = 0 ->
  nth k (nacc G (fold_left (fun s _ => fold_left (sa_param G bld costf idxp move accept) (seq 0 ndim) s) (seq 0 NSTEP) s)) 0 <= NSTEP.
Proof. exact nacc_bound. Qed.
Print Assumptions C15_accepted_count.
Example C15_ex2 : 7 <= NSTEP /\ (0 < 1)%Q.
Proof. split; [repeat constructor|reflexivity]. Qed.
