(** C158-C161: evaluation of KIM models. *)
From Coq Require Import Reals ZArith List Bool Lra.
From Verif Require Import KevModel KevSpec KevProof.
Import ListNotations.
Local Open Scope R_scope.

(** C158.  The error sum is the sum of the squares of the entries of the deviation vector
    (forces of contributing atoms, energies, stresses) and of 10^7 times the squared distances
    of the parameters to their intervals. *)
Theorem C158_error_sum : forall stress fweight eweight sweight cs ps, (forall x mn mx, In (x, mn, mx) ps -> mn <= mx) ->
  kim_error stress fweight eweight sweight cs ps =
    sum_over (fun cr => let '(c, r) := cr in
      sum_to (c_atoms c) (fun i => if c_contrib c i then sum_to 3 (fun k => Rsqr (force_entry fweight c r i k)) else 0) +
      Rsqr (energy_entry eweight c r) + sum_to 6 (fun k => Rsqr (stress_entry stress sweight c r k))) cs
    + 10 ^ 7 * sum_over outside ps.
Proof. exact error_sum. Qed.
Print Assumptions C158_error_sum.
(** The entries are the weighted deviations. *)
Theorem C158_entries : forall stress fweight eweight sweight c r,
  (forall i k, fweight = false -> c_uf c = true ->
     force_entry fweight c r i k = sqrt (c_weight c) * (r_f r i k - c_f0 c i k)) /\
  (forall i k, fweight = true -> c_uf c = true ->
     force_entry fweight c r i k = sqrt (c_weight c) * (r_f r i k - c_f0 c i k) / (1 / 10 + c_abs c i)) /\
  (forall i k, c_uf c = false -> force_entry fweight c r i k = 0) /\
  energy_entry eweight c r = sqrt (c_weight c * eweight) * (r_e r - c_e0 c) /\
  (forall k, stress = true -> c_uf c = true -> c_us c = true ->
     stress_entry stress sweight c r k = sqrt (c_weight c * sweight) * (r_v r k / c_vol c - c_s0 c k)) /\
  (forall k, stress = false \/ c_uf c = false \/ c_us c = false -> stress_entry stress sweight c r k = 0).
Proof. exact entries. Qed.
Print Assumptions C158_entries.
Example C158_ex : kim_error false false 1 1
    [(Conf 1 4 true false 1 (fun _ _ => 0) 1 (fun _ => 0) (fun _ => 0) (fun _ => true), Result (fun _ _ => 1) 3 (fun _ => 0))]
    [(2, 0, 1); (1, 0, 1)] = 28 + 10 ^ 7.
Proof.
  rewrite error_sum.
  - cbn [sum_over sum_to c_atoms c_contrib]. unfold force_entry, energy_entry, stress_entry, outside. cbn [c_uf c_weight c_f0 c_e0 r_f r_e andb].
    replace (4 * 1) with (2 * 2) by lra. replace 4 with (2 * 2) by lra. rewrite sqrt_square by lra.
    replace (Rmax (Rmax (0 - 2) (2 - 1)) 0) with 1 by (rewrite (Rmax_right (0 - 2)) by lra; rewrite Rmax_left; lra).
    replace (Rmax (Rmax (0 - 1) (1 - 1)) 0) with 0 by (rewrite (Rmax_right (0 - 1)) by lra; rewrite Rmax_right; lra).
    unfold Rsqr. lra.
  - intros x mn mx [E|[E|[]]]; injection E as <- <- <-; lra.
Qed.

(** C159.  Two atoms of energy -3 each and a reference of -3: the energy of the cell, not
    that of an atom, is compared with it. *)
Theorem C159_per_atom_refuted : exists c r, c_weight c = 1 /\ c_atoms c = 2%nat /\
  r_e r / INR (c_atoms c) = c_e0 c /\ forall eweight, 0 < eweight -> energy_entry eweight c r <> 0.
Proof. exact energy_per_atom. Qed.
Print Assumptions C159_per_atom_refuted.

(** C160.  Stresses: virial of the KIM API (positive sign; xx yy zz yz xz xy) against
    reference stresses as in all other routines (negative sign; xx yy zz xy yz zx).  For
    references that agree with the model the entries are the following. *)
Theorem C160_stresses : forall sweight c r t, c_uf c = true -> c_us c = true -> (forall a b, t a b = t b a) ->
  (forall k, r_v r k = kim_order t k) -> (forall k, c_s0 c k = - potfit_order t k / c_vol c) ->
  let w := sqrt (c_weight c * sweight) in
  (forall k, (k < 3)%nat -> stress_entry true sweight c r k = w * (2 * t k k / c_vol c)) /\
  stress_entry true sweight c r 3 = w * ((t 1%nat 2%nat + t 0%nat 1%nat) / c_vol c) /\
  stress_entry true sweight c r 4 = w * ((t 2%nat 0%nat + t 1%nat 2%nat) / c_vol c) /\
  stress_entry true sweight c r 5 = w * ((t 0%nat 1%nat + t 2%nat 0%nat) / c_vol c).
Proof. exact stress_entries. Qed.
Print Assumptions C160_stresses.
Theorem C160_stresses_refuted : exists c r t, c_uf c = true /\ c_us c = true /\ c_weight c = 1 /\ c_vol c = 1 /\
  (forall a b, t a b = t b a) /\ (forall k, r_v r k = kim_order t k) /\
  (forall k, c_s0 c k = - potfit_order t k / c_vol c) /\
  forall sweight, 0 < sweight -> forall k, (k < 6)%nat -> stress_entry true sweight c r k <> 0.
Proof. exact stress_conventions. Qed.
Print Assumptions C160_stresses_refuted.

(** C161.  The neighbour lists are made once.  As long as the run goes on, no distance of the
    model exceeds the radius of the lists. *)
Theorem C161_lists_suffice : forall f flags k0 rcut ks st k, read_max_cutoff flags k0 = Some rcut ->
  history f k0 ks = Some st -> In k ks ->
  k_infl k <= rcut /\ forall a, In a (k_lists k) -> a <= rcut.
Proof. exact lists_suffice. Qed.
Print Assumptions C161_lists_suffice.
Theorem C161_history : forall f ks k0 st, history f k0 ks = Some st ->
  (forall k, In k ks -> covered k0 k) /\ st = last ks k0.
Proof. exact history_covered. Qed.
Print Assumptions C161_history.
(** A radius that shrinks and returns to its first value stops the run, although the lists
    would suffice. *)
Theorem C161_return_refuted : exists k0 k1, covered k0 k1 /\ covered k0 k0 /\
  history true k0 [k1] = Some k1 /\ history true k0 [k1; k0] = None.
Proof. exact back_stops. Qed.
Print Assumptions C161_return_refuted.
(** The list of the asked atom; padding atoms are refused, except the first one: it gets the
    list of the first atom of the next configuration (or of no atom at all). *)
Theorem C161_get_neigh : forall n s p, (0 <= p)%Z ->
  ((p < n)%Z -> get_neigh n s p = Of (s + p)) /\ ((n < p)%Z -> get_neigh n s p = Stop) /\
  get_neigh n s n = Of (s + n).
Proof. exact neighbours_of. Qed.
Print Assumptions C161_get_neigh.
Example C161_ex : history true (Cuts [2] 3) [Cuts [1] 3; Cuts [1] 2] = Some (Cuts [1] 2) /\ read_max_cutoff [true] (Cuts [2] 3) = Some 3.
Proof.
  unfold history, check_cutoffs, list_cutoffs, one_cutoff, read_max_cutoff. cbn [k_infl k_lists forallb max_from andb].
  destruct (Req_EM_T 3 3); [|lra]. destruct (Req_EM_T 2 1); [lra|]. destruct (Rlt_dec 1 2); [|lra]. cbn [option_map k_infl k_lists].
  destruct (Req_EM_T 3 2); [lra|]. destruct (Rlt_dec 2 3); [|lra]. destruct (Req_EM_T 1 1); [|lra]. cbn [option_map].
  destruct (Rlt_dec 3 2); [lra|]. split; reflexivity.
Qed.
