(** C128: the self energy of a charge is its interaction with its own screening charge. *)
From Coq Require Import Reals.
From Verif Require Import FuncModel ElModel SelfProof.
Local Open Scope R_scope.

(** Damped shifted force: the coefficient is minus half of what the pair function has at distance
    zero beyond the bare Coulomb term. *)
Theorem C128_self_energy_dsf_partial : forall erfc kappa rc, erfc 0 = 1 -> derivable_pt_lim erfc 0 (- 2 / sqrt PI) -> 0 < kappa ->
  limit1_in (fun r => fst (fst (elstat_dsf erfc false rc r kappa)) - DP_EPS / r) (fun r => 0 < r) (- 2 * self_factor erfc true rc kappa) 0.
Proof. exact self_dsf. Qed.
Print Assumptions C128_self_energy_dsf_partial.

(** Plain shift: what holds ... *)
Theorem C128_self_energy_shift_partial : forall erfc kappa rc, erfc 0 = 1 -> derivable_pt_lim erfc 0 (- 2 / sqrt PI) -> 0 < kappa ->
  limit1_in (fun r => fst (fst (elstat_shift erfc false rc r kappa)) - DP_EPS / r) (fun r => 0 < r)
    (- 2 * self_factor erfc false rc kappa - (let '(fc, gc, _) := elstat_value erfc rc kappa in fc - rc * rc * gc / 2)) 0.
Proof. exact self_shift. Qed.
Print Assumptions C128_self_energy_shift_partial.
(** ... and the constant is never zero. *)
Theorem C128_self_energy_shift_refuted : forall erfc kappa rc, erfc 0 = 1 -> derivable_pt_lim erfc 0 (- 2 / sqrt PI) -> 0 < kappa -> 0 < rc ->
  0 < erfc (kappa * rc) ->
  ~ limit1_in (fun r => fst (fst (elstat_shift erfc false rc r kappa)) - DP_EPS / r) (fun r => 0 < r) (- 2 * self_factor erfc false rc kappa) 0.
Proof. exact self_shift_refuted. Qed.
Print Assumptions C128_self_energy_shift_refuted.
Example C128_ex : forall X, 0 < X -> exists erfc, erfc 0 = 1 /\
  forall x, - X < x < X -> derivable_pt_lim erfc x (- 2 / sqrt PI * exp (- (x * x))).
Proof. exact erfc_exists0. Qed.
