(** Renewal of the splines in all force routines: C153. *)
From Coq Require Import Reals List Arith.
From Verif Require Import SplineModel SplineSpec UpdModel UpdSpec UpdProof.
Open Scope R_scope.

(** C153.  Analytic and equidistant tables: after the renewal every function of the potential
    is a twice continuously differentiable curve through its table, with the slope of the
    table at the left end, and at the right end the slope of the table (embedding and angular
    models) or zero; nothing outside of the columns is changed. *)
Theorem C153_equidistant : forall k fm t pc nt xi d2, fm = FAnalytic \/ fm = FEqDist -> laid_out t (total k pc nt) ->
  (forall c, (c < total k pc nt)%nat -> equidistant (col_of t d2 c)) ->
  exists d, renew k fm t pc nt xi d2 = Some d /\
    (forall p, ~ in_column t (total k pc nt) p -> d p = d2 p) /\
    forall c both, class_of (classes k pc nt) c = Some both ->
      smooth_curve (t_begin t c) (t_end t c) (xi (t_first t c - 2)%nat) (if both then xi (t_first t c - 1)%nat else 0)
        (splint_ed (col_of t d c) xi) (splint_grad_ed (col_of t d c) xi) /\
      forall i, (t_first t c <= i <= t_last t c)%nat ->
        splint_ed (col_of t d c) xi (t_begin t c + INR (i - t_first t c) * t_step t c) = Some (xi i).
Proof. exact curves_steps. Qed.
Print Assumptions C153_equidistant.
(** The same for tables with coordinates, in the routines of pair, EAM, two-band EAM and ADP
    potentials. *)
Theorem C153_points : forall k t pc nt xi d2, k = Pairs \/ k = Eam \/ k = Tbeam \/ k = Adp -> laid_out t (total k pc nt) ->
  (forall c, (c < total k pc nt)%nat -> listed (col_of t d2 c)) ->
  exists d, renew k FNonEqDist t pc nt xi d2 = Some d /\
    (forall p, ~ in_column t (total k pc nt) p -> d p = d2 p) /\
    forall c both, class_of (classes k pc nt) c = Some both ->
      smooth_curve (t_begin t c) (t_end t c) (xi (t_first t c - 2)%nat) (if both then xi (t_first t c - 1)%nat else 0)
        (fun r => Some (splint_ne (col_of t d c) xi r)) (fun r => Some (splint_grad_ne (col_of t d c) xi r)) /\
      forall i, (t_first t c <= i <= t_last t c)%nat -> splint_ne (col_of t d c) xi (t_xcoord t i) = xi i.
Proof. exact curves_points. Qed.
Print Assumptions C153_points.
Example C153_ex : laid_out ex_tabs (total Pairs 1 1) /\ forall d c, (c < total Pairs 1 1)%nat ->
  equidistant (col_of ex_tabs d c) /\ listed (col_of ex_tabs d c).
Proof. exact ex_laid. Qed.
(** The routines with charges stop with an error for every table with coordinates. *)
Theorem C153_charges : forall k t pc nt xi d2, k = Elstat \/ k = EamElstat -> (0 < pc)%nat ->
  renew k FNonEqDist t pc nt xi d2 = None.
Proof. exact elstat_points. Qed.
Print Assumptions C153_charges.
Theorem C153_charges_refuted : exists t pc nt, laid_out t (total Elstat pc nt) /\
  (forall d c, (c < total Elstat pc nt)%nat -> listed (col_of t d c)) /\
  forall xi d2, renew Elstat FNonEqDist t pc nt xi d2 = None.
Proof. exact elstat_stops. Qed.
Print Assumptions C153_charges_refuted.
