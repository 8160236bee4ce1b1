(** C129: the plot file shows every function of the potential. *)
From Coq Require Import Reals List.
From Verif Require Import TabModel SplineModel SplineSpec FuncModel PlotModel PlotSpec PlotProof.
Import ListNotations.
Local Open Scope R_scope.

(** Tabulated pair, EAM and ADP potentials: one block per column, in their order; all points
    are on the graph if the last value is zero or the function an embedding function. *)
Theorem C129_blocks_partial : forall n pt tab b, In b [Pairs; Eam; Adp] ->
  length (plot_tables NPLOT n pt tab b) = npots b n /\
  forall c, (c < npots b n)%nat -> listed (pt c) -> ((paircol n + n <= c < paircol n + 2 * n)%nat \/ tab (last (pt c)) = 0) ->
  exists l, nth_error (plot_tables NPLOT n pt tab b) c = Some l /\ graph l NPLOT (begin (pt c)) (endr (pt c)) (splint_ne (pt c) tab).
Proof. exact plot_complete'. Qed.
Print Assumptions C129_blocks_partial.
(** ... otherwise all but the last, where 0 is written. *)
Theorem C129_points_partial : forall n pt tab b, In b [Pairs; Eam; Adp] ->
  forall c, (c < npots b n)%nat -> ~ (paircol n + n <= c < paircol n + 2 * n)%nat ->
  exists l, nth_error (plot_tables NPLOT n pt tab b) c = Some l /\
    graph_zero l NPLOT (begin (pt c)) (endr (pt c)) (splint_ne (pt c) tab).
Proof. exact plot_points'. Qed.
Print Assumptions C129_points_partial.
Theorem C129_last_point_refuted : exists pt tab l, listed (pt 0%nat) /\ nth_error (plot_tables NPLOT 1 pt tab Pairs) 0 = Some l /\
  ~ graph l NPLOT (begin (pt 0%nat)) (endr (pt 0%nat)) (splint_ne (pt 0%nat) tab).
Proof. exact plot_last_refuted. Qed.
Print Assumptions C129_last_point_refuted.
Example C129_ex : listed flat_col /\ In Eam [Pairs; Eam; Adp] /\ (0 < npots Eam 1)%nat.
Proof. exact plot_ex. Qed.

(** MEAM: transfer and embedding functions are there twice. *)
Theorem C129_meam_twice_refuted : forall n pt tab, (1 <= n)%nat ->
  length (plot_tables NPLOT n pt tab Meam) = (npots Meam n + 2 * n)%nat /\
  nth_error (plot_tables NPLOT n pt tab Meam) (paircol n + 2 * n) = nth_error (plot_tables NPLOT n pt tab Meam) (paircol n).
Proof. exact plot_meam. Qed.
Print Assumptions C129_meam_twice_refuted.
(** Two-band EAM and angular potentials: functions are missing. *)
Theorem C129_missing_refuted : forall n pt tab,
  length (plot_tables NPLOT n pt tab Tbeam) = (npots Tbeam n - 2 * n)%nat /\
  length (plot_tables NPLOT n pt tab Ang) = (npots Ang n - (paircol n + n))%nat.
Proof. exact plot_missing. Qed.
Print Assumptions C129_missing_refuted.

(** Analytic potentials: one block per function, from plotmin (0.1 if not given) to the end. *)
Theorem C129_analytic : forall number plotmin fv smooth aend lastp,
  length (plot_analytic NPLOT number plotmin fv smooth aend lastp) = number /\
  forall i, (i < number)%nat -> exists l, nth_error (plot_analytic NPLOT number plotmin fv smooth aend lastp) i = Some l /\
  graph l NPLOT (if Req_EM_T plotmin 0 then 1 / 10 else plotmin) (aend i)
    (fun r => match fv i r with Some v => v * (if smooth i then apot_cutoff r (aend i) (lastp i) else 1) | None => BIG end).
Proof. exact plot_analytic_all. Qed.
Print Assumptions C129_analytic.
