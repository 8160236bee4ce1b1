(** C127: the end potential is the one whose errors are reported. *)
From Coq Require Import Reals ZArith List String.
From Verif Require Import ApotModel ApotSpec ApotProof ApotProof2 ApotProof3 ApotProof4 ApotProof5 RunModel RunProof.
Import ListNotations.
Local Open Scope R_scope.

(** Analytic potentials: unless the global search already found an error sum below 1e-12 (and it
    was not annealing with a temp file), the values written are those of a vector with the
    error sum reported. *)
Theorem C127_end_potential_partial : forall f nt a, read_file f = Some a -> sizes_ok nt a -> cp_free a -> no_clash a ->
  forall cf, (forall x, fst (cf (snd (cf x))) = fst (cf x)) ->
  forall i s tot x v, main_run KApot a (read_pot_table0 nt a) cf i s = (tot, x, v) -> describes nt a (s_vals s) (s_tab s) ->
  (i_opt i = true -> forall evs best, i_search i = Some (evs, best) -> perfect cf best -> i_method i = SA /\ i_tempfile i = true) ->
  exists w, describes nt a v w /\ fst (cf w) = tot.
Proof. exact end_potential. Qed.
Print Assumptions C127_end_potential_partial.
Example C127_ex : read_file (RawFile true None None None [] [RawPot 1 false false [Raw "x" 1 0 9]]) = Some (Apot [Pot false false [(Par "x" 1 0 9 false, None)]] None None None []) /\
  let a := Apot [Pot false false [(Par "x" 1 0 9 false, None)]] None None None [] in sizes_ok 1 a /\ cp_free a /\ no_clash a /\ free_par a 0 0.
Proof. exact end_ex. Qed.

(** Otherwise the start values are written although the errors of the fit are reported. *)
Theorem C127_start_written_refuted : forall m t, ~ (m = SA /\ t = true) ->
  exists nt a cf i s tot x v, sizes_ok nt a /\ cp_free a /\ no_clash a /\ describes nt a (s_vals s) (s_tab s) /\
  i_method i = m /\ i_tempfile i = t /\
  main_run KApot a (read_pot_table0 nt a) cf i s = (tot, x, v) /\ (forall y, snd (cf y) = y) /\
  tot = 0 /\ forall w, describes nt a v w -> fst (cf w) = 1.
Proof. exact end_refuted. Qed.
Print Assumptions C127_start_written_refuted.

(** Tabulated potentials. *)
Theorem C127_table : forall a l cf i s tot x v, main_run KTab a l cf i s = (tot, x, v) ->
  (forall y, snd (cf y) = y) -> fst (cf x) = tot.
Proof. exact end_table. Qed.
Print Assumptions C127_table.
