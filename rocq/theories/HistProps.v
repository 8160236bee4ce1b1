(** C164: the file of the binned distribution. *)
From Coq Require Import Reals ZArith List Bool Arith Lia Lra.
From Verif Require Import HistModel HistSpec HistProof.
From Verif Require PairIndexModel HistProof2.
Import ListNotations.
Local Open Scope R_scope.

(** Every line of the file has the number of arguments between its two points. *)
Theorem C164_histogram : forall eqdist rescale eam ntypes tab ncols n atoms,
  (forall c, (c < ncols)%nat -> sound eqdist (tab c) /\ (t_last (tab c) < n)%nat) ->
  (forall c c', (c < c')%nat -> (c' < ncols)%nat -> (t_last (tab c) < t_first (tab c'))%nat) ->
  (forall a, In a atoms -> placed eam ntypes tab ncols a) ->
  exists f, bindist eqdist rescale eam ntypes tab n atoms = Counted f /\
  forall c i, (c < ncols)%nat -> (t_first (tab c) <= i < t_last (tab c))%nat ->
    f i = hits tab c i (flat_map (arguments eam ntypes) atoms).
Proof. exact (fun e r m ty tab nc n atoms T D => histogram e r m ty tab nc n T D atoms). Qed.
Print Assumptions C164_histogram.
Example C164_histogram_ex :
  (forall c, (c < 3)%nat -> sound true (tab2 c) /\ (t_last (tab2 c) < 6)%nat) /\
  (forall c c', (c < c')%nat -> (c' < 3)%nat -> (t_last (tab2 c) < t_first (tab2 c'))%nat) /\
  placed true 1 tab2 3 (Atom 0 (1 / 2) [(0%nat, 1 / 3); (0%nat, 2)]).
Proof.
  split; [intros c C; split; [apply tab2_sound|cbn; lia]|]. split; [intros c c' A B; cbn; lia|].
  split; [|intros _; cbn; split; [lia|lra]]. intros typ r [H|[H|[]]]; injection H as <- <-; cbn; (split; [lia|]); (split; [lra|]); intros _; (split; [lia|lra]).
Qed.

(** Line j of a column: the middle of the points first + j and first + j + 1, and the count. *)
Theorem C164_lines : forall f t j, (j < t_last t - t_first t)%nat ->
  nth_error (lines f t) j = Some (1 / 2 * (t_x t (t_first t + j) + t_x t (S (t_first t + j))), f (t_first t + j)%nat).
Proof. exact lines_nth. Qed.
Print Assumptions C164_lines.
Example C164_lines_ex : (0 < t_last (tab2 1) - t_first (tab2 1))%nat.
Proof. cbn. lia. Qed.

(** Densities outside of the table.  Below: first interval, or an error with RESCALE.  Above:
    the element of the last point in format 3, the last interval in format 4. *)
Theorem C164_below : forall t v, sound true t -> v < t_begin t ->
  embed_slot true false t v = Some (t_first t) /\ embed_slot true true t v = None.
Proof. exact below_begin. Qed.
Print Assumptions C164_below.
Example C164_below_ex : sound true (tab2 2) /\ -1 < t_begin (tab2 2).
Proof. split; [apply tab2_sound|cbn; lra]. Qed.
Theorem C164_above : forall t v, sound true t -> t_end t <= v -> embed_slot true false t v = Some (t_last t).
Proof. exact beyond_end. Qed.
Print Assumptions C164_above.
Example C164_above_ex : sound true (tab2 2) /\ t_end (tab2 2) <= 1.
Proof. split; [apply tab2_sound|cbn; lra]. Qed.
Theorem C164_above_4 : forall rs t v, sound false t -> t_end t <= v -> embed_slot false rs t v = Some (t_last t - 1)%nat.
Proof. exact beyond_end_4. Qed.
Print Assumptions C164_above_4.
Example C164_above_4_ex : sound false (tab2 2) /\ t_end (tab2 2) <= 3.
Proof. split; [apply tab2_sound|cbn; lra]. Qed.

(** A density at the end of the table is counted in an element of which no line is written. *)
Theorem C164_density_lost_refuted : exists f, bindist true false true 1 tab2 6 [Atom 0 1 []] = Counted f /\ f 5%nat = 1%nat /\
  forall c i, (c < 3)%nat -> (t_first (tab2 c) <= i < t_last (tab2 c))%nat -> f i = 0%nat.
Proof. exact density_lost. Qed.
Print Assumptions C164_density_lost_refuted.

(** With RESCALE a density above the table is counted outside of the array. *)
Theorem C164_rescale_refuted : exists a, bindist true true true 1 tab2 6 [a] = Undefined.
Proof. exact (ex_intro _ _ rescale_out). Qed.
Print Assumptions C164_rescale_refuted.

(** The columns of the pair functions are those of C01. *)
Theorem C164_column : forall n, Z.of_nat (paircol n) = PairIndexModel.paircol (Z.of_nat n) /\
  forall a b, (a < n)%nat -> (b < n)%nat ->
    Z.of_nat (pair_column n a b) = PairIndexModel.pair_index (Z.of_nat n) (Z.of_nat a) (Z.of_nat b).
Proof. exact HistProof2.columns_are. Qed.
Print Assumptions C164_column.
Example C164_column_ex : (2 < 3)%nat /\ (1 < 3)%nat /\ pair_column 3 2 1 = 4%nat.
Proof. split; [lia|]. split; [lia|reflexivity]. Qed.
