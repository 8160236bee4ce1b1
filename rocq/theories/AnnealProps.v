(** C165: potential tables and parameters after simulated annealing. *)
From Coq Require Import Reals List Arith Bool Lia Lra.
From Verif Require Import AnnealModel AnnealSpec AnnealProof.
Import ListNotations.
Local Open Scope R_scope.

(** Restoring gives the tables of the embedding functions as they were when stored, whatever
    happened to them since, and changes no others. *)
Theorem C165_restored : forall paircol ntypes first last g d h,
  let r := restore_pot_data paircol ntypes first last (store_pot_data paircol ntypes first last g d) h in
  agree (embedding paircol ntypes) (embedding_point paircol ntypes first last) r g /\
  agree (fun i => ~ embedding paircol ntypes i) (fun j => ~ embedding_point paircol ntypes first last j) r h.
Proof. exact roundtrip. Qed.
Print Assumptions C165_restored.
Example C165_restored_ex : embedding 1 1 2 /\ ~ embedding 1 1 1 /\ embedding_point 1 1 (fun i => 5 * i)%nat (fun i => 5 * i + 4)%nat 12 /\ ~ embedding_point 1 1 (fun i => 5 * i)%nat (fun i => 5 * i + 4)%nat 9.
Proof. unfold embedding_point, embedding. split; [lia|]. split; [lia|]. split; [exists 2%nat; lia|]. intros (i & H). lia. Qed.

(** MEAM: tables and parameters after the annealing have the cost that was recorded as the
    lowest, however often the potential was rescaled in between; it is not above the cost at
    the start. *)
Theorem C165_optimum : forall paircol ntypes first last cost g x d l,
  reads_tables cost -> keeps_others paircol ntypes first last g l ->
  let r := anneal paircol ntypes first last true cost g x d l in
  cost (fst r) (snd r) = s_Fopt (loop paircol ntypes first last true cost (start paircol ntypes first last true cost g x d) l).
Proof. exact ends_at_optimum. Qed.
Print Assumptions C165_optimum.
Theorem C165_not_worse : forall paircol ntypes first last cost g x d l,
  reads_tables cost -> keeps_others paircol ntypes first last g l ->
  let r := anneal paircol ntypes first last true cost g x d l in cost (fst r) (snd r) <= cost g x.
Proof. exact not_worse. Qed.
Print Assumptions C165_not_worse.
Example C165_optimum_ex : reads_tables dist0 /\ keeps_others 1 1 (fun i => i) (fun i => i) (flat 0) [Rescaled (flat 1) (fun _ => 1)].
Proof. split; [exact dist0_reads|]. exact (flat_keeps 1 0 (fun _ => 1) _ eq_refl). Qed.

(** Without rescaling, in all builds: no parameters that were evaluated have a lower cost than
    the result. *)
Theorem C165_best : forall paircol ntypes first last cost m g x d l, reads_tables cost -> calm l ->
  let r := anneal paircol ntypes first last m cost g x d l in
  cost (fst r) (snd r) <= cost g x /\ forall xn, tried l xn -> cost (fst r) (snd r) <= cost g xn.
Proof. exact best_tried. Qed.
Print Assumptions C165_best.
Example C165_best_ex : calm [Try (fun _ => 2) true; Home; Try (fun _ => 0) false] /\
  tried [Try (fun _ => 2) true; Home; Try (fun _ => 0) false] (fun _ => 0).
Proof.
  split; [intros h x [H|[H|[H|[]]]]; discriminate|]. exists [Try (fun _ => 2) true; Home], false, []. split; [reflexivity|].
  intros [H|[H|[]]]; discriminate.
Qed.

(** Other builds with RESCALE do not store the tables: the parameters of the optimum are put
    into tables of later rescalings.  Here rescaling does not change the cost, but the result
    is worse than the start. *)
Theorem C165_tables_refuted : exists cost g x d l, reads_tables cost /\ keeps_others 1 1 (fun i => i) (fun i => i) g l /\
  let r := anneal 1 1 (fun i => i) (fun i => i) false cost g x d l in cost g x < cost (fst r) (snd r).
Proof.
  exact (ex_intro _ dist0 (ex_intro _ (flat 0) (ex_intro _ (fun _ => 0) (ex_intro _ (flat 0) (ex_intro _ _
    (conj dist0_reads (conj (proj1 eam_mixed) (proj2 (proj2 eam_mixed))))))))).
Qed.
Print Assumptions C165_tables_refuted.
(** A potential that became better by rescaling is not recorded; the result is worse, in MEAM
    builds, too. *)
Theorem C165_rescaled_refuted : exists cost g x d h y, reads_tables cost /\
  keeps_others 1 1 (fun i => i) (fun i => i) g [Rescaled h y] /\
  let r := anneal 1 1 (fun i => i) (fun i => i) true cost g x d [Rescaled h y] in cost h y < cost (fst r) (snd r).
Proof.
  exact (ex_intro _ dist0 (ex_intro _ (flat 0) (ex_intro _ (fun _ => 1) (ex_intro _ (flat 0) (ex_intro _ (flat 0) (ex_intro _ (fun _ => 0)
    (conj dist0_reads (better_lost true)))))))).
Qed.
Print Assumptions C165_rescaled_refuted.
