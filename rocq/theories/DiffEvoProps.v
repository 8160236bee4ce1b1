(** C10-C12: differential evolution. *)
From Coq Require Import List Arith QArith Permutation.
From Verif Require Import ListUtil DiffEvoModel DiffEvoProof DiffEvoProof2 DiffEvoProof3.
Import ListNotations.
Local Open Scope nat_scope.

(** C10.  [setup]: distinct free indices inside the vector, start values inside their
    bounds, bounds not beyond 1e31.  For every cost function, every random numbers, every
    history of jumps and flag files and every number of generations, each evaluated vector
    has its free entries inside the bounds and its other entries unchanged. *)
Theorem C10_candidates_in_bounds : forall costf idx pmin pmax xi0,
  setup idx pmin pmax xi0 ->
  forall thr nd uf uc ch jump flag n s s',
  (forall c i, choice_ok idx xi0 (ch c i)) ->
  de_start true costf idx pmin pmax xi0 nd uf uc = Some s ->
  loop true costf idx pmin pmax xi0 thr ch jump flag n 0 s = Some s' ->
  Forall (allowed idx pmin pmax xi0) (d_evals s').
Proof. exact de_bounds. Qed.
Print Assumptions C10_candidates_in_bounds.

(** Initialisation and every generation always deliver a state (sorting ends, no index
    failure), so that C10 is not about failing runs only. *)
Theorem C10_start_total : forall bounded costf idx pmin pmax xi0 nd uf uc,
  exists s, de_start bounded costf idx pmin pmax xi0 nd uf uc = Some s.
Proof. exact de_start_total. Qed.
Print Assumptions C10_start_total.

Theorem C10_generation_total : forall bounded costf idx pmin pmax xi0 chs jump flag s,
  exists s', generation bounded costf idx pmin pmax xi0 chs jump flag s = Some s'.
Proof. exact generation_total. Qed.
Print Assumptions C10_generation_total.

Example C10_ex : setup [0] (fun _ => 0%Q) (fun _ => 1%Q) [3#10]
  /\ (forall c i, choice_ok [0] [3#10] (w_ch c i)).
Proof. split; [exact w_setup|]. intros c i. repeat split; compute; repeat constructor. Qed.

(** C11.  The opposition step keeps NP of the 2 NP candidates and opposites; kept and
    dropped together are a rearrangement of all of them, each with its own cost. *)
Theorem C11_costs_stay_paired_partial : forall costf idx pmin pmax xi0 do_init pop,
  length pop = NP xi0 ->
  exists kept dropped ev,
    opposite_check costf idx pmin pmax xi0 do_init pop = Some (kept, ev) /\
    Permutation (kept ++ dropped) (tot_of costf idx pmin pmax do_init pop) /\
    length kept = NP xi0 /\
    ev = map (fun cp => vec (snd cp)) (skipn (NP xi0) (tot_of costf idx pmin pmax do_init pop)).
Proof. exact opposite_check_spec. Qed.
Print Assumptions C11_costs_stay_paired_partial.

(** Sorting a range ends, rearranges and touches nothing outside the range. *)
Theorem C11_quicksort_rearranges : forall (A : Type) (key : A -> Q) (d : A) fuel l low high,
  high - low <= fuel ->
  exists l', quicksort key d fuel l low high = Some l' /\ Permutation l' l /\
    length l' = length l /\ (forall k, k < low \/ high < k -> nth k l' d = nth k l d).
Proof. exact @quicksort_spec. Qed.
Print Assumptions C11_quicksort_rearranges.

(** But it does not sort: three costs in ascending order are taken out of order. *)
Theorem C11_sort_refuted : exists l l', quicksort (fun x => x) 0%Q (length l) l 0 (length l - 1) = Some l'
  /\ l = [1; 2; 3]%Q /\ l' = [2; 3; 1]%Q.
Proof. exists [1; 2; 3]%Q, [2; 3; 1]%Q. split; [exact sort_witness|split; reflexivity]. Qed.
Print Assumptions C11_sort_refuted.

(** And the step can drop the candidate that is cheaper than all the kept ones. *)
Theorem C11_lowest_half_refuted : exists costf idx pmin pmax xi0 pop kept ev,
  setup idx pmin pmax xi0 /\ length pop = NP xi0 /\
  Forall (fun cp => fst cp = costf (vec (snd cp)) /\ allowed idx pmin pmax xi0 (vec (snd cp))) pop /\
  opposite_check costf idx pmin pmax xi0 true pop = Some (kept, ev) /\
  exists cp, In cp pop /\ forall k, In k kept -> (fst cp < fst k)%Q.
Proof. exact opposition_refuted. Qed.
Print Assumptions C11_lowest_half_refuted.

(** C12.  The best cost never increases. *)
Theorem C12_best_monotone : forall bounded costf idx pmin pmax xi0 thr nd uf uc ch jump flag n m s s1 s2,
  de_start bounded costf idx pmin pmax xi0 nd uf uc = Some s ->
  loop bounded costf idx pmin pmax xi0 thr ch jump flag n 0 s = Some s1 ->
  loop bounded costf idx pmin pmax xi0 thr ch jump flag m n s1 = Some s2 ->
  (d_min s2 <= d_min s1)%Q.
Proof. exact de_monotone. Qed.
Print Assumptions C12_best_monotone.

(** The result is at most as costly as each candidate kept by the initialisation (with a
    cost below 10e10), and the reported cost is the cost of the result. *)
Theorem C12_result_cost : forall bounded costf idx pmin pmax xi0 thr nd uf uc ch jump flag n s x c p,
  ~ (thr == 0)%Q ->
  de_start bounded costf idx pmin pmax xi0 nd uf uc = Some s ->
  In (c, p) (d_pop s) -> (c < ten10)%Q ->
  run_de bounded costf idx pmin pmax xi0 thr nd uf uc ch jump flag n = Some x ->
  (costf x <= c)%Q /\
  exists s', loop bounded costf idx pmin pmax xi0 thr ch jump flag n 0 s = Some s' /\ d_min s' = costf x.
Proof. exact de_result. Qed.
Print Assumptions C12_result_cost.

(** Tabulated potentials (no opposition step): never worse than the start, if that has a
    cost below 10e10. *)
Theorem C12_tabulated_not_worse : forall bounded costf idx pmin pmax xi0 thr nd uf uc ch jump flag n x,
  bounded = false -> (costf xi0 < ten10)%Q ->
  run_de bounded costf idx pmin pmax xi0 thr nd uf uc ch jump flag n = Some x ->
  (costf x <= costf xi0)%Q.
Proof. exact de_result_tab. Qed.
Print Assumptions C12_tabulated_not_worse.

(** With bounds the start potential can be lost: it is the optimum and the run still ends
    with a worse potential. *)
Theorem C12_start_lost_refuted : exists costf idx pmin pmax xi0 thr nd uf uc ch jump flag x,
  setup idx pmin pmax xi0 /\ (costf xi0 < ten10)%Q /\
  run_de true costf idx pmin pmax xi0 thr nd uf uc ch jump flag 0 = Some x /\
  (costf xi0 < costf x)%Q.
Proof. exact start_lost. Qed.
Print Assumptions C12_start_lost_refuted.

(** If no candidate is below 10e10 the result is the zero vector: out of bounds and with
    fixed parameters overwritten. *)
Theorem C12_zeros_refuted : exists costf idx pmin pmax xi0 thr nd uf uc ch jump flag,
  setup idx pmin pmax xi0 /\
  run_de true costf idx pmin pmax xi0 thr nd uf uc ch jump flag 0 = Some [0; 0]%Q /\
  (0 < pmin O)%Q /\ ~ In 1 idx /\ nth 1 xi0 0%Q = 7%Q.
Proof. exact zeros_returned. Qed.
Print Assumptions C12_zeros_refuted.

Example C12_ex : exists x, run_de false w_cost [0] (fun _ => 0%Q) (fun _ => 1%Q) [3#10] 1000 w_nd w_zero w_zero w_ch
    (fun _ => false) (fun _ => false) 0 = Some x.
Proof. eexists. vm_compute. reflexivity. Qed.

(** C11: without an opposition step no candidate is replaced by a worse one. *)
Theorem C11_selection : forall bounded costf idx pmin pmax xi0 chs jump flag s s', (bounded && jump)%bool = false ->
  generation bounded costf idx pmin pmax xi0 chs jump flag s = Some s' ->
  length (d_pop s') = NP xi0 /\
  forall i, i < NP xi0 -> (fst (nth i (d_pop s') (0%Q, dummy)) <= fst (nth i (d_pop s) (0%Q, dummy)))%Q.
Proof. exact selection. Qed.
Print Assumptions C11_selection.
(** C10: every free entry of a trial is that of its parent or the mutated value, whatever the
    trial vector held before. *)
Theorem C10_trial_composed : forall bounded idx pmin pmax (xi0 : list Q), NoDup idx -> (forall i, In i idx -> i < length xi0) ->
  forall c pop1 i b f cr t, length t = length xi0 -> ch_j c < length idx -> forall j, j < length idx ->
  let x := get idx (cross bounded idx pmin pmax c pop1 i b f cr t) j in
  x = mutant bounded idx pmin pmax c pop1 b f j \/ x = get idx (vec (snd (nth i pop1 (0%Q, dummy)))) j.
Proof. exact trial_composed. Qed.
Print Assumptions C10_trial_composed.
Example C10_ex2 : NoDup [0; 2] /\ (forall i, In i [0; 2] -> i < 3).
Proof. split; [repeat constructor; simpl; intuition discriminate|]. intros i [<-|[<-|[]]]; repeat constructor. Qed.

(** ** C114: the entries of a trial, in the order of the loop *)
Theorem C114_trial_exact : forall bounded idx pmin pmax (xi0 : list Q), NoDup idx -> (forall i, In i idx -> i < length xi0) ->
  forall c pop1 i b f cr t, length t = length xi0 -> ch_j c < length idx -> forall q, q < length idx ->
  let j := (ch_j c + q) mod length idx in
  get idx (cross bounded idx pmin pmax c pop1 i b f cr t) j =
  if (qltb (ch_cross c (S q)) cr || ((ch_j c =? 1) && (S q <? length idx)))%bool then mutant bounded idx pmin pmax c pop1 b f j
  else get idx (vec (snd (nth i pop1 (0%Q, dummy)))) j.
Proof. exact trial_exact. Qed.
Print Assumptions C114_trial_exact.
Theorem C114_parent_refuted : forall bounded idx pmin pmax (xi0 : list Q), NoDup idx -> (forall i, In i idx -> i < length xi0) ->
  forall c pop1 i b f cr t, length t = length xi0 -> ch_j c < length idx -> ch_j c <> 1 ->
  (forall k, 1 <= k <= length idx -> (cr <= ch_cross c k)%Q) ->
  forall j, j < length idx -> get idx (cross bounded idx pmin pmax c pop1 i b f cr t) j = get idx (vec (snd (nth i pop1 (0%Q, dummy)))) j.
Proof. exact trial_is_parent. Qed.
Print Assumptions C114_parent_refuted.
Theorem C114_all_mutated_refuted : forall bounded idx pmin pmax (xi0 : list Q), NoDup idx -> (forall i, In i idx -> i < length xi0) ->
  forall c pop1 i b f cr t, length t = length xi0 -> ch_j c < length idx -> ch_j c = 1 ->
  forall j, 0 < j -> j < length idx -> get idx (cross bounded idx pmin pmax c pop1 i b f cr t) j = mutant bounded idx pmin pmax c pop1 b f j.
Proof. exact trial_is_mutant. Qed.
Print Assumptions C114_all_mutated_refuted.
Theorem C114_same_trial_refuted : exists idx c pop1 i b f cr t, ch_j c < length idx /\
  cross false idx (fun _ => 0%Q) (fun _ => 0%Q) c pop1 i b f cr t = vec (snd (nth i pop1 (0%Q, dummy))) /\
  forall j, j < length idx -> ~ (mutant false idx (fun _ => 0%Q) (fun _ => 0%Q) c pop1 b f j == get idx (vec (snd (nth i pop1 (0%Q, dummy)))) j)%Q.
Proof. exact same_trial_ex. Qed.
Print Assumptions C114_same_trial_refuted.
Example C114_ex : ch_j w_choice < length [0; 1] /\ ch_j w_choice <> 1 /\ (forall k, 1 <= k <= length [0; 1] -> (0 <= ch_cross w_choice k)%Q).
Proof. split; [repeat constructor|]. split; [discriminate|]. intros k _. discriminate. Qed.
