(** Binding of Stillinger-Weber and Tersoff parameters: C57, C58, C78. *)
From Coq Require Import List Arith Lia.
From Verif Require Import LoopUtil ApotModel BindModel BindSpec BindProof BindProof2 BindProof3.
Import ListNotations.

(** The positions used in these statements are those of the table written when the
    potential file is read (first[] in potential_input_f0.c). *)
Theorem C57_layout : forall ns f p, f <= List.length ns -> home ns f p = first_of ns 2 f + p.
Proof. exact home_first. Qed.
Print Assumptions C57_layout.

(** C57: globals of the lambda potential only for the pair of the last type with itself:
    every pointer leads to the parameter at its position in the file, or to its global. *)
Theorem C57_pointers : forall gidx uses n, 0 < n -> valid_uses (sw_pars n) uses ->
  forall t2 t3 tl,
  (forall m j, bound uses (2 * pairs n) m j -> m mod pairs n = pairs n - 1) ->
  exists t2' t3' tl', update_stiweb gidx uses n t2 t3 tl = Done (t2', t3', tl') /\
  (forall i p, i < pairs n -> p < 6 -> address (sw_pars n) gidx uses i p (t2' i p)) /\
  (forall i p, i < pairs n -> p < 2 -> address (sw_pars n) gidx uses (pairs n + i) p (t3' i p)) /\
  (forall m i j k, nth_error (triples n) m = Some (i, (j, k)) ->
     address (sw_pars n) gidx uses (2 * pairs n) m (tl' i j k) /\
     address (sw_pars n) gidx uses (2 * pairs n) m (tl' i k j)).
Proof. exact sw_right. Qed.
Print Assumptions C57_pointers.

(** C57 is false of the code: every other global lambda, for any number of types, leads to
    an array subscript out of range. *)
Theorem C57_other_globals : forall gidx uses n, 0 < n -> valid_uses (sw_pars n) uses ->
  forall t2 t3 tl m j,
  bound uses (2 * pairs n) m j -> m mod pairs n <> pairs n - 1 ->
  update_stiweb gidx uses n t2 t3 tl = Undefined.
Proof. exact sw_wrong. Qed.
Print Assumptions C57_other_globals.

Definition two_types_uses : list (list (nat * nat)) := [[(0, 1); (6, 0)]].
Lemma two_types_valid : valid_uses (sw_pars 2) two_types_uses.
Proof.
  split.
  - intros f p [|[|j]] B; unfold bound in B; simpl in B; try contradiction.
    destruct B as [B|[B|[]]]; inversion B; subst; simpl; lia.
  - intros f p [|[|j]] [|[|j']] B B'; unfold bound in B, B'; simpl in B, B'; try contradiction; reflexivity.
Qed.
Theorem C57_refuted : exists gidx uses n, 0 < n /\ valid_uses (sw_pars n) uses /\
  forall t2 t3 tl, update_stiweb gidx uses n t2 t3 tl = Undefined.
Proof.
  exact (ex_intro _ 50 (ex_intro _ two_types_uses (ex_intro _ 2 (conj (Nat.lt_0_succ 1)
    (conj two_types_valid (fun _ _ _ => eq_refl)))))).
Qed.
Print Assumptions C57_refuted.

(** the hypotheses of [C57_pointers] with a global lambda: one for the last pair *)
Definition last_uses : list (list (nat * nat)) := [[(0, 1); (6, 2); (6, 5)]].
Example C57_hypotheses : valid_uses (sw_pars 2) last_uses /\
  (forall m j, bound last_uses (2 * pairs 2) m j -> m mod pairs 2 = pairs 2 - 1) /\
  bound last_uses (2 * pairs 2) 5 0 /\ nth_error (triples 2) 5 = Some (1, (1, 1)).
Proof.
  split; [split|split; [|split; [unfold bound; simpl; auto|reflexivity]]].
  - intros f p [|[|j]] B; unfold bound in B; simpl in B; try contradiction.
    destruct B as [B|[B|[B|[]]]]; inversion B; subst; simpl; lia.
  - intros f p [|[|j]] [|[|j']] B B'; unfold bound in B, B'; simpl in B, B'; try contradiction; reflexivity.
  - intros m [|[|j]] B; unfold bound in B; simpl in B; try contradiction.
    destruct B as [B|[B|[B|[]]]]; inversion B; subst; reflexivity.
Qed.

(** C58: the pair parameters, any number of types and any globals *)
Theorem C58_pair_parameters : forall gidx uses n, valid_uses (tersoff_pars n) uses ->
  forall t tm, exists t',
  update_tersoff gidx uses n t tm =
    Done (t', fst (bind_mix gidx uses n (tm, 2 + pairs n * 13))) /\
  forall i p, i < pairs n -> p < 11 -> address (tersoff_pars n) gidx uses i p (t' i p).
Proof. exact tersoff_front. Qed.
Print Assumptions C58_pair_parameters.

(** C58 for one and two types without globals in the mixing tables.  Missing: more types and
    such globals, where the code is wrong (below). *)
Theorem C58_mixing_partial : forall gidx uses n t tm, n = 1 \/ n = 2 -> valid_uses (tersoff_pars n) uses ->
  (forall f p j, pairs n <= f -> ~ bound uses f p j) ->
  exists t' tm', update_tersoff gidx uses n t tm = Done (t', tm') /\ mix_right n gidx uses tm'.
Proof. exact mix_small. Qed.
Print Assumptions C58_mixing_partial.

(** Three or more types: chi and omega of the last type with itself are read behind all
    parameters of the potentials instead of being one. *)
Theorem C58_refuted : forall gidx uses n t tm, 3 <= n -> valid_uses (tersoff_pars n) uses ->
  (forall f p j, pairs n <= f -> ~ bound uses f p j) ->
  exists t' tm' a, update_tersoff gidx uses n t tm = Done (t', tm') /\
    nth_error (row n) (pairs n - 1) = Some (n - 1, n - 1) /\
    tm' (pairs n - 1) 0 = Some a /\ tm' (pairs n - 1) 1 = Some (a + 1) /\
    forall f p, f < List.length (tersoff_pars n) -> p < nth f (tersoff_pars n) 0 ->
      home (tersoff_pars n) f p < a.
Proof. exact mix_large. Qed.
Print Assumptions C58_refuted.

(** Two or more types: a global in the mixing table of the first mixed pair changes the
    parameter of the first type with itself, which should be one. *)
Theorem C58_global_refuted : forall gidx uses n t tm p j, 2 <= n -> valid_uses (tersoff_pars n) uses -> p < 2 ->
  bound uses (pairs n) p j ->
  exists t' tm' a, update_tersoff gidx uses n t tm = Done (t', tm') /\
    nth_error (row n) 0 = Some (0, 0) /\ tm' 0 p = Some a.
Proof. exact mix_shifted. Qed.
Print Assumptions C58_global_refuted.

(** C58, TERSOFFMOD (no mixing tables) *)
Theorem C58_tersoffmod : forall gidx uses n t, valid_uses (tersoffmod_pars n) uses ->
  exists t', update_tersoffmod gidx uses n t = Done t' /\
    forall i p, i < pairs n -> p < 16 -> address (tersoffmod_pars n) gidx uses i p (t' i p).
Proof. exact tersoffmod_right. Qed.
Print Assumptions C58_tersoffmod.

Lemma no_uses : forall ns, valid_uses ns [].
Proof. intros ns. split; intros f p [|j]; contradiction. Qed.
Example C58_hypotheses : valid_uses (tersoff_pars 2) [] /\ valid_uses (tersoff_pars 3) [] /\
  valid_uses (tersoffmod_pars 3) [] /\ valid_uses (tersoff_pars 2) [[(3, 1)]] /\ bound [[(3, 1)]] (pairs 2) 1 0.
Proof.
  split; [apply no_uses|]. split; [apply no_uses|]. split; [apply no_uses|]. split; [|left; reflexivity]. split.
  - intros f p [|[|j]] B; unfold bound in B; simpl in B; try contradiction.
    destruct B as [B|[]]; inversion B; subst; simpl; lia.
  - intros f p [|[|j]] [|[|j']] B B'; unfold bound in B, B'; simpl in B, B'; try contradiction; reflexivity.
Qed.

(** C78: columns with a smooth cutoff have one parameter more than the binding code steps
    over, so each of them shifts all later columns by one entry. *)
Theorem C78_shift : forall gidx np ns ncol t a,
  (forall f, f < ncol -> nth f ns 0 = np \/ nth f ns 0 = np + 1) -> ncol <= List.length ns -> a = 2 ->
  exists t', bind_columns gidx [] np 0 ncol (t, a) = Done (t', a + ncol * (np + 2)) /\
    forall i p, i < ncol -> p < np ->
      t' i p + List.length (filter (fun x => x =? np + 1) (firstn i ns)) = home ns i p.
Proof. exact smooth_shift. Qed.
Print Assumptions C78_shift.

(** Tersoff, two types, smooth cutoff in the first potential *)
Theorem C78_refuted : exists ns gidx, ns = [12; 11; 11; 2] /\
  forall t tm, exists t' tm', update_tersoff gidx [] 2 t tm = Done (t', tm') /\
    t' 1 0 + 1 = home ns 1 0.
Proof.
  exact (ex_intro _ [12; 11; 11; 2] (ex_intro _ 0 (conj eq_refl (fun t tm =>
    ex_intro _ _ (ex_intro _ _ (conj eq_refl eq_refl)))))).
Qed.
Print Assumptions C78_refuted.
