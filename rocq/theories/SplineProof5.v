(** The spline theorems in terms of SplineSpec, and example tables. *)
From Coq Require Import Reals ZArith List Lia Lra.
From Verif Require Import LoopUtil SplineModel SplineSpec SplineProof SplineProof2 SplineProof3 SplineProof4.
Local Open Scope R_scope.

Theorem smooth_ed : forall c xi s1 s2, equidistant c -> updated_ed c xi s1 s2 ->
  smooth_curve (begin c) (endr c) s1 s2 (splint_ed c xi) (splint_grad_ed c xi) /\
  forall i, (first c <= i <= last c)%nat -> splint_ed c xi (begin c + INR (i - first c) * step c) = Some (xi i).
Proof.
  intros c xi s1 s2 E (j & D). split.
  - exact (ed_smooth c xi s1 s2 j E D).
  - intros i Hi. exact (ed_interpolates c xi E i Hi).
Qed.

Theorem smooth_ne : forall c xi s1 s2, listed c -> updated_ne c xi s1 s2 ->
  smooth_curve (begin c) (endr c) s1 s2 (fun r => Some (splint_ne c xi r)) (fun r => Some (splint_grad_ne c xi r)) /\
  forall i, (first c <= i <= last c)%nat -> splint_ne c xi (xcoord c i) = xi i.
Proof.
  intros c xi s1 s2 L (j & D). split.
  - exists (splint_ne c xi), (splint_grad_ne c xi), (curv_ne c). split; [auto|]. split.
    + exact (ne_smooth c xi s1 s2 j L D).
    + exact (ne_ends c xi s1 s2 j L D).
  - intros i Hi. exact (ne_interpolates c xi L i Hi).
Qed.

(** the gradient of a column whose second derivatives are whatever they are, inside a piece *)
Theorem pieces_ed : forall c xi r, equidistant c -> begin c <= r < endr c -> exists v g,
  splint_ed c xi r = Some v /\ splint_grad_ed c xi r = Some g /\ splint_comb_ed c xi r = Some (v, g).
Proof. intros c xi r E H. exact (comb_ed c xi E r H). Qed.

(** ** Example: three points, not equidistant, second column of a table *)
Definition ex_col (d : arr) : column := mk_col 1 4 0 0 3 5 (fun i => if Nat.eqb i 3 then 1 else if Nat.eqb i 4 then 2 else 4) d.
Definition ex_xi : arr := fun i => INR (i * i).
Definition ex_d : arr := fun i => spline_ne (behind (xcoord (ex_col (fun _ => 0))) 3) (behind ex_xi 3) 3 1 (2 * NATURAL) (fun _ => 7) (i - 3)%nat.
Lemma ex_listed : forall d, listed (ex_col d).
Proof.
  intros d. unfold listed, ex_col; simpl. repeat split; try lia.
  intros i Hi. assert (i = 3 \/ i = 4)%nat as [-> | ->] by lia; simpl; lra.
Qed.
Lemma ex_updated : updated_ne (ex_col ex_d) ex_xi 1 (2 * NATURAL).
Proof.
  exists (fun _ => 7). intros i Hi. unfold points in *. simpl in Hi. change (d2tab (ex_col ex_d)) with ex_d. unfold ex_d at 1.
  change (first _) with 3%nat. replace (3 + i - 3)%nat with i by lia. reflexivity.
Qed.
(** the same with equidistant points *)
Definition ex_eq (d : arr) : column := mk_col 1 2 (1/2) (1 / (1/2)) 3 5 (fun _ => 0) d.
Definition ex_eqd : arr := fun i => spline_ed (1/2) (behind ex_xi 3) 3 1 0 (fun _ => 7) (i - 3)%nat.
Lemma ex_equidistant : forall d, equidistant (ex_eq d).
Proof. intros d. unfold equidistant, ex_eq; simpl. repeat split; try lra. lia. Qed.
Lemma ex_eq_updated : updated_ed (ex_eq ex_eqd) ex_xi 1 0.
Proof.
  exists (fun _ => 7). intros i Hi. unfold points in *. simpl in Hi. change (d2tab (ex_eq ex_eqd)) with ex_eqd. unfold ex_eqd at 1.
  change (first _) with 3%nat. replace (3 + i - 3)%nat with i by lia. reflexivity.
Qed.

(** the end of the column, where splint_comb_ed and splint_grad_ed disagree *)
Lemma comb_ed_end_refuted : exists c xi v g g',
  equidistant c /\ updated_ed c xi 0 0 /\ splint_ed c xi (endr c) = Some v /\
  splint_grad_ed c xi (endr c) = Some g /\ splint_comb_ed c xi (endr c) = Some (v, g') /\ g = 0 /\ g' = 1.
Proof.
  exists (one_column 1), (table_behind 1), 0, 0, 1.
  pose proof (one_column_equidistant 1) as E.
  assert (U : updated_ed (one_column 1) (table_behind 1) 0 0).
  { exists (fun _ => 0). intros i Hi. unfold points in Hi. simpl in Hi. unfold one_column, spline_ed, points, behind, table_behind; simpl.
    unfold ed_end, ed_start. assert (0 <= NATURAL) by (unfold NATURAL; lra).
    destruct (Rlt_dec NATURAL 0); [lra|]. unfold for_up, finish, for_down, back, setr; simpl.
    assert (i = 0 \/ i = 1)%nat as [-> | ->] by lia; simpl; field; lra. }
  split; [exact E|]. split; [exact U|].
  destruct (smooth_ed _ _ _ _ E U) as [(v & g & w & A & _ & _ & _ & G & _) I].
  assert (R : begin (one_column 1) <= endr (one_column 1) <= endr (one_column 1)) by (simpl; lra).
  destruct (A _ R) as [_ A2].
  split.
  - destruct (eval_ed_end (one_column 1) (table_behind 1) E) as (_ & V & _). rewrite V. reflexivity.
  - split; [|split; [apply comb_ed_end|auto]]. rewrite A2, G; auto. unfold NATURAL; lra.
Qed.
