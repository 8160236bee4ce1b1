(** Each column is renewed, nothing else is changed *)
From Coq Require Import Reals List Arith Bool ZArith Lra Lia.
From Verif Require Import LoopUtil SplineModel SplineSpec SplineProof3 SplineProof4 SplineProof5 UpdModel UpdSpec.
Import ListNotations.
Open Scope R_scope.

Lemma setr_other : forall a i x k, k <> i -> setr a i x k = a k.
Proof. intros. unfold setr. destruct (Nat.eqb_spec k i); [contradiction|reflexivity]. Qed.

Lemma finish_keep : forall n qn un s i, (2 <= n)%nat -> (n <= i)%nat -> finish n qn un s i = fst s i.
Proof.
  intros n qn un [y2 u] i N L. cbn [finish fst].
  apply (for_down_inv (fun _ (y : arr) => y i = y2 i) 0 (back u) (n - 1)); [lia| |].
  - apply setr_other. lia.
  - intros j y J Y. unfold back. rewrite setr_other by lia. exact Y.
Qed.
Lemma ed_keep : forall st y n s1 s2 y2 i, (2 <= n)%nat -> (n <= i)%nat -> spline_ed st y n s1 s2 y2 i = y2 i.
Proof.
  intros st y n s1 s2 y2 i N L. unfold spline_ed. destruct (ed_end st y n s2) as [qn un]. rewrite finish_keep by assumption.
  apply (for_up_inv (fun _ (s : arr * arr) => fst s i = y2 i) (n - 1) (ed_forward st y) 1); [lia| |].
  - unfold ed_start. destruct (Rlt_dec NATURAL s1); cbn [fst]; apply setr_other; lia.
  - intros j [a u] J Y. cbn [fst] in *. unfold ed_forward. cbn [fst]. rewrite setr_other by lia. exact Y.
Qed.
Lemma ne_keep : forall x y n s1 s2 y2 i, (2 <= n)%nat -> (n <= i)%nat -> spline_ne x y n s1 s2 y2 i = y2 i.
Proof.
  intros x y n s1 s2 y2 i N L. unfold spline_ne. destruct (ne_end x y n s2) as [qn un]. rewrite finish_keep by assumption.
  apply (for_up_inv (fun _ (s : arr * arr) => fst s i = y2 i) (n - 1) (ne_forward x y) 1); [lia| |].
  - unfold ne_start. destruct (Rlt_dec NATURAL s1); cbn [fst]; apply setr_other; lia.
  - intros j [a u] J Y. cbn [fst] in *. unfold ne_forward. cbn [fst]. rewrite setr_other by lia. exact Y.
Qed.

Section T.
Variable t : tabs.
Variable N : nat.
Hypothesis lay : laid_out t N.
Variable xi : arr.
(** true: points with coordinates *)
Variable ne : bool.
Definition call (c : nat) (s1 s2 : R) (d2 : arr) : arr := if ne then call_ne t xi c s1 s2 d2 else call_ed t xi c s1 s2 d2.
Definition done (c : nat) (s1 s2 : R) (d2 : arr) : Prop :=
  if ne then updated_ne (col_of t d2 c) xi s1 s2 else updated_ed (col_of t d2 c) xi s1 s2.

Lemma call_done : forall c s1 s2 d2, done c s1 s2 (call c s1 s2 d2).
Proof.
  intros c s1 s2 d2. unfold done, call. destruct ne; exists (from d2 (t_first t c)); intros i L;
    cbn [col_of d2tab first last step xcoord]; unfold call_ne, call_ed, store;
    (destruct (Nat.ltb_spec (t_first t c + i) (t_first t c)); [lia|]);
    replace (t_first t c + i - t_first t c)%nat with i by lia; reflexivity.
Qed.
Lemma call_other : forall c s1 s2 d2 p, (c < N)%nat -> ~ (t_first t c <= p <= t_last t c)%nat -> call c s1 s2 d2 p = d2 p.
Proof.
  intros c s1 s2 d2 p L O. destruct (proj1 lay c L) as [_ F]. unfold call. destruct ne; unfold call_ne, call_ed, store;
    (destruct (Nat.ltb_spec p (t_first t c)); [reflexivity|]).
  - rewrite ne_keep by lia. unfold from. f_equal. lia.
  - rewrite ed_keep by lia. unfold from. f_equal. lia.
Qed.
Lemma done_ext : forall c s1 s2 d d', (c < N)%nat -> (forall p, (t_first t c <= p <= t_last t c)%nat -> d' p = d p) ->
  done c s1 s2 d -> done c s1 s2 d'.
Proof.
  intros c s1 s2 d d' L E D. destruct (proj1 lay c L) as [_ F]. unfold done in *. destruct ne; destruct D as [j D]; exists j; intros i I;
    specialize (D i I); cbn [col_of d2tab first last step xcoord] in *; unfold points in I; cbn [col_of first last] in I;
    rewrite E by lia; exact D.
Qed.
Lemma apart : forall c c' p, (c < N)%nat -> (c' < N)%nat -> c <> c' -> (t_first t c <= p <= t_last t c)%nat ->
  ~ (t_first t c' <= p <= t_last t c')%nat.
Proof.
  intros c c' p L L' D I J. destruct (Nat.lt_ge_cases c c').
  - pose proof (proj2 lay c c' ltac:(lia)). lia.
  - pose proof (proj2 lay c' c ltac:(lia)). lia.
Qed.

(** right end of each column *)
Variable rt : nat -> R.
Definition Good (m : nat) (d d' : arr) : Prop :=
  (forall c, (c < m)%nat -> done c (xi (t_first t c - 2)%nat) (rt c) d') /\
  (forall p, ~ in_column t m p -> d' p = d p).
Lemma good_0 : forall d, Good 0 d d.
Proof. intros d. split; [lia|reflexivity]. Qed.
Lemma good_S : forall m d d', (m < N)%nat -> Good m d d' ->
  Good (S m) d (call m (xi (t_first t m - 2)%nat) (rt m) d').
Proof.
  intros m d d' L [G1 G2]. split.
  - intros c C. destruct (Nat.eq_dec c m) as [->|D]; [apply call_done|].
    apply (done_ext c _ _ d'); [lia| |apply G1; lia]. intros p P. apply call_other; [exact L|].
    apply (apart c m p); [lia|exact L|exact D|exact P].
  - intros p P. rewrite call_other; [apply G2|exact L|].
    + intros [c [C1 C2]]. apply P. exists c. split; [lia|exact C2].
    + intros Q. apply P. exists m. split; [lia|exact Q].
Qed.
Lemma stage : forall m m' sr d d', (m <= m' <= N)%nat -> (forall c, (m <= c < m')%nat -> sr c = rt c) -> Good m d d' ->
  Good m' d (for_up m m' (fun c e => call c (xi (t_first t c - 2)%nat) (sr c) e) d').
Proof.
  intros m m' sr d d' L E G. apply (for_up_inv (fun i e => Good i d e)); [lia|exact G|].
  intros i e I H. rewrite E by lia. apply good_S; [lia|exact H].
Qed.
End T.

Lemma for_up_some : forall (F : nat -> arr -> arr) a b d,
  for_up a b (fun c s => match s with None => None | Some e => Some (F c e) end) (Some d) = Some (for_up a b F d).
Proof.
  intros F a b d. destruct (Nat.le_gt_cases a b) as [L|L].
  - unfold for_up. generalize (seq a (b - a)). intros l. revert d. induction l; intros d; cbn [fold_left]; [reflexivity|apply IHl].
  - unfold for_up. replace (b - a)%nat with 0%nat by lia. reflexivity.
Qed.

Definition free_points (fm : format) : bool := match fm with FNonEqDist => true | _ => false end.
Definition table_format (fm : format) : Prop := fm = FAnalytic \/ fm = FEqDist \/ fm = FNonEqDist.
Lemma splines_loop : forall fm t xi a num (fl : bool) d, table_format fm ->
  update_splines fm t xi a num (if fl then 3 else 1) (Some d) =
  Some (for_up a (a + num) (fun c e => call t xi (free_points fm) c (xi (t_first t c - 2)%nat)
    (if fl then xi (t_first t c - 1)%nat else 0) e) d).
Proof.
  intros fm t xi a num fl d F. rewrite <- for_up_some. unfold update_splines. apply for_up_ext. intros c [e|] _; [|reflexivity].
  destruct F as [->|[->| ->]]; destruct fl; reflexivity.
Qed.
Lemma splines_1 : forall fm t xi a num d, table_format fm ->
  update_splines fm t xi a num 1 (Some d) =
  Some (for_up a (a + num) (fun c e => call t xi (free_points fm) c (xi (t_first t c - 2)%nat) 0 e) d).
Proof. intros. exact (splines_loop fm t xi a num false d H). Qed.
Lemma splines_3 : forall fm t xi a num d, table_format fm ->
  update_splines fm t xi a num 3 (Some d) =
  Some (for_up a (a + num) (fun c e => call t xi (free_points fm) c (xi (t_first t c - 2)%nat) (xi (t_first t c - 1)%nat) e) d).
Proof. intros. exact (splines_loop fm t xi a num true d H). Qed.
Lemma elstat_loop : forall fm t xi a num (fl : bool) d, fm = FAnalytic \/ fm = FEqDist ->
  update_elstat fm t xi a num fl (Some d) =
  Some (for_up a (a + num) (fun c e => call t xi false c (xi (t_first t c - 2)%nat)
    (if fl then xi (t_first t c - 1)%nat else 0) e) d).
Proof.
  intros fm t xi a num fl d F. rewrite <- for_up_some. unfold update_elstat. apply for_up_ext. intros c [e|] _; [|reflexivity].
  destruct F as [->| ->]; destruct fl; reflexivity.
Qed.
Lemma angular_loop : forall t xi num d,
  update_angular t xi num (Some d) =
  Some (for_up 0 num (fun c e => call t xi false c (xi (t_first t c - 2)%nat) (xi (t_first t c - 1)%nat) e) d).
Proof. intros. rewrite <- for_up_some. unfold update_angular. apply for_up_ext. intros c [e|] _; reflexivity. Qed.

(** right ends of the specification *)
Definition right_end (k : routine) (pc nt : nat) (t : tabs) (xi : arr) (c : nat) : R :=
  match class_of (classes k pc nt) c with Some true => xi (t_first t c - 1)%nat | _ => 0 end.

Ltac cls := intros; unfold right_end, classes; cbn [class_of];
  repeat match goal with |- context [Nat.ltb ?a ?b] => destruct (Nat.ltb_spec a b); try lia; try reflexivity end.

Lemma renew_tables : forall k fm t pc nt xi d2, k = Pairs \/ k = Eam \/ k = Tbeam \/ k = Adp -> table_format fm ->
  laid_out t (total k pc nt) ->
  exists d, renew k fm t pc nt xi d2 = Some d /\ Good t xi (free_points fm) (right_end k pc nt t xi) (total k pc nt) d2 d.
Proof.
  intros k fm t pc nt xi d2 K F L.
  pose proof (good_0 t xi (free_points fm) (right_end k pc nt t xi) d2) as G0.
  destruct K as [->|[->|[->| ->]]]; unfold renew; unfold total in *; cbn [classes fold_right fst] in *; rewrite ?Nat.add_0_r in *.
  - rewrite splines_1 by exact F. eexists. split; [reflexivity|].
    apply (stage t _ L) with (m := 0%nat) (sr := fun _ => 0); [lia|cls|exact G0].
  - rewrite splines_1, splines_3 by exact F. eexists. split; [reflexivity|].
    replace (pc + (nt + nt))%nat with (pc + nt + nt)%nat in * by lia.
    apply (stage t _ L) with (m := (pc + nt)%nat) (sr := fun c => xi (t_first t c - 1)%nat); [lia|cls|].
    apply (stage t _ L) with (m := 0%nat) (sr := fun _ => 0); [lia|cls|exact G0].
  - rewrite splines_1, splines_3, splines_1, splines_3 by exact F. eexists. split; [reflexivity|].
    replace (pc + (nt + (nt + (nt + nt))))%nat with (pc + 3 * nt + nt)%nat in * by lia.
    apply (stage t _ L) with (m := (pc + 3 * nt)%nat) (sr := fun c => xi (t_first t c - 1)%nat); [lia|cls|].
    replace (pc + 3 * nt)%nat with (pc + 2 * nt + nt)%nat by lia.
    apply (stage t _ L) with (m := (pc + 2 * nt)%nat) (sr := fun _ => 0); [lia|cls|].
    replace (pc + 2 * nt)%nat with (pc + nt + nt)%nat by lia.
    apply (stage t _ L) with (m := (pc + nt)%nat) (sr := fun c => xi (t_first t c - 1)%nat); [lia|cls|].
    apply (stage t _ L) with (m := 0%nat) (sr := fun _ => 0); [lia|cls|exact G0].
  - rewrite splines_1, splines_3, splines_1 by exact F. eexists. split; [reflexivity|].
    replace (pc + (nt + (nt + (pc + pc))))%nat with (pc + 2 * nt + 2 * pc)%nat in * by lia.
    apply (stage t _ L) with (m := (pc + 2 * nt)%nat) (sr := fun _ => 0); [lia|cls|].
    replace (pc + 2 * nt)%nat with (pc + nt + nt)%nat by lia.
    apply (stage t _ L) with (m := (pc + nt)%nat) (sr := fun c => xi (t_first t c - 1)%nat); [lia|cls|].
    apply (stage t _ L) with (m := 0%nat) (sr := fun _ => 0); [lia|cls|exact G0].
Qed.
Lemma renew_steps : forall k fm t pc nt xi d2, fm = FAnalytic \/ fm = FEqDist -> laid_out t (total k pc nt) ->
  exists d, renew k fm t pc nt xi d2 = Some d /\ Good t xi false (right_end k pc nt t xi) (total k pc nt) d2 d.
Proof.
  intros k fm t pc nt xi d2 F L.
  assert (P : k = Pairs \/ k = Eam \/ k = Tbeam \/ k = Adp ->
    exists d, renew k fm t pc nt xi d2 = Some d /\ Good t xi false (right_end k pc nt t xi) (total k pc nt) d2 d).
  { intros K. destruct (renew_tables k fm t pc nt xi d2 K) as [d [D G]]; [unfold table_format; tauto|exact L|].
    exists d. split; [exact D|]. destruct F as [->| ->]; exact G. }
  pose proof (good_0 t xi false (right_end k pc nt t xi) d2) as G0.
  destruct k; try (apply P; tauto); clear P; unfold renew; unfold total in *; cbn [classes fold_right fst] in *; rewrite ?Nat.add_0_r in *.
  - rewrite elstat_loop by exact F. eexists. split; [reflexivity|].
    apply (stage t _ L) with (m := 0%nat) (sr := fun _ => 0); [lia|cls|exact G0].
  - rewrite elstat_loop, elstat_loop by exact F. eexists. split; [reflexivity|].
    replace (pc + (nt + nt))%nat with (pc + nt + nt)%nat in * by lia.
    apply (stage t _ L) with (m := (pc + nt)%nat) (sr := fun c => xi (t_first t c - 1)%nat); [lia|cls|].
    apply (stage t _ L) with (m := 0%nat) (sr := fun _ => 0); [lia|cls|exact G0].
  - rewrite angular_loop. eexists. split; [reflexivity|]. replace (pc + (pc + nt))%nat with (2 * pc + nt)%nat in * by lia.
    apply (stage t _ L) with (m := 0%nat) (sr := fun c => xi (t_first t c - 1)%nat); [lia|cls|exact G0].
  - rewrite angular_loop. eexists. split; [reflexivity|]. replace (pc + (pc + nt))%nat with (2 * pc + nt)%nat in * by lia.
    apply (stage t _ L) with (m := 0%nat) (sr := fun c => xi (t_first t c - 1)%nat); [lia|cls|exact G0].
  - rewrite angular_loop. eexists. split; [reflexivity|]. replace (pc + (nt + (nt + (pc + nt))))%nat with (2 * pc + 3 * nt)%nat in * by lia.
    apply (stage t _ L) with (m := 0%nat) (sr := fun c => xi (t_first t c - 1)%nat); [lia|cls|exact G0].
Qed.

Lemma class_total : forall l c b, class_of l c = Some b -> (c < fold_right (fun p n => fst p + n)%nat 0%nat l)%nat.
Proof.
  induction l as [|[n b0] l IH]; intros c b H; [discriminate|]. cbn [class_of fold_right fst] in *.
  destruct (Nat.ltb_spec c n); [lia|]. specialize (IH _ _ H). lia.
Qed.

(** curves *)
Theorem curves_steps : forall k fm t pc nt xi d2, fm = FAnalytic \/ fm = FEqDist -> laid_out t (total k pc nt) ->
  (forall c, (c < total k pc nt)%nat -> equidistant (col_of t d2 c)) ->
  exists d, renew k fm t pc nt xi d2 = Some d /\
    (forall p, ~ in_column t (total k pc nt) p -> d p = d2 p) /\
    forall c both, class_of (classes k pc nt) c = Some both ->
      smooth_curve (t_begin t c) (t_end t c) (xi (t_first t c - 2)%nat) (if both then xi (t_first t c - 1)%nat else 0)
        (splint_ed (col_of t d c) xi) (splint_grad_ed (col_of t d c) xi) /\
      forall i, (t_first t c <= i <= t_last t c)%nat ->
        splint_ed (col_of t d c) xi (t_begin t c + INR (i - t_first t c) * t_step t c) = Some (xi i).
Proof.
  intros k fm t pc nt xi d2 F L E. destruct (renew_steps k fm t pc nt xi d2 F L) as [d [D [G1 G2]]].
  exists d. split; [exact D|]. split; [exact G2|]. intros c both C. pose proof (class_total _ _ _ C) as B. fold (total k pc nt) in B.
  specialize (G1 c B). unfold done, right_end in G1. rewrite C in G1.
  assert (Q : equidistant (col_of t d c)) by exact (E c B). destruct both; exact (smooth_ed _ _ _ _ Q G1).
Qed.
Theorem curves_points : forall k t pc nt xi d2, k = Pairs \/ k = Eam \/ k = Tbeam \/ k = Adp -> laid_out t (total k pc nt) ->
  (forall c, (c < total k pc nt)%nat -> listed (col_of t d2 c)) ->
  exists d, renew k FNonEqDist t pc nt xi d2 = Some d /\
    (forall p, ~ in_column t (total k pc nt) p -> d p = d2 p) /\
    forall c both, class_of (classes k pc nt) c = Some both ->
      smooth_curve (t_begin t c) (t_end t c) (xi (t_first t c - 2)%nat) (if both then xi (t_first t c - 1)%nat else 0)
        (fun r => Some (splint_ne (col_of t d c) xi r)) (fun r => Some (splint_grad_ne (col_of t d c) xi r)) /\
      forall i, (t_first t c <= i <= t_last t c)%nat -> splint_ne (col_of t d c) xi (t_xcoord t i) = xi i.
Proof.
  intros k t pc nt xi d2 K L E. destruct (renew_tables k FNonEqDist t pc nt xi d2 K) as [d [D [G1 G2]]]; [unfold table_format; tauto|exact L|].
  exists d. split; [exact D|]. split; [exact G2|]. intros c both C. pose proof (class_total _ _ _ C) as B. fold (total k pc nt) in B.
  specialize (G1 c B). unfold done, right_end in G1. rewrite C in G1. cbn [free_points] in G1.
  assert (Q : listed (col_of t d c)) by exact (E c B). destruct both; exact (smooth_ne _ _ _ _ Q G1).
Qed.
Lemma elstat_points : forall k t pc nt xi d2, k = Elstat \/ k = EamElstat -> (0 < pc)%nat -> renew k FNonEqDist t pc nt xi d2 = None.
Proof.
  intros k t pc nt xi d2 K P.
  assert (A : forall a n r, (0 < n)%nat -> update_elstat FNonEqDist t xi a n r (Some d2) = None).
  { intros a n r N. unfold update_elstat. destruct n; [lia|]. rewrite Nat.add_succ_r, for_up_S by lia.
    match goal with |- match ?x with _ => _ end = _ => destruct x; reflexivity end. }
  assert (B : forall a n r, update_elstat FNonEqDist t xi a n r None = None).
  { intros a n r. unfold update_elstat. apply (for_up_inv (fun _ (s : option arr) => s = None)); [lia|reflexivity|].
    intros i s _ ->. reflexivity. }
  destruct K as [->| ->]; unfold renew; [apply A; exact P|]. rewrite A by lia. apply B.
Qed.
(** example: one pair function of three points *)
Definition ex_tabs : tabs := Tabs (fun _ => 0) (fun _ => 2) (fun _ => 1) (fun _ => 1 / 1) (fun _ => 2%nat) (fun _ => 4%nat) (fun i => INR i - 2).
Lemma ex_laid : laid_out ex_tabs (total Pairs 1 1) /\ forall d c, (c < total Pairs 1 1)%nat ->
  equidistant (col_of ex_tabs d c) /\ listed (col_of ex_tabs d c).
Proof.
  split; [split; [intros c C; cbn; lia|intros c c' C; cbn in C; lia]|].
  intros d c _. split.
  - unfold equidistant. cbn. split; [lra|]. split; [reflexivity|]. split; [lia|lra].
  - unfold listed. cbn [col_of first last xcoord begin endr ex_tabs t_first t_last t_xcoord t_begin t_end].
    split; [lia|]. split; [cbn; lra|]. split; [cbn; lra|]. intros i I. rewrite S_INR. lra.
Qed.
Theorem elstat_stops : exists t pc nt, laid_out t (total Elstat pc nt) /\
  (forall d c, (c < total Elstat pc nt)%nat -> listed (col_of t d c)) /\
  forall xi d2, renew Elstat FNonEqDist t pc nt xi d2 = None.
Proof.
  exists ex_tabs, 1%nat, 1%nat. destruct ex_laid as [A B].
  split; [exact A|]. split; [intros d c H; exact (proj2 (B d c H))|].
  intros xi d2. apply elstat_points; [left; reflexivity|apply Nat.lt_0_1].
Qed.
