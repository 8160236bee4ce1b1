(** Evaluation of splined columns; columns that are linear combinations of others. *)
From Coq Require Import Reals ZArith List Bool Lia Lra.
From Verif Require Import LoopUtil SplineModel SplineProof SplineProof2 SplineProof3 SplineProof4 RescaleModel RescaleProof2.
Local Open Scope R_scope.

Definition npts (f : fn) : nat := (last (col f) - first (col f) + 1)%nat.
Definition nodes (f : fn) : arr := fun i => xcoord (col f) (first (col f) + i)%nat.
Definition vals (f : fn) : arr := fun i => val f (first (col f) + i)%nat.
Definition curv (f : fn) : arr := fun i => d2tab (col f) (first (col f) + i)%nat.
Definition right_slope (both : bool) (f : fn) : R := if both then sr f else 0.

Section Fmt.
Variable fmt3 : bool.
(** layout of a column in a table of format 3 or 4 *)
Definition ok (f : fn) : Prop := listed (col f) /\
  (fmt3 = true -> equidistant (col f) /\ forall i, (i < npts f)%nat -> nodes f i = begin (col f) + INR i * step (col f)).
Definition solved (both : bool) (f : fn) : Prop :=
  gsys (nodes f) (vals f) (npts f) (endc (sl f)) (endc (right_slope both f)) (curv f).

Section Ok.
Variable f : fn.
Hypothesis OK : ok f.
Lemma ok_n2 : (2 <= npts f)%nat.
Proof. destruct OK as ((L & _) & _). unfold npts. lia. Qed.
Lemma ok_inc : increasing (nodes f) (npts f).
Proof. destruct OK as ((_ & _ & _ & I) & _). intros i Hi. unfold nodes, npts in *. replace (first (col f) + S i)%nat with (S (first (col f) + i)) by lia. apply I. lia. Qed.
Lemma ok_begin : nodes f 0%nat = begin (col f).
Proof. destruct OK as ((_ & B & _) & _). unfold nodes. rewrite Nat.add_0_r. auto. Qed.
Lemma ok_end : nodes f (npts f - 1)%nat = endr (col f).
Proof. destruct OK as ((L & _ & E & _) & _). unfold nodes, npts. rewrite E. f_equal. lia. Qed.
Lemma inc_lt : forall i j, (i < j)%nat -> (j < npts f)%nat -> nodes f i < nodes f j.
Proof. intros i j H. induction H; intros; [apply ok_inc; lia|]. apply Rlt_trans with (nodes f m); [apply IHle; lia|apply ok_inc; lia]. Qed.
Lemma inc_le : forall i j, (i <= j)%nat -> (j < npts f)%nat -> nodes f i <= nodes f j.
Proof. intros i j H J. destruct (Nat.eq_dec i j) as [->|]; [lra|]. left. apply inc_lt; lia. Qed.
Lemma begin_end : begin (col f) < endr (col f).
Proof. rewrite <- ok_begin, <- ok_end. pose proof ok_n2. apply inc_lt; lia. Qed.
Lemma slot_unique : forall j k r, (j + 1 < npts f)%nat -> (k + 1 < npts f)%nat -> nodes f j <= r < nodes f (j + 1)%nat ->
  nodes f k <= r < nodes f (k + 1)%nat -> j = k.
Proof.
  intros j k r J K A B. destruct (Nat.lt_trichotomy j k) as [H|[H|H]]; auto; exfalso.
  - pose proof (inc_le (j + 1) k ltac:(lia) ltac:(lia)). lra.
  - pose proof (inc_le (k + 1) j ltac:(lia) ltac:(lia)). lra.
Qed.

Lemma eval_any : forall r, exists k, (k + 1 < npts f)%nat /\
  splint_ne (col f) (val f) r = pv (nodes f) (vals f) (curv f) k r /\
  splint_grad_ne (col f) (val f) r = pg (nodes f) (vals f) (curv f) k r /\
  (begin (col f) <= r -> nodes f k <= r) /\ (r < endr (col f) -> r < nodes f (k + 1)%nat).
Proof.
  intros r. destruct OK as (LI & _). destruct (eval_ne (col f) (val f) LI r) as (k & K & _ & V & G & _ & _ & A & B & _).
  exists k. split; [exact K|]. split; [exact V|]. split; [exact G|]. auto.
Qed.
Lemma eval_in : forall r, begin (col f) <= r < endr (col f) -> exists k, (k + 1 < npts f)%nat /\ nodes f k <= r < nodes f (k + 1)%nat /\
  ev fmt3 f r = Some (pv (nodes f) (vals f) (curv f) k r) /\
  evg fmt3 f r = Some (pg (nodes f) (vals f) (curv f) k r) /\
  splint_ne (col f) (val f) r = pv (nodes f) (vals f) (curv f) k r /\
  splint_grad_ne (col f) (val f) r = pg (nodes f) (vals f) (curv f) k r.
Proof.
  intros r Hr. destruct (eval_any r) as (k & K & V & G & A & B). exists k. split; [exact K|]. split; [split; [apply A|apply B]; lra|].
  assert (Q : nodes f k <= r < nodes f (k + 1)%nat) by (split; [apply A|apply B]; lra).
  unfold ev, evg. destruct fmt3 eqn:F; [|rewrite V, G; auto].
  destruct OK as (_ & E). destruct (E F) as (EQ & X). 
  destruct (eval_ed (col f) (val f) EQ r Hr) as (j & J & _ & V' & G' & _ & _ & A').
  assert (J' : (j + 1 < npts f)%nat) by exact J.
  assert (jk : j = k). { apply (slot_unique j k r); auto. rewrite !X by lia. exact A'. }
  subst j. rewrite V', G'.
  destruct (pv_ext (grid (begin (col f)) (step (col f))) (nodes f) (vals f) (vals f) (curv f) (curv f) (npts f) k r J') as [P1 P2]; auto.
  { intros i Hi. rewrite X by auto. reflexivity. }
  split; [f_equal; exact P1|]. split; [f_equal; exact P2|]. auto.
Qed.
End Ok.

Lemma spl_ok : forall both f, ok f -> ok (spl fmt3 both f).
Proof. intros both f H. exact H. Qed.
Lemma spl_curv : forall both f, ok f -> forall i, (i < npts f)%nat -> exists junk,
  curv (spl fmt3 both f) i = spline_ne (nodes f) (vals f) (npts f) (sl f) (right_slope both f) junk i.
Proof.
  intros both f OK i Hi. exists (fun i => d2tab (col f) (first (col f) + i)%nat). unfold curv, spl. cbn [col d2tab first last].
  assert (H1 : Nat.leb (first (col f)) (first (col f) + i) = true) by (apply Nat.leb_le; lia).
  assert (H2 : Nat.leb (first (col f) + i) (last (col f)) = true).
  { apply Nat.leb_le. destruct OK as ((L & _) & _). unfold npts in Hi. lia. }
  rewrite H1, H2. cbn [andb].
  replace (first (col f) + i - first (col f))%nat with i by lia.
  destruct fmt3 eqn:F; [|reflexivity]. destruct OK as (_ & E). destruct (E F) as ((SP & _ & L & _) & X).
  assert (N2 : (2 <= npts f)%nat) by (unfold npts; lia).
  transitivity (spline_ne (grid (begin (col f)) (step (col f))) (vals f) (npts f) (sl f) (right_slope both f) (fun i => d2tab (col f) (first (col f) + i)%nat) i).
  - apply (spline_ed_is_ne (begin (col f)) (step (col f))); auto.
  - assert (I1 : increasing (grid (begin (col f)) (step (col f))) (npts f)) by (apply grid_increasing; auto).
    assert (I2 : increasing (nodes f) (npts f)). { intros j Hj. rewrite !X by lia. apply I1. auto. }
    apply (gsys_unique (nodes f) (npts f) N2 I2 (vals f) (endc (sl f)) (endc (right_slope both f))); auto.
    + apply (gsys_x_ext (grid (begin (col f)) (step (col f)))); auto.
      * apply system_gsys. apply spline_ne_system; auto.
      * intros j Hj. rewrite X by auto. reflexivity.
    + apply system_gsys. apply spline_ne_system; auto.
Qed.
Lemma spl_solved : forall both f, ok f -> solved both (spl fmt3 both f).
Proof.
  intros both f OK. unfold solved. change (nodes (spl fmt3 both f)) with (nodes f). change (vals (spl fmt3 both f)) with (vals f).
  change (npts (spl fmt3 both f)) with (npts f). change (sl (spl fmt3 both f)) with (sl f). change (right_slope both (spl fmt3 both f)) with (right_slope both f).
  pose proof (ok_n2 f OK) as N2.
  set (junk := fun i => d2tab (col f) (first (col f) + i)%nat).
  apply (gsys_ext (nodes f) (npts f) N2 (vals f) (vals f) _ _ (spline_ne (nodes f) (vals f) (npts f) (sl f) (right_slope both f) junk)).
  - apply system_gsys. apply spline_ne_system; auto. apply ok_inc. auto.
  - auto.
  - intros i Hi. destruct (spl_curv both f OK i Hi) as (j & E). rewrite E.
    apply (gsys_unique (nodes f) (npts f) N2 (ok_inc f OK) (vals f) (endc (sl f)) (endc (right_slope both f))); auto;
    apply system_gsys; apply spline_ne_system; auto; apply ok_inc; auto.
Qed.

(** ** the same grid *)
Definition same_grid (f g : fn) : Prop := npts f = npts g /\ forall i, (i < npts f)%nat -> nodes f i = nodes g i.
Lemma same_begin : forall f g, ok f -> ok g -> same_grid f g -> begin (col f) = begin (col g) /\ endr (col f) = endr (col g).
Proof.
  intros f g F G (N & X). pose proof (ok_n2 f F). rewrite <- (ok_begin f F), <- (ok_begin g G), <- (ok_end f F), <- (ok_end g G), <- N.
  split; apply X; lia.
Qed.

(** [h] is f + k1 g1 + k2 g2 at the nodes, with matching end conditions *)
Theorem lin3 : forall f g1 g2 h k1 k2 el1 el2 el el' er1 er2 er er' e1 e2, ok f -> ok g1 -> ok g2 -> ok h ->
  same_grid f g1 -> same_grid f g2 -> same_grid f h ->
  (forall i, (i < npts f)%nat -> vals h i = vals f i + k1 * vals g1 i + k2 * vals g2 i) ->
  gsys (nodes f) (vals f) (npts f) el er (curv f) ->
  gsys (nodes g1) (vals g1) (npts g1) el1 er1 (curv g1) ->
  gsys (nodes g2) (vals g2) (npts g2) el2 er2 (curv g2) ->
  gsys (nodes h) (vals h) (npts h) el' er' (curv h) ->
  combine k1 el el1 e1 -> combine k2 e1 el2 el' -> combine k1 er er1 e2 -> combine k2 e2 er2 er' ->
  forall r, begin (col f) <= r < endr (col f) -> exists vf gf v1 d1 v2 d2,
  ev fmt3 f r = Some vf /\ evg fmt3 f r = Some gf /\ ev fmt3 g1 r = Some v1 /\ evg fmt3 g1 r = Some d1 /\
  ev fmt3 g2 r = Some v2 /\ evg fmt3 g2 r = Some d2 /\
  ev fmt3 h r = Some (vf + k1 * v1 + k2 * v2) /\ evg fmt3 h r = Some (gf + k1 * d1 + k2 * d2).
Proof.
  intros f g1 g2 h k1 k2 el1 el2 el el' er1 er2 er er' e1 e2 OF O1 O2 OH S1 S2 SH Y GF G1 G2 GH C1 C2 C3 C4 r Hr.
  pose proof (same_begin f g1 OF O1 S1) as [B1 E1]. pose proof (same_begin f g2 OF O2 S2) as [B2 E2]. pose proof (same_begin f h OF OH SH) as [BH EH].
  destruct (eval_in f OF r Hr) as (k & K & I & V & D & _).
  destruct (eval_in g1 O1 r ltac:(lra)) as (j1 & K1 & I1 & V1 & D1 & _).
  destruct (eval_in g2 O2 r ltac:(lra)) as (j2 & K2 & I2 & V2 & D2 & _).
  destruct (eval_in h OH r ltac:(lra)) as (j3 & K3 & I3 & V3 & D3 & _).
  destruct S1 as (N1 & X1), S2 as (N2 & X2), SH as (N3 & X3). rewrite <- N1 in *. rewrite <- N2 in *. rewrite <- N3 in *.
  rewrite <- !X1 in I1 by lia. rewrite <- !X2 in I2 by lia. rewrite <- !X3 in I3 by lia.
  assert (j1 = k) by (apply (slot_unique f OF j1 k r); auto). assert (j2 = k) by (apply (slot_unique f OF j2 k r); auto).
  assert (j3 = k) by (apply (slot_unique f OF j3 k r); auto). subst j1 j2 j3.
  pose proof (ok_n2 f OF) as NN. pose proof (ok_inc f OF) as INC.
  apply (gsys_x_ext _ (nodes f)) in G1; [|auto|intros; symmetry; auto].
  apply (gsys_x_ext _ (nodes f)) in G2; [|auto|intros; symmetry; auto].
  apply (gsys_x_ext _ (nodes f)) in GH; [|auto|intros; symmetry; auto].
  pose proof (gsys_lin (nodes f) (npts f) NN INC k1 _ _ _ _ _ _ _ _ _ _ GF G1 C1 C3) as L1.
  pose proof (gsys_lin (nodes f) (npts f) NN INC k2 _ _ _ _ _ _ _ _ _ _ L1 G2 C2 C4) as L2. cbv beta in L2.
  assert (CV : forall i, (i < npts f)%nat -> curv h i = curv f i + k1 * curv g1 i + k2 * curv g2 i).
  { apply (gsys_unique (nodes f) (npts f) NN INC (vals h) el' er'); auto. apply (gsys_ext (nodes f) (npts f) NN _ _ _ _ _ _ L2); auto.
    intros i Hi. rewrite Y by auto. auto. }
  do 6 eexists. split; [exact V|]. split; [exact D|]. split; [exact V1|]. split; [exact D1|]. split; [exact V2|]. split; [exact D2|].
  rewrite V3, D3.
  destruct (pv_ext (nodes g1) (nodes f) (vals g1) (vals g1) (curv g1) (curv g1) (npts f) k r K) as [P1 Q1]; auto. { intros; symmetry; auto. }
  destruct (pv_ext (nodes g2) (nodes f) (vals g2) (vals g2) (curv g2) (curv g2) (npts f) k r K) as [P2 Q2]; auto. { intros; symmetry; auto. }
  destruct (pv_ext (nodes h) (nodes f) (vals h) (fun i => (vals f i + k1 * vals g1 i) + k2 * vals g2 i) (curv h) (fun i => (curv f i + k1 * curv g1 i) + k2 * curv g2 i) (npts f) k r K) as [P3 Q3]; auto. { intros; symmetry; auto. }
  rewrite P1, P2, P3, Q1, Q2, Q3.
  assert (XK : nodes f k < nodes f (k + 1)%nat) by lra.
  destruct (pv_lin (nodes f) k2 (fun i => vals f i + k1 * vals g1 i) (vals g2) (fun i => curv f i + k1 * curv g1 i) (curv g2) k r XK) as [-> ->].
  destruct (pv_lin (nodes f) k1 (vals f) (vals g1) (curv f) (curv g1) k r XK) as [-> ->]. auto.
Qed.

(** ** columns that are cubic polynomials *)
Definition cubic_column (f : fn) (p0 p1 p2 p3 : R) : Prop :=
  (forall i, (i < npts f)%nat -> vals f i = cub p0 p1 p2 p3 (nodes f i)) /\
  sl f = cub1 p1 p2 p3 (begin (col f)) /\ sr f = cub1 p1 p2 p3 (endr (col f)) /\ sl f <= NATURAL /\ sr f <= NATURAL.
Theorem cubic_eval : forall f p0 p1 p2 p3, ok f -> solved true f -> cubic_column f p0 p1 p2 p3 ->
  (forall r, splint_ne (col f) (val f) r = cub p0 p1 p2 p3 r /\ splint_grad_ne (col f) (val f) r = cub1 p1 p2 p3 r) /\
  (forall r, begin (col f) <= r < endr (col f) -> ev fmt3 f r = Some (cub p0 p1 p2 p3 r) /\ evg fmt3 f r = Some (cub1 p1 p2 p3 r)).
Proof.
  intros f p0 p1 p2 p3 OK SV (Y & SL & SR & LL & LR).
  pose proof (ok_n2 f OK) as N2. pose proof (ok_inc f OK) as INC.
  assert (EL : endc (sl f) = Some (cub1 p1 p2 p3 (nodes f 0%nat))).
  { unfold endc. destruct (Rlt_dec NATURAL (sl f)); [lra|]. rewrite ok_begin by auto. congruence. }
  assert (ER : endc (right_slope true f) = Some (cub1 p1 p2 p3 (nodes f (npts f - 1)%nat))).
  { unfold endc, right_slope. destruct (Rlt_dec NATURAL (sr f)); [lra|]. rewrite ok_end by auto. congruence. }
  unfold solved in SV. rewrite EL, ER in SV.
  assert (CV : forall i, (i < npts f)%nat -> curv f i = cub2 p2 p3 (nodes f i)).
  { apply (gsys_unique (nodes f) (npts f) N2 INC _ _ _ _ _ SV).
    apply (gsys_ext (nodes f) (npts f) N2 _ _ _ _ _ _ (gsys_cubic (nodes f) (npts f) N2 INC p0 p1 p2 p3)); auto. intros i Hi. rewrite Y; auto. }
  assert (P : forall k r, (k + 1 < npts f)%nat -> pv (nodes f) (vals f) (curv f) k r = cub p0 p1 p2 p3 r /\ pg (nodes f) (vals f) (curv f) k r = cub1 p1 p2 p3 r).
  { intros k r K. destruct (pv_ext (nodes f) (nodes f) (vals f) (fun i => cub p0 p1 p2 p3 (nodes f i)) (curv f) (fun i => cub2 p2 p3 (nodes f i)) (npts f) k r K) as [-> ->]; auto.
    apply cubic_piece. replace (k + 1)%nat with (S k) by lia. apply INC. lia. }
  split.
  - intros r. destruct (eval_any f OK r) as (k & K & -> & -> & _). apply P. auto.
  - intros r Hr. destruct (eval_in f OK r Hr) as (k & K & _ & -> & -> & _). destruct (P k r K) as [-> ->]. auto.
Qed.
End Fmt.
