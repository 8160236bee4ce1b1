(** Proofs for C17-C19. *)
From Coq Require Import List Arith QArith Qabs Qround Bool Lia Lqa.
From Verif Require Import ListUtil DiffEvoModel DiffEvoProof LineMinModel.
Import ListNotations.
Local Open Scope Q_scope.

Lemma qle_t : forall a b, Qle_bool a b = true <-> a <= b.
Proof. intros. apply Qle_bool_iff. Qed.
Lemma qle_f : forall a b, Qle_bool a b = false <-> b < a.
Proof.
  intros. split; intro H.
  - apply Qnot_le_lt. intro K. apply Qle_bool_iff in K. congruence.
  - destruct (Qle_bool a b) eqn:E; auto. apply Qle_bool_iff in E. lra.
Qed.
Ltac lcase a b := let E := fresh "Qd" in destruct (Qle_bool a b) eqn:E; [apply qle_t in E | apply qle_f in E].

Lemma cgold_mul : forall x, x == CGOLD * (x / CGOLD).
Proof. intros. unfold CGOLD. field. Qed.

Ltac reduced := match goal with
  | H : context [Qred ?q] |- _ => revert H; reduced; intros H
  | |- context [Qred ?q] => let K := fresh "RQ" in pose proof (Qred_correct q) as K;
      let r := fresh "rq" in set (r := Qred q) in *; clearbody r
  end.

Section Line.
Variable V : Type.
Variable cost : Q -> Q.
Variable dev : Q -> V.
Notation br := (br V). Notation bt := (bt V).
Notation xl := (xl V). Notation xc := (xc V). Notation xr := (xr V).
Notation fl := (fl V). Notation fc := (fc V). Notation fr := (fr V).
Notation pl := (pl V). Notation pc := (pc V). Notation pr := (pr V).
Notation bmem := (bmem V). Notation neval := (neval V). Notation lastdir := (lastdir V).

Lemma store_same : forall m p (x : V), store V m p x p = x.
Proof. intros. unfold store. destruct p; reflexivity. Qed.
Lemma store_other : forall m p q (x : V), q <> p -> store V m p x q = m q.
Proof. intros. unfold store. destruct p, q; try reflexivity; contradiction. Qed.

Record br_inv (f1 f2 : Q) (s : br) : Prop := {
  bi_lc : xl s < xc s; bi_cr : xc s < xr s;
  bi_fl : fl s = cost (xl s); bi_fc : fc s = cost (xc s); bi_fr : fr s = cost (xr s);
  bi_f1 : fc s <= f1; bi_f2 : fc s <= f2;
  bi_pd : pl s <> pc s /\ pc s <> pr s /\ pl s <> pr s;
  bi_ml : bmem s (pl s) = dev (xl s); bi_mc : bmem s (pc s) = dev (xc s); bi_mr : bmem s (pr s) = dev (xr s) }.

Lemma start_inv : forall x1 x2 f1 f2 m, x1 < x2 -> f1 = cost x1 -> f2 = cost x2 ->
  m B1 = dev x1 -> m B2 = dev x2 -> br_inv f1 f2 (br_start V cost dev x1 x2 f1 f2 m).
Proof.
  intros x1 x2 f1 f2 m H -> -> M1 M2. unfold br_start.
  lcase (cost x1) (cost x2).
  - assert (- (x2 - x1) / CGOLD + x2 < x1).
    { pose proof (cgold_mul (- (x2 - x1))). unfold CGOLD in *. lra. }
    reduced. constructor; cbn -[Qplus Qdiv]; auto; try lra. repeat split; discriminate.
  - assert (x2 < (x2 - x1) / CGOLD + x1).
    { pose proof (cgold_mul (x2 - x1)). unfold CGOLD in *. lra. }
    reduced. constructor; cbn -[Qplus Qdiv]; auto; try lra. repeat split; discriminate.
Qed.

Ltac st := rewrite ?store_same, ?store_other by (auto; congruence).

Lemma step_inv : forall f1 f2 s s', br_inv f1 f2 s -> br_step V cost dev s = inr s' -> br_inv f1 f2 s' /\ neval s' = S (neval s).
Proof.
  intros f1 f2 s s' [lc cr efl efc efr h1 h2 (d1 & d2 & d3) ml mc mr] H. unfold br_step in H.
  assert (GR : fr s < fc s -> br_inv f1 f2 (go_right V cost dev s)).
  { intros K. assert (xr s < (xr s - xc s) / CGOLD + xc s).
    { pose proof (cgold_mul (xr s - xc s)). unfold CGOLD in *. lra. }
    unfold go_right. reduced. constructor; cbn -[Qplus Qdiv]; auto; try lra.
    all: try (rewrite store_other by congruence; auto). rewrite store_same; auto. }
  assert (GL : fl s < fc s -> br_inv f1 f2 (go_left V cost dev s)).
  { intros K. assert (- (xc s - xl s) / CGOLD + xc s < xl s).
    { pose proof (cgold_mul (- (xc s - xl s))). unfold CGOLD in *. lra. }
    unfold go_left. reduced. constructor; cbn -[Qplus Qdiv]; auto; try lra.
    all: try (rewrite store_other by congruence; auto). rewrite store_same; auto. }
  assert (MR : forall x l, xr s < x -> br_inv f1 f2 (move_right V cost dev x l s)).
  { intros x l K. unfold move_right. constructor; cbn; auto; try lra.
    all: try (rewrite store_other by congruence; auto). rewrite store_same; auto. }
  assert (ML : forall x l, x < xl s -> br_inv f1 f2 (move_left V cost dev x l s)).
  { intros x l K. unfold move_left. constructor; cbn; auto; try lra.
    all: try (rewrite store_other by congruence; auto). rewrite store_same; auto. }
  pose proof (cgold_mul (xr s - xl s)) as C1. pose proof (cgold_mul (- (xr s - xl s))) as C2.
  qcase (fc s) (fl s); [qcase (fc s) (fr s); [discriminate|qcase (fr s) (fc s)]|
    qcase (fl s) (fc s); [|qcase (fc s) (fr s); [|qcase (fr s) (fc s); [|destruct (lastdir s =? 2)%nat]]]];
  injection H as <-; (split; [|reflexivity]); auto;
  solve [apply MR; unfold CGOLD in *; lra | apply ML; unfold CGOLD in *; lra].
Qed.

Lemma step_done : forall s s', br_step V cost dev s = inl s' -> s' = s /\ fc s < fl s /\ fc s < fr s.
Proof.
  intros s s' H. unfold br_step in H.
  qcase (fc s) (fl s); [qcase (fc s) (fr s); [|qcase (fr s) (fc s)]|
    qcase (fl s) (fc s); [|qcase (fc s) (fr s); [|qcase (fr s) (fc s); [|destruct (lastdir s =? 2)%nat]]]];
  inversion H; subst; auto.
Qed.

Lemma loop_inv : forall f1 f2 fuel s s', br_inv f1 f2 s -> (neval s < MAX_IT)%nat ->
  br_loop V cost dev fuel s = Some s' ->
  br_inv f1 f2 s' /\ fc s' < fl s' /\ fc s' < fr s' /\ (neval s' < MAX_IT)%nat.
Proof.
  intros f1 f2. induction fuel; intros s s' I N H; [discriminate|]. cbn [br_loop] in H.
  destruct (br_step V cost dev s) as [s1|s1] eqn:E.
  - injection H as <-. apply step_done in E. destruct E as (-> & A & B). auto.
  - destruct (step_inv _ _ _ _ I E) as [I1 N1]. destruct (Nat.ltb_spec (neval s1) MAX_IT); [|discriminate].
    apply IHfuel in H; auto.
Qed.

(** The bound of MAX_IT evaluations, not the fuel of the model, ends the loop. *)
Lemma loop_fuel : forall f1 f2 fuel k s, br_inv f1 f2 s -> (MAX_IT - neval s <= fuel)%nat -> (neval s < MAX_IT)%nat ->
  br_loop V cost dev (fuel + k) s = br_loop V cost dev fuel s.
Proof.
  intros f1 f2. induction fuel; intros k s I F N; [lia|]. cbn [br_loop Nat.add].
  destruct (br_step V cost dev s) as [s1|s1] eqn:E; auto.
  destruct (step_inv _ _ _ _ I E) as [I1 N1]. destruct (Nat.ltb_spec (neval s1) MAX_IT); auto.
  apply IHfuel; auto; lia.
Qed.

Theorem bracket_spec : forall x1 x2 m s m', x1 < x2 -> m B1 = dev x1 -> m B2 = dev x2 ->
  bracket V cost dev x1 x2 (cost x1) (cost x2) m = Some (s, m') ->
  xl s < xc s /\ xc s < xr s /\
  fl s = cost (xl s) /\ fc s = cost (xc s) /\ fr s = cost (xr s) /\
  cost (xc s) < cost (xl s) /\ cost (xc s) < cost (xr s) /\
  cost (xc s) <= cost x1 /\ cost (xc s) <= cost x2 /\
  m' B1 = dev (xc s) /\ (neval s < MAX_IT)%nat.
Proof.
  intros x1 x2 m s m' H M1 M2. unfold bracket.
  destruct (br_loop _ _ _ _ _) as [s1|] eqn:E; [|discriminate]. intros [= <- <-].
  pose proof (start_inv x1 x2 _ _ m H eq_refl eq_refl M1 M2) as I.
  apply (loop_inv _ _ _ _ _ I) in E.
  - destruct E as ([? ? A B C ? ? ? ? ? ?] & P & Q & N). rewrite <- A, <- B, <- C.
    repeat split; auto.
  - unfold br_start. lcase (cost x1) (cost x2); cbn; unfold MAX_IT; lia.
Qed.

Theorem bracket_bounded : forall x1 x2 m k, x1 < x2 -> m B1 = dev x1 -> m B2 = dev x2 ->
  br_loop V cost dev (MAX_IT + k) (br_start V cost dev x1 x2 (cost x1) (cost x2) m) =
  br_loop V cost dev MAX_IT (br_start V cost dev x1 x2 (cost x1) (cost x2) m).
Proof.
  intros x1 x2 m k H M1 M2. eapply loop_fuel.
  - apply start_inv; eauto.
  - lia.
  - unfold br_start. lcase (cost x1) (cost x2); cbn; unfold MAX_IT; lia.
Qed.

(** ** brent *)
Notation lo := (lo V). Notation hi := (hi V). Notation z := (z V). Notation w := (w V). Notation v := (v V).
Notation fz := (fz V). Notation fw := (fw V). Notation fv := (fv V). Notation pz := (pz V). Notation pw := (pw V).
Notation pu := (pu V). Notation tmem := (tmem V). Notation pts := (pts V). Notation ed := (ed V). Notation dd := (dd V).

Record bt_inv (a c fb : Q) (s : bt) : Prop := {
  ti_lz : lo s < z s; ti_zh : z s < hi s; ti_a : a <= lo s; ti_c : hi s <= c;
  ti_fz : fz s = cost (z s); ti_fw : fw s = cost (w s); ti_fv : fv s = cost (v s);
  ti_fb : fz s <= fb;
  ti_pd : pz s <> pw s /\ pw s <> pu s /\ pz s <> pu s;
  ti_mz : tmem s (pz s) = dev (z s); ti_mw : tmem s (pw s) = dev (w s);
  ti_pts : forall x, In x (pts s) -> a < x < c }.

Lemma tol_pos : forall tol s, 0 <= tol -> 0 < tolr V tol s.
Proof.
  intros tol s H. unfold tolr. pose proof (Qabs_nonneg (z s)).
  assert (0 <= tol * Qabs (z s)) by (apply Qmult_le_0_compat; auto).
  assert (0 < ZEPS) by reflexivity. lra.
Qed.

(** When the loop goes on, the interval on the far side of the midpoint is wide. *)
Lemma not_done_room : forall tol s, bt_done V tol s = false ->
  (z s < mid V s -> 2 * tolr V tol s < hi s - z s) /\ (mid V s <= z s -> 2 * tolr V tol s < z s - lo s).
Proof.
  intros tol s H. unfold bt_done in H. apply qle_f in H. unfold mid in *. split; intro K.
  - rewrite Qabs_neg in H by lra. lra.
  - rewrite Qabs_pos in H by lra. lra.
Qed.

Lemma golden_room : forall s, lo s < z s -> z s < hi s ->
  (z s < mid V s /\ snd (golden V s) == hi s - z s) \/ (mid V s <= z s /\ snd (golden V s) == - (z s - lo s)).
Proof.
  intros. unfold golden. qcase (z s) (mid V s); cbn [snd]; [left|right]; split; auto; lra.
Qed.

Lemma abs_cases : forall x, (0 <= x /\ Qabs x == x) \/ (x <= 0 /\ Qabs x == - x).
Proof. intros. destruct (Qlt_le_dec x 0); [right|left]; split; try lra; [apply Qabs_neg|apply Qabs_pos]; lra. Qed.

(** Step chosen: the next point lies strictly inside and differs from z; no division by
    zero. *)
Lemma choose_inside : forall tol s, 0 <= tol -> lo s < z s -> z s < hi s -> bt_done V tol s = false ->
  exists d e, choose V tol s = Step d e /\ lo s < next_u V tol s d < hi s /\ ~ next_u V tol s d == z s.
Proof.
  intros tol s Ht L H ND.
  pose proof (tol_pos tol s Ht) as TP. destruct (not_done_room _ _ ND) as [RH RL].
  assert (GO : lo s < next_u V tol s (fst (golden V s)) < hi s /\ ~ next_u V tol s (fst (golden V s)) == z s).
  { unfold golden, next_u. set (t := tolr V tol s) in *. cbv zeta. qcase (z s) (mid V s); cbn [fst].
    - specialize (RH Qc). assert (P : 0 < CGOLD * (hi s - z s)) by (unfold CGOLD; lra).
      assert (P2 : CGOLD * (hi s - z s) < hi s - z s) by (unfold CGOLD; lra).
      lcase t (Qabs (CGOLD * (hi s - z s))); [lra|]. qcase 0 (CGOLD * (hi s - z s)); lra.
    - specialize (RL Qc). assert (P : CGOLD * - (z s - lo s) < 0) by (unfold CGOLD; lra).
      assert (P2 : - (z s - lo s) < CGOLD * - (z s - lo s)) by (unfold CGOLD; lra).
      lcase t (Qabs (CGOLD * - (z s - lo s))); [lra|]. qcase 0 (CGOLD * - (z s - lo s)); lra. }
  unfold choose. set (t := tolr V tol s) in *. destruct (golden V s) as [dg eg] eqn:EG. cbn [fst] in GO.
  qcase t (Qabs (ed s)); [|eauto].
  set (r0 := (z s - w s) * (fz s - fv s)). set (q0 := (z s - v s) * (fz s - fw s)).
  set (p0 := (z s - v s) * q0 - (z s - w s) * r0).
  assert (PQ : exists p q, (if qltb 0 (2 * (q0 - r0)) then (- p0, 2 * (q0 - r0)) else (p0, - (2 * (q0 - r0)))) = (p, q) /\ 0 <= q).
  { qcase 0 (2 * (q0 - r0)); eexists; eexists; (split; [reflexivity|lra]). }
  destruct PQ as (p & q & E & Hq). cbv zeta. rewrite E. clear E.
  destruct (_ && _ && _) eqn:C; [|eauto].
  apply andb_prop in C. destruct C as [C C3]. apply andb_prop in C. destruct C as [_ C2].
  apply qltb_t in C2. apply qltb_t in C3.
  assert (Q0 : 0 < q).
  { apply Qnot_le_lt. intro K. assert (Z : q == 0) by lra. rewrite Z in C2, C3. lra. }
  destruct (Qeq_bool q 0) eqn:EQ. { apply Qeq_bool_iff in EQ. lra. }
  assert (D1 : lo s - z s < p / q) by (apply Qlt_shift_div_l; lra).
  assert (D2 : p / q < hi s - z s) by (apply Qlt_shift_div_r; lra).
  set (d := p / q) in *. clearbody d.
  destruct (_ || _) eqn:C4.
  - eexists; eexists; split; [reflexivity|]. unfold next_u. fold t.
    qcase (z s) (mid V s).
    + specialize (RH Qc0). lcase t (Qabs t); [lra|]. qcase 0 t; lra.
    + specialize (RL Qc0). lcase t (Qabs (- t)); [lra|]. qcase 0 (- t); lra.
  - apply orb_false_elim in C4. destruct C4 as [C4 C5]. apply qltb_f in C4. apply qltb_f in C5.
    eexists; eexists; split; [reflexivity|]. unfold next_u. fold t.
    lcase t (Qabs d).
    + destruct (abs_cases d) as [[A B]|[A B]]; rewrite B in Qd; lra.
    + destruct (abs_cases d) as [[A B]|[A B]]; rewrite B in Qd; qcase 0 d; lra.
Qed.

Lemma update_inv : forall a c fb s u d e, bt_inv a c fb s -> lo s < u < hi s -> ~ u == z s ->
  bt_inv a c fb (bt_update V cost dev s u d e).
Proof.
  intros a c fb s u d e [lz zh la hc ez ew ev hb (d1 & d2 & d3) mz mw hp] [U1 U2] UN. unfold bt_update.
  assert (HP : forall x, In x (u :: pts s) -> a < x < c).
  { intros x [<-|Hx]; [lra|auto]. }
  qcase (fz s) (cost u).
  - assert (X : (if qltb u (z s) then u else lo s) < z s /\ z s < (if qltb u (z s) then hi s else u) /\
      a <= (if qltb u (z s) then u else lo s) /\ (if qltb u (z s) then hi s else u) <= c).
    { qcase u (z s); repeat split; try lra. }
    destruct X as (X1 & X2 & X3 & X4).
    destruct (_ || _); [|destruct (_ || _)]; constructor; cbn; auto;
    rewrite ?store_same, ?store_other by congruence; auto.
  - assert (X : (if qltb u (z s) then lo s else z s) < u /\ u < (if qltb u (z s) then z s else hi s) /\
      a <= (if qltb u (z s) then lo s else z s) /\ (if qltb u (z s) then z s else hi s) <= c).
    { qcase u (z s); repeat split; try lra. }
    destruct X as (X1 & X2 & X3 & X4).
    constructor; cbn; auto; rewrite ?store_same, ?store_other by congruence; auto; lra.
Qed.

Lemma finish_ok : forall a c fb s, bt_inv a c fb s -> bt_finish V s B1 = dev (z s) /\ bt_finish V s B2 = dev (w s).
Proof.
  intros a c fb s I. destruct I as [_ _ _ _ _ _ _ _ (d1 & d2 & d3) mz mw _]. unfold bt_finish.
  rewrite store_same, mz. split; auto.
Qed.

Lemma bt_loop_spec : forall a c fb tol n s, 0 <= tol -> bt_inv a c fb s ->
  match bt_loop V cost dev tol n s with
  | Done _ x x2 f m s' => a < x < c /\ f = cost x /\ f <= fb /\ m B1 = dev x /\ m B2 = dev x2 /\
                          (forall y, In y (pts s') -> a < y < c) /\ (length (pts s') <= length (pts s) + n)%nat
  | TooMany _ => True
  | DivisionByZero _ => False
  end.
Proof.
  intros a c fb tol. induction n; intros s Ht I; [exact Logic.I|]. cbn [bt_loop].
  destruct (bt_done V tol s) eqn:ND.
  - destruct (finish_ok _ _ _ _ I) as [F1 F2]. destruct I. repeat split; auto; try lra; try (apply ti_pts0; auto); lia.
  - destruct (choose_inside tol s Ht (ti_lz _ _ _ _ I) (ti_zh _ _ _ _ I) ND) as (d & e & E & U & UN).
    rewrite E. assert (U' : lo s < Qred (next_u V tol s d) < hi s) by (rewrite Qred_correct; exact U).
    assert (UN' : ~ Qred (next_u V tol s d) == z s) by (rewrite Qred_correct; exact UN).
    pose proof (IHn _ Ht (update_inv _ _ _ _ _ (Qred d) (Qred e) I U' UN')) as K.
    destruct (bt_loop V cost dev tol n _); auto.
    destruct K as (K1 & K2 & K3 & K4 & K5 & K6 & K7). repeat split; auto; try lra; try (apply K6; auto).
    + assert (length (pts (bt_update V cost dev s (Qred (next_u V tol s d)) (Qred d) (Qred e))) = S (length (pts s))).
      { unfold bt_update. destruct (qltb _ _); [|reflexivity]. destruct (_ || _); [reflexivity|]. destruct (_ || _); reflexivity. }
      lia.
Qed.

Theorem brent_spec : forall a b c tol m, 0 <= tol -> a < b < c -> m B1 = dev b ->
  match brent V cost dev a b c (cost b) tol m with
  | Done _ x x2 f m' s' => a < x < c /\ f = cost x /\ f <= cost b /\ m' B1 = dev x /\ m' B2 = dev x2 /\
                          (forall y, In y (pts s') -> a < y < c) /\ (length (pts s') <= 1 + ITMAX)%nat
  | TooMany _ => True
  | DivisionByZero _ => False
  end.
Proof.
  intros a b c tol m Ht [H1 H2] M. unfold brent.
  apply (bt_loop_spec a c (cost b) tol ITMAX (bt_start V cost dev a b c (cost b) m) Ht).
  unfold bt_start.
  assert (A : qltb a c = true) by (apply qltb_t; lra). assert (B : qltb c a = false) by (apply qltb_f; lra).
  rewrite A, B. constructor; cbn -[Qred]; auto; try lra.
  - repeat split; discriminate.
  - intros x [<-|[]]. rewrite Qred_correct. unfold CGOLD. lra.
Qed.
End Line.

(** ** linmin *)
Section LinMin.
Variable V : Type.
Variable costf : list Q -> Q.
Variable devf : list Q -> V.

Lemma qmult_comm_eq : forall a b : Q, a * b = b * a.
Proof. intros [a b] [c d]. unfold Qmult. cbn. f_equal; [apply Z.mul_comm|apply Pos.mul_comm]. Qed.

Lemma moved_is_along : forall xi del x,
  map (fun '(a, d) => a + d) (combine xi (map (fun d => d * x) del)) = along xi del x.
Proof.
  induction xi; intros [|d del] x; cbn; auto. rewrite IHxi, (qmult_comm_eq d x). reflexivity.
Qed.

Theorem linmin_spec : forall xi del f0 m xi' del' f x1 x2 m',
  f0 = costf (along xi del 0) -> m B1 = devf (along xi del 0) ->
  linmin V costf devf xi del f0 m = Some (xi', del', f, x1, x2, m') ->
  xi' = along xi del x1 /\ del' = map (fun d => d * x1) del /\
  f = costf xi' /\ f <= f0 /\ m' B1 = devf xi' /\ m' B2 = devf (along xi del x2).
Proof.
  intros xi del f0 m xi' del' f x1 x2 m' -> M H. unfold linmin in H.
  destruct (bracket V _ _ 0 (1 # 10) _ _ _) as [[s m1]|] eqn:B; [|discriminate].
  set (cf := fun x => costf (along xi del x)) in *. set (df := fun x => devf (along xi del x)) in *.
  assert (S : (0 : Q) < 1 # 10) by reflexivity.
  apply (bracket_spec V cf df 0 (1 # 10) _ s m1 S) in B;
    [|rewrite store_other by discriminate; exact M|apply store_same].
  destruct B as (L & R & _ & Fc & _ & _ & _ & C1 & _ & M1 & _). rewrite Fc in H.
  assert (TT : 0 <= TOL) by (unfold TOL; discriminate).
  pose proof (brent_spec V cf df (xl V s) (xc V s) (xr V s) TOL m1 TT (conj L R) M1) as K.
  destruct (brent V cf df _ _ _ _ TOL m1) as [x y g m2 s2| |]; try discriminate.
  injection H as <- <- <- <- <- <-. destruct K as (K1 & K2 & K3 & K4 & K5 & _).
  rewrite moved_is_along. repeat split; auto. unfold cf in *. lra.
Qed.
End LinMin.

(** ** Witnesses for non-vacuity: a parabola with minimum at 3 *)
Definition pcost (x : Q) : Q := Qred ((x - 3) * (x - 3)).
Definition pdev (x : Q) : Q := x.
Lemma bracket_ex : exists s m', bracket Q pcost pdev 0 (1 # 10) (pcost 0) (pcost (1 # 10)) (fun b => match b with B1 => 0 | _ => 1 # 10 end) = Some (s, m').
Proof.
  set (r := bracket _ _ _ _ _ _ _ _).
  assert (H : match r with Some _ => true | None => false end = true) by (vm_compute; reflexivity).
  clearbody r. destruct r as [[s m]|]; [exists s, m; auto|discriminate].
Qed.

Definition scost (x : Q) : Q := inject_Z (Qfloor (8 * Qabs (x - (1#2)))).
Lemma linmin_ex : exists r, linmin Q (fun l => scost (nth 0 l 0)) (fun l => nth 0 l 0) [0] [1] (scost 0) (fun _ => 0) = Some r.
Proof.
  set (r := linmin _ _ _ _ _ _ _).
  assert (H : match r with Some _ => true | None => false end = true) by (vm_compute; reflexivity).
  clearbody r. destruct r as [p|]; [exists p; auto|discriminate].
Qed.
