(** Search for a perturbation: it ends for continuous costs, and the result. *)
From Coq Require Import Reals List Arith Bool Lia Lra Ranalysis Rtopology.
From Verif Require Import LoopUtil UqModel UqSpec UqProof3 PertModel.
Local Open Scope R_scope.

Section S.
Variable f : R -> R.
Variable aim : R.
Definition enclosed (lb ub : R) : Prop := f lb <= aim <= f ub.
Lemma enclosed_inside : forall lb ub, enclosed lb ub -> outside aim (f lb) (f ub) = false.
Proof. intros lb ub [A B]. unfold outside. destruct (Rlt_dec _ _); [lra|]. destruct (Rlt_dec _ _); [lra|]. auto. Qed.
Lemma at_0 : forall a b, at_section a b 0 = a.
Proof. intros. unfold at_section. cbn [INR]. ring. Qed.
Lemma at_10 : forall a b, at_section a b 10 = b.
Proof. intros. unfold at_section. replace (INR 10) with 10 by (cbn; ring). field. Qed.
Lemma at_step : forall a b i, at_section a b (S i) = at_section a b i + (b - a) / 10.
Proof. intros. unfold at_section. rewrite S_INR. field. Qed.
Lemma scan_spec : forall a b lb ub, aim <= f b -> forall k i c10, (1 <= i)%nat -> (i + k = 11)%nat -> (0 < k)%nat -> c10 = f b -> f (at_section a b (i - 1)) <= aim ->
  exists j, (j < 10)%nat /\ scan f aim a b k i lb ub c10 = (at_section a b j, at_section a b (S j), f b) /\ enclosed (at_section a b j) (at_section a b (S j)) /\ (f (at_section a b (i - 1)) < aim -> f (at_section a b j) < aim).
Proof.
  intros a b lb ub B. induction k; intros i c10 I K P C L; [lia|]. cbn [scan]. 
  assert (C10 : (if Nat.eqb i 10 then f (at_section a b i) else c10) = f b) by (destruct (Nat.eqb_spec i 10) as [E|E]; auto; rewrite E, at_10; auto).
  rewrite C10. destruct (Rle_dec aim (f (at_section a b i))) as [G|G].
  - exists (i - 1)%nat. split; [lia|]. replace (S (i - 1)) with i by lia. split; auto. split; auto. split; auto.
  - destruct (Nat.eqb_spec i 10) as [E|E]; [rewrite E, at_10 in G; contradiction|]. destruct (IHk (S i) (f b)) as (j & J1 & J2 & J3 & J4); auto; try lia; replace (S i - 1)%nat with i in * by lia; [lra|]. exists j. repeat (split; auto). intros _. apply J4. lra.
Qed.
(** one call: a tenth of the interval, again enclosing the aim *)
Lemma subsection_step : forall fuel a b, enclosed a b -> exists j, (j < 10)%nat /\ let l := at_section a b j in let u := at_section a b (S j) in
  enclosed l u /\ (f a < aim -> f l < aim) /\ subsection f aim (S fuel) a b = if Rle_dec ((f b - f a) / aim) (5 / 100) then Some (Some (l, u)) else subsection f aim fuel l u.
Proof.
  intros fuel a b E. pose proof (enclosed_inside a b E) as O. cbn [subsection]. rewrite O. cbn [andb].
  destruct (scan_spec a b a b (proj2 E) 10 1 (f b)) as (j & J & S & EN & ST); auto; try lia; [cbn [Nat.sub]; rewrite at_0; apply E|]. cbn [Nat.sub] in ST. rewrite at_0 in ST. exists j. split; auto. cbv zeta. rewrite S. split; auto.
Qed.
Definition within (a b x : R) : Prop := a <= x <= b \/ b <= x <= a.
Lemma section_within : forall a b j, (j <= 10)%nat -> within a b (at_section a b j).
Proof.
  intros a b j J. unfold within, at_section. assert (0 <= INR j <= 10). { split; [apply pos_INR|]. replace 10 with (INR 10) by (cbn; ring). apply le_INR. auto. }
  destruct (Rle_dec a b); [left|right]; split; nra.
Qed.
Lemma within_trans : forall a b l u x, within a b l -> within a b u -> within l u x -> within a b x.
Proof. unfold within. intros. lra. Qed.
Lemma subsection_spec : forall fuel a b r, enclosed a b -> subsection f aim fuel a b = Some r -> exists l u k, r = Some (l, u) /\ enclosed l u /\ within a b l /\ within a b u /\ (u - l) * 10 ^ S k = b - a.
Proof.
  induction fuel; intros a b r E H; [discriminate|]. destruct (subsection_step fuel a b E) as (j & J & EN & _ & ST). cbv zeta in *. rewrite ST in H. clear ST.
  assert (W1 : within a b (at_section a b j)) by (apply section_within; lia). assert (W2 : within a b (at_section a b (S j))) by (apply section_within; lia).
  assert (D : (at_section a b (S j) - at_section a b j) * 10 = b - a) by (rewrite at_step; field).
  destruct (Rle_dec _ _).
  - injection H as <-. eexists _, _, 0%nat. split; [reflexivity|]. split; auto. split; auto. split; auto. rewrite pow_1. auto.
  - destruct (IHfuel _ _ _ EN H) as (l & u & k & -> & E' & L & U & DD). exists l, u, (S k).
    refine (conj eq_refl (conj E' (conj (within_trans _ _ _ _ _ W1 W2 L) (conj (within_trans _ _ _ _ _ W1 W2 U) _)))). rewrite <- tech_pow_Rmult. rewrite <- D, <- DD. ring.
Qed.
(** ** it ends *)
Lemma pow_big : forall x, exists k, x < 10 ^ k.
Proof. intros x. destruct (Pow_x_infinity 10 ltac:(rewrite Rabs_pos_eq; lra) (x + 1)) as (k & K). exists k. specialize (K k (le_n _)). rewrite Rabs_pos_eq in K by (apply pow_le; lra). lra. Qed.
Lemma ends_from : forall d, 0 < d -> forall P : R -> Prop,
  (forall x y, P x -> P y -> Rabs (x - y) < d -> (f y - f x) / aim <= 5 / 100) ->
  forall k a b, (forall x, within a b x -> P x) -> enclosed a b -> Rabs (b - a) < d * 10 ^ k -> exists fuel, (0 < fuel)%nat /\ forall m, (fuel <= m)%nat -> subsection f aim m a b <> None.
Proof.
  intros d D P U. induction k; intros a b Q E L.
  - exists 1%nat. split; [lia|]. intros [|m] M; [lia|]. destruct (subsection_step m a b E) as (j & J & EN & _ & ->). destruct (Rle_dec _ _) as [R|R]; [discriminate|]. exfalso. apply R. apply U; try (apply Q; unfold within; lra). rewrite Rabs_minus_sym. rewrite pow_O in L. lra.
  - destruct (subsection_step 0 a b E) as (j0 & J0 & EN0 & _).
    assert (H : forall j, (j < 10)%nat -> enclosed (at_section a b j) (at_section a b (S j)) -> exists fuel, (0 < fuel)%nat /\ forall m, (fuel <= m)%nat -> subsection f aim m (at_section a b j) (at_section a b (S j)) <> None).
    { intros j J EN. apply IHk; auto.
      - intros x X. apply Q. eapply within_trans; [apply (section_within a b j); lia|apply (section_within a b (S j)); lia|auto].
      - rewrite at_step. replace (at_section a b j + (b - a) / 10 - at_section a b j) with ((b - a) * / 10) by field. rewrite Rabs_mult, (Rabs_pos_eq (/ 10)) by lra. cbn [pow] in L. lra. }
    assert (FU : forall n, (n <= 10)%nat -> exists fuel, (0 < fuel)%nat /\ forall j, (j < n)%nat -> enclosed (at_section a b j) (at_section a b (S j)) -> forall m, (fuel <= m)%nat -> subsection f aim m (at_section a b j) (at_section a b (S j)) <> None).
    { induction n; intros N; [exists 1%nat; split; [lia|]; intros; lia|]. destruct IHn as (f1 & F1 & A1); [lia|].
      destruct (Rle_dec (f (at_section a b n)) aim) as [X1|X1]; [destruct (Rle_dec aim (f (at_section a b (S n)))) as [X2|X2]|].
      - destruct (H n ltac:(lia) (conj X1 X2)) as (f2 & F2 & A2). exists (Nat.max f1 f2). split; [lia|]. intros j J EN m M. destruct (Nat.eq_dec j n) as [->|]; [apply A2; lia|apply A1; auto; lia].
      - exists f1. split; auto. intros j J EN m M. destruct (Nat.eq_dec j n) as [->|]; [destruct EN; contradiction|apply A1; auto; lia].
      - exists f1. split; auto. intros j J EN m M. destruct (Nat.eq_dec j n) as [->|]; [destruct EN; contradiction|apply A1; auto; lia]. }
    destruct (FU 10%nat ltac:(lia)) as (fu & F & A). exists (S fu). split; [lia|]. intros [|m] M; [lia|]. destruct (subsection_step m a b E) as (j & J & EN & _ & ->). destruct (Rle_dec _ _); [discriminate|]. apply A; auto. lia.
Qed.
Lemma subsection_ends : forall a b, 0 < aim -> (forall x, within a b x -> continuity_pt f x) -> enclosed a b -> exists fuel, forall m, (fuel <= m)%nat -> subsection f aim m a b <> None.
Proof.
  intros a b AIM CT E. set (lo := Rmin a b). set (hi := Rmax a b).
  assert (W : forall x, lo <= x <= hi <-> within a b x) by (intros x; unfold lo, hi, within, Rmin, Rmax; destruct (Rle_dec a b); lra).
  assert (UC : uniform_continuity f (fun x => lo <= x <= hi)) by (apply Heine; [apply compact_P3|intros x X; apply CT, W, X]).
  destruct (UC (mkposreal (5 / 100 * aim) ltac:(lra))) as (d & U). cbn [pos] in U. destruct (pow_big (Rabs (b - a) / d)) as (k & K).
  destruct (ends_from d (cond_pos d) (fun x => lo <= x <= hi)) with (k := k) (a := a) (b := b) as (fu & _ & A); auto.
  - intros x y X Y D. specialize (U x y X Y D). rewrite Rabs_minus_sym in U. apply Rabs_def2 in U. apply (Rmult_le_reg_r aim); auto. unfold Rdiv. rewrite Rmult_assoc, Rinv_l by lra. lra.
  - intros x X. apply W. auto.
  - apply (Rmult_lt_reg_r (/ d)); [apply Rinv_0_lt_compat, cond_pos|]. replace (d * 10 ^ k * / d) with (10 ^ k) by (field; pose proof (cond_pos d); lra). auto.
  - exists fu. auto.
Qed.
(** ** a jump: it never ends *)
Lemma subsection_jump : forall fuel a b, 0 < aim -> f a < aim <= f b -> (forall x, f x < 9 / 10 * aim \/ aim <= f x) -> subsection f aim fuel a b = None.
Proof.
  intros fuel. induction fuel; intros a b AIM E J; auto. destruct (subsection_step fuel a b) as (j & JJ & [EN1 EN2] & ST & ->); [split; lra|]. destruct (Rle_dec _ _) as [L|L]; [|apply IHfuel; auto; split; auto; apply ST; lra].
  exfalso. destruct (J a) as [A|A]; [|lra]. apply (Rmult_le_compat_r aim) in L; [|lra]. unfold Rdiv at 1 in L. rewrite Rmult_assoc, Rinv_l in L by lra. lra.
Qed.
(** ** the line *)
Lemma line_spec : forall l u, enclosed l u -> 0 < l * u -> l <> u -> f l < f u -> exists p, line_pert f aim l u = Pert p /\
  p = Rabs (l + (aim - f l) / (f u - f l) * (u - l)) /\ within (Rabs l) (Rabs u) p.
Proof.
  intros l u [E1 E2] S N L. unfold line_pert. destruct (Req_EM_T (u - l) 0); [lra|]. cbv zeta.
  destruct (Req_EM_T _ 0) as [Z|Z]. { exfalso. apply Rmult_integral in Z. destruct Z as [Z|Z]; [lra|]. revert Z. apply Rinv_neq_0_compat. lra. }
  set (t := (aim - f l) / (f u - f l)). assert (T : 0 <= t <= 1).
  { unfold t. split; [apply Rmult_le_pos; [lra|left; apply Rinv_0_lt_compat; lra]|]. apply (Rmult_le_reg_r (f u - f l)); [lra|]. unfold Rdiv. rewrite Rmult_assoc, Rinv_l by lra. lra. }
  eexists. split; [reflexivity|].
  replace ((aim - f l) / ((f u - f l) / (u - l)) + l + ((aim - f u) / ((f u - f l) / (u - l)) + u)) with (2 * (l + t * (u - l))) by (unfold t; field; lra).
  rewrite Rabs_mult, (Rabs_pos_eq 2) by lra. replace (2 * Rabs (l + t * (u - l)) / 2) with (Rabs (l + t * (u - l))) by field. split; auto. clearbody t.
  assert (SG : (0 < l /\ 0 < u) \/ (l < 0 /\ u < 0)) by nra. unfold within. destruct SG as [[P Q]|[P Q]].
  - rewrite !Rabs_pos_eq by nra. destruct (Rle_dec l u); [left|right]; nra.
  - rewrite !Rabs_left by nra. destruct (Rle_dec l u); [right|left]; nra.
Qed.
End S.

Lemma Rdiv_1_r_loc : forall r, r / 1 = r.
Proof. intros. field. Qed.
Section H.
Variable cost : vec -> R.
Variable x : vec.
Variable index : nat.
Variable aim : R.
Notation f := (pert_cost cost x index).
Definition toward (neg : bool) (p : R) : Prop := if neg then p < 0 else 0 < p.
Lemma bracket_sign : forall neg fuel a b, first_bracket cost x index aim neg fuel = Some (a, b) -> toward neg a.
Proof.
  intros neg fuel a b H. unfold first_bracket in H. cbv zeta in H. destruct (shrink _ _ _ _ _ _ _) as [[p c]|] eqn:S; [|discriminate].
  destruct (shrink_spec _ _ _ _ _ _ _ _ _ eq_refl S) as (_ & _ & P & N). assert (T : toward neg p) by (destruct neg; cbn; [apply N|apply P]; lra). clear S P N.
  assert (G : forall fu lb q c, toward neg lb -> toward neg q -> grow cost x index aim fu lb q c = Some (a, b) -> toward neg a).
  { induction fu; intros lb q d L Q G; [discriminate|]. cbn [grow] in G. destruct (Rlt_dec _ _); [apply (IHfu q (q * 10) _) in G; auto; destruct neg; cbn in *; lra|]. inversion G; subst. auto. }
  eapply G; eauto.
Qed.
(** the result of the whole search *)
Theorem bracketing_spec : forall neg fuel r, 0 < aim -> hess_bracketing cost x index aim neg fuel = Some r ->
  (r = Invalid \/ exists p, r = Pert p /\ exists l u, toward neg l /\ toward neg u /\ f l <= aim <= f u /\ f l < f u /\ within (Rabs l) (Rabs u) p /\
    p = Rabs (l + (aim - f l) / (f u - f l) * (u - l))).
Proof.
  intros neg fuel r AIM H. unfold hess_bracketing in H. destruct (first_bracket _ _ _ _ _ _) as [[a b]|] eqn:FB; [|discriminate].
  pose proof (bracket_sign _ _ _ _ FB) as T. apply bracket_spec in FB.
  assert (E : enclosed f aim a b /\ toward neg b /\ ~ (Rabs b < Rabs a)).
  { unfold enclosed. destruct FB as [[<- FB]|[-> FB]]; [repeat split; auto; lra|]. repeat split; [lra|lra|destruct neg; cbn in *; lra|]. rewrite Rabs_mult, (Rabs_pos_eq 10) by lra. pose proof (Rabs_pos a). lra. }
  destruct E as (E & TB & NS). unfold refine in H. destruct (Rlt_dec _ _); [contradiction|]. destruct (subsection _ _ _ _ _) as [o|] eqn:S; [|discriminate].
  destruct (subsection_spec f aim _ _ _ _ E S) as (l & u & k & -> & [E1 E2] & WL & WU & D). injection H as <-.
  assert (TL : toward neg l) by (destruct neg; cbn in *; unfold within in WL; lra). assert (TU : toward neg u) by (destruct neg; cbn in *; unfold within in WU; lra).
  destruct (Req_EM_T (u - l) 0) as [Z|Z]; [left; unfold line_pert; destruct (Req_EM_T (u - l) 0); [auto|contradiction]|].
  destruct (Req_EM_T (f u) (f l)) as [Y|Y].
  { left. unfold line_pert. destruct (Req_EM_T (u - l) 0); auto. cbv zeta. destruct (Req_EM_T _ 0) as [|N]; auto. exfalso. apply N. rewrite Y. unfold Rdiv. ring. }
  right. assert (L : f l < f u) by lra. destruct (line_spec f aim l u) as (p & P1 & P2 & P3); auto; [split; auto|destruct neg; cbn in *; nra|lra|]. exists p. split; auto. exists l, u. repeat (split; auto).
Qed.
(** the aim met exactly by the first guess: 0/0 *)
Theorem bracketing_exact : forall (neg : bool) fuel, 0 < aim -> f (if neg then - (1 / 1000000) else 1 / 1000000) = aim -> hess_bracketing cost x index aim neg (S fuel) = Some Invalid.
Proof.
  intros neg fuel AIM E. unfold hess_bracketing, first_bracket. cbv zeta. set (p := if neg then - (1 / 1000000) else 1 / 1000000) in *. cbn [shrink]. destruct (Rlt_dec _ _); [lra|]. cbn [grow]. destruct (Rlt_dec _ _); [lra|].
  unfold refine. destruct (Rlt_dec _ _); [lra|]. destruct (subsection_step f aim fuel p p) as (j & J & _ & _ & ->); [unfold enclosed; lra|]. destruct (Rle_dec _ _) as [L|L].
  - unfold line_pert. rewrite at_step. destruct (Req_EM_T _ 0) as [|N]; auto. exfalso. apply N. field.
  - exfalso. apply L. replace (f p - f p) with 0 by ring. unfold Rdiv. rewrite Rmult_0_l. lra.
Qed.
(** a jump over the aim: no end *)
Theorem bracketing_jump : forall neg fuel, 0 < aim -> (forall p, f p < 9 / 10 * aim \/ aim < f p) -> hess_bracketing cost x index aim neg fuel = None.
Proof.
  intros neg fuel AIM J. unfold hess_bracketing. destruct (first_bracket _ _ _ _ _ _) as [[a b]|] eqn:FB; auto. apply bracket_spec in FB. destruct FB as [[-> FB]|[-> FB]].
  - exfalso. destruct (J b); lra.
  - unfold refine. destruct (Rlt_dec _ _) as [L|L]. { exfalso. rewrite Rabs_mult, (Rabs_pos_eq 10) in L by lra. pose proof (Rabs_pos a). lra. }
    rewrite (subsection_jump f aim); auto. intros q. destruct (J q); [left; auto|right; lra].
Qed.
(** a continuous cost that grows beyond the aim *)
Definition dir (neg : bool) (t : R) : R := if neg then - t else t.
Lemma shrink_ends : forall p0, f 0 < aim -> continuity_pt f 0 -> exists fuel, forall m, (fuel <= m)%nat -> exists r, shrink cost x index aim m p0 (f p0) = Some r.
Proof.
  intros p0 Z C. assert (K : exists k, f (p0 / 10 ^ k) <= aim).
  { destruct (C (aim - f 0) ltac:(lra)) as (d & D & H). destruct (pow_big (Rabs p0 / d)) as (k & K). exists k. destruct (Req_dec p0 0) as [->|N]; [unfold Rdiv; rewrite Rmult_0_l; lra|].
    assert (P : 0 < 10 ^ k) by (apply pow_lt; lra). assert (Q : p0 / 10 ^ k <> 0). { unfold Rdiv. apply Rmult_integral_contrapositive. split; auto. apply Rinv_neq_0_compat. lra. }
    specialize (H (p0 / 10 ^ k)). cbn in H. unfold R_dist in H. assert (Y : Rabs (f (p0 / 10 ^ k) - f 0) < aim - f 0).
    { apply H. split; [split; [exact I|auto]|]. rewrite Rminus_0_r. unfold Rdiv. rewrite Rabs_mult, (Rabs_pos_eq (/ 10 ^ k)) by (left; apply Rinv_0_lt_compat; auto).
      apply (Rmult_lt_reg_r (10 ^ k / d)); [apply Rmult_lt_0_compat; [auto|apply Rinv_0_lt_compat; auto]|]. replace (Rabs p0 * / 10 ^ k * (10 ^ k / d)) with (Rabs p0 / d) by (field; lra). replace (d * (10 ^ k / d)) with (10 ^ k) by (field; lra). auto. }
    apply Rabs_def2 in Y. lra. }
  destruct K as (k & K). clear Z C. revert p0 K. induction k; intros p0 K.
  - exists 1%nat. intros [|m] M; [lia|]. cbn [shrink]. rewrite pow_O, (Rdiv_1_r_loc p0) in K. destruct (Rlt_dec _ _); [lra|]. eauto.
  - destruct (IHk (p0 / 10)) as (fu & F). { replace (p0 / 10 / 10 ^ k) with (p0 / 10 ^ S k); auto. cbn [pow]. field. apply pow_nonzero. lra. }
    exists (S fu). intros [|m] M; [lia|]. cbn [shrink]. destruct (Rlt_dec _ _); [apply F; lia|]. eauto.
Qed.
Lemma grow_ends : forall neg B, (forall t, B < t -> aim <= f (dir neg t)) -> forall p lb, toward neg p -> exists fuel, forall m, (fuel <= m)%nat -> exists r, grow cost x index aim m lb p (f p) = Some r.
Proof.
  intros neg B H p lb T. assert (K : exists k, B < Rabs p * 10 ^ k).
  { assert (P : 0 < Rabs p) by (apply Rabs_pos_lt; destruct neg; cbn in T; lra). destruct (pow_big (B / Rabs p)) as (k & K). exists k. apply (Rmult_lt_reg_r (/ Rabs p)); [apply Rinv_0_lt_compat; auto|]. replace (Rabs p * 10 ^ k * / Rabs p) with (10 ^ k) by (field; lra). auto. }
  destruct K as (k & K). revert p lb T K. induction k; intros p lb T K.
  - exists 1%nat. intros [|m] M; [lia|]. cbn [grow]. rewrite pow_O, Rmult_1_r in K. assert (aim <= f p). { replace p with (dir neg (Rabs p)); [apply H; auto|]. destruct neg; cbn in *; [rewrite Rabs_left by auto; ring|rewrite Rabs_pos_eq by lra; auto]. }
    destruct (Rlt_dec _ _); [lra|]. eauto.
  - destruct (IHk (p * 10) p) as (fu & F); [destruct neg; cbn in *; lra|rewrite Rabs_mult, (Rabs_pos_eq 10) by lra; cbn [pow] in K; lra|].
    exists (S fu). intros [|m] M; [lia|]. cbn [grow]. destruct (Rlt_dec _ _); [apply F; lia|]. eauto.
Qed.
Lemma grow_more : forall n lb q d r, grow cost x index aim n lb q d = Some r -> forall m, (n <= m)%nat -> grow cost x index aim m lb q d = Some r.
Proof. induction n; intros lb q d r S m M; [discriminate|]. destruct m; [lia|]. cbn [grow] in *. destruct (Rlt_dec _ _); auto. apply IHn; auto. lia. Qed.
Theorem bracketing_ends : forall neg B, 0 < aim -> f 0 < aim -> (forall p, continuity_pt f p) -> (forall t, B < t -> aim <= f (dir neg t)) ->
  exists fuel, forall m, (fuel <= m)%nat -> exists r, hess_bracketing cost x index aim neg m = Some r.
Proof.
  intros neg B AIM Z C H. set (p0 := if neg then - (1 / 1000000) else 1 / 1000000). destruct (shrink_ends p0 Z (C 0)) as (f1 & F1).
  destruct (F1 f1 (le_n _)) as ((p & c) & S1). assert (S1' : forall m, (f1 <= m)%nat -> shrink cost x index aim m p0 (f p0) = Some (p, c)).
  { intros m M. revert S1 M. clear. revert m. generalize p0 (f p0). induction f1; intros q d m S M; [discriminate|]. destruct m; [lia|]. cbn [shrink] in *. destruct (Rlt_dec _ _); auto. apply IHf1; auto. lia. }
  destruct (shrink_spec _ _ _ _ _ _ _ _ _ eq_refl S1) as (-> & L & P & N). assert (T : toward neg p) by (destruct neg; cbn; [apply N|apply P]; unfold p0; lra).
  destruct (grow_ends neg B H p p T) as (f2 & F2). destruct (F2 f2 (le_n _)) as ((a & b) & S2).
  assert (S2' : forall m, (f2 <= m)%nat -> grow cost x index aim m p p (f p) = Some (a, b)).
  { intros m M. apply (grow_more f2); auto. }
  assert (FB : forall m, (Nat.max f1 f2 <= m)%nat -> first_bracket cost x index aim neg m = Some (a, b)).
  { intros m M. unfold first_bracket. cbv zeta. fold p0. rewrite S1' by lia. apply S2'. lia. }
  pose proof (FB _ (le_n _)) as FB0. pose proof (bracket_spec _ _ _ _ _ _ _ _ FB0) as BS.
  assert (E : enclosed f aim a b /\ ~ (Rabs b < Rabs a)).
  { unfold enclosed. destruct BS as [[-> BS]|[-> BS]]; [split; lra|]. split; [lra|]. rewrite Rabs_mult, (Rabs_pos_eq 10) by lra. pose proof (Rabs_pos a). lra. }
  destruct E as (E & NS). destruct (subsection_ends f aim a b AIM (fun q _ => C q) E) as (f3 & F3).
  exists (Nat.max (Nat.max f1 f2) f3). intros m M. unfold hess_bracketing. rewrite FB by lia. unfold refine. destruct (Rlt_dec _ _); [contradiction|]. specialize (F3 m ltac:(lia)). destruct (subsection _ _ _ _ _) as [[[l u]|]|]; [| |contradiction]; eauto.
Qed.
End H.
