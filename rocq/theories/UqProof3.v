(** Monte Carlo and the perturbation search *)
From Coq Require Import Reals List Arith Bool Lra Lia ZArith Floats.SpecFloat FunctionalExtensionality.
From Verif Require Import LoopUtil UqModel UqSpec UqProof2.
Import ListNotations.
Open Scope R_scope.

Lemma upd_same : forall x i v, upd x i v i = v.
Proof. intros. unfold upd. rewrite Nat.eqb_refl. reflexivity. Qed.
Lemma upd_other : forall x i v k, k <> i -> upd x i v k = x k.
Proof. intros x i v k H. unfold upd. destruct (Nat.eqb_spec k i); [contradiction|reflexivity]. Qed.
Lemma upd_self : forall x i, upd x i (x i) = x.
Proof. intros x i. apply functional_extensionality. intros k. unfold upd. destruct (Nat.eqb_spec k i); subst; reflexivity. Qed.

Section M.
Variable n : nat.
Variable cost : vec -> R.
Variables eig_max resc temp : R.
Hypothesis eig_pos : 0 < eig_max.

Lemma clip_other : forall i w k, k <> i -> clip n eig_max i w k = w k.
Proof.
  intros i w k D. unfold clip. cbv zeta. rewrite upd_other by exact D.
  destruct (Rlt_dec (w i) 0); (destruct (Rlt_dec _ eig_max); [rewrite upd_other by exact D|]);
    try (rewrite upd_other by exact D); reflexivity.
Qed.
Lemma clip_ge : forall i w, eig_max <= clip n eig_max i w i.
Proof.
  intros i w. unfold clip. cbv zeta. rewrite upd_same.
  match goal with |- context [if Rlt_dec (?a i) eig_max then upd ?a i eig_max else ?a] => set (w1 := a) end.
  destruct (Rlt_dec (w1 i) eig_max) as [L|L].
  - rewrite upd_same, Rabs_pos_eq; lra.
  - eapply Rle_trans; [|apply Rle_abs]. lra.
Qed.
Lemma clip_id : forall i w, eig_max <= w i -> clip n eig_max i w = w.
Proof.
  intros i w H. unfold clip. cbv zeta. destruct (Rlt_dec (w i) 0); [lra|].
  destruct (Rlt_dec (w i) eig_max); [lra|]. rewrite Rabs_pos_eq by lra. apply upd_self.
Qed.

(** the eigenvalues used *)
Definition clipped (w : vec) : vec := for_up 0 n (clip n eig_max) w.

Lemma clipped_ge : forall w i, (i < n)%nat -> eig_max <= clipped w i.
Proof.
  intros w. unfold clipped. assert (G : forall m i, (i < m)%nat -> eig_max <= for_up 0 m (clip n eig_max) w i).
  { induction m; intros i L; [lia|]. rewrite for_up_S by lia. destruct (Nat.eq_dec i m) as [Q|Q].
    - subst. apply clip_ge.
    - rewrite clip_other by exact Q. apply IHm. lia. }
  apply G.
Qed.
Lemma clipped_id : forall w, (forall i, (i < n)%nat -> eig_max <= w i) -> clipped w = w.
Proof.
  intros w H. unfold clipped. assert (G : forall m, (m <= n)%nat -> for_up 0 m (clip n eig_max) w = w).
  { induction m; intros L; [apply for_up_nil|]. rewrite for_up_S, IHm by lia. apply clip_id. apply H. lia. }
  apply G. lia.
Qed.

Lemma scales_spec : forall r w, fst (scales n eig_max resc r w) = clipped w /\
  forall i, (i < n)%nat -> snd (scales n eig_max resc r w) i = sqrt resc * r i / sqrt (clipped w i).
Proof.
  intros r w. unfold scales, clipped.
  assert (G : forall m, 
    let s := for_up 0 m (fun i s => let w' := clip n eig_max i (fst s) in
      (w', upd (snd s) i (1 / sqrt (w' i) * (sqrt resc * r i)))) (w, fun _ => 0) in
    fst s = for_up 0 m (clip n eig_max) w /\
    forall i, (i < m)%nat -> snd s i = sqrt resc * r i / sqrt (for_up 0 m (clip n eig_max) w i)).
  { induction m; cbv zeta.
    - rewrite !for_up_nil. split; [reflexivity|intros; lia].
    - rewrite !for_up_S by lia. cbv zeta in IHm. destruct IHm as [E P]. cbn [fst snd]. rewrite E.
      split; [reflexivity|]. intros i L. destruct (Nat.eq_dec i m) as [Q|Q].
      + subst. rewrite upd_same. unfold Rdiv. lra.
      + rewrite upd_other by exact Q. rewrite clip_other by exact Q. apply P. lia. }
  apply (G n).
Qed.

Lemma for_sum : forall f m, for_up 0 m (fun j a => a + f j) 0 = sumr f m.
Proof. intros f m. induction m; [reflexivity|]. rewrite for_up_S, IHm by lia. reflexivity. Qed.
Lemma moved_spec : forall v0 lambda x k, moved n v0 lambda x k =
  if (k <? n)%nat then x k + sumr (fun j => v0 j k * lambda j) n else x k.
Proof.
  intros v0 lambda x k. unfold moved.
  assert (G : forall m, for_up 0 m (fun i x => upd x i (x i + for_up 0 n (fun j a => a + v0 j i * lambda j) 0)) x k =
    if (k <? m)%nat then x k + sumr (fun j => v0 j k * lambda j) n else x k).
  { induction m; [rewrite for_up_nil; reflexivity|]. rewrite for_up_S by lia.
    destruct (Nat.eq_dec k m) as [Q|Q].
    - subst k. rewrite upd_same, IHm. destruct (Nat.ltb_spec m m); [lia|]. destruct (Nat.ltb_spec m (S m)); [|lia].
      rewrite (for_sum (fun j => v0 j m * lambda j)). reflexivity.
    - rewrite upd_other by exact Q. rewrite IHm. destruct (Nat.ltb_spec k m), (Nat.ltb_spec k (S m)); try lia; reflexivity. }
  apply G.
Qed.

Lemma move_trial : forall v0 r w x,
  moved n v0 (snd (scales n eig_max resc r w)) x = trial n resc v0 (clipped w) r x.
Proof.
  intros v0 r w x. apply functional_extensionality. intros k. rewrite moved_spec. unfold trial.
  destruct (k <? n)%nat; [|reflexivity]. f_equal. apply sumr_ext. intros j L.
  rewrite (proj2 (scales_spec r w) j L). reflexivity.
Qed.

Section S.
Variables (v0 : nat -> vec) (c0 : R) (rs : nat -> vec) (us : nat -> R).

Lemma mc_moves_spec : forall k x w cb,
  let y := trial n resc v0 (clipped w) (rs k) x in
  (accepts n temp c0 cb (cost y) (us k) /\
   mc_moves n cost eig_max resc temp v0 c0 (rs k) (us k) x w cb = (y, clipped w, cost y, true)) \/
  (~ accepts n temp c0 cb (cost y) (us k) /\
   mc_moves n cost eig_max resc temp v0 c0 (rs k) (us k) x w cb = (y, clipped w, cb, false)).
Proof.
  intros k x w cb. cbv zeta. unfold mc_moves. cbv zeta. rewrite move_trial, (proj1 (scales_spec (rs k) w)).
  unfold accepts. destruct (Rlt_dec _ 0) as [L|L]; [left; split; [left; lra|reflexivity]|].
  destruct (Rle_dec _ _) as [G|G]; [left; split; [right; exact G|reflexivity]|right].
  split; [|reflexivity]. intros [H|H]; [lra|contradiction].
Qed.

(** [m] rejected trials from [x], numbered from [k], then an accepted one *)
Definition next_member (W : vec) (k m : nat) (x : vec) (c : R) (x' : vec) : Prop :=
  (forall m', (m' < m)%nat ->
     ~ accepts n temp c0 c (cost (trial n resc v0 W (rs (k + m')%nat) x)) (us (k + m')%nat)) /\
  x' = trial n resc v0 W (rs (k + m)%nat) x /\ accepts n temp c0 c (cost x') (us (k + m)%nat).

Lemma sample_spec : forall fuel k cnt old w cb x' w' c' wt k',
  mc_sample n cost eig_max resc temp v0 c0 rs us fuel k cnt old w cb = Some (x', w', c', wt, k') ->
  exists m, wt = (cnt + m + 1)%nat /\ k' = (k + m + 1)%nat /\ w' = clipped w /\ c' = cost x' /\
    next_member (clipped w) k m old cb x'.
Proof.
  induction fuel; intros k cnt old w cb x' w' c' wt k' H; [discriminate|]. cbn [mc_sample] in H.
  destruct (mc_moves_spec k old w cb) as [[A E]|[A E]]; rewrite E in H.
  - inversion H; subst. exists 0%nat. replace (k + 0)%nat with k by lia.
    split; [lia|]. split; [lia|]. split; [reflexivity|]. split; [reflexivity|].
    unfold next_member. replace (k + 0)%nat with k by lia. split; [intros; lia|]. split; [reflexivity|exact A].
  - destruct (IHfuel _ _ _ _ _ _ _ _ _ _ H) as [m [E1 [E2 [E3 [E4 [N1 [N2 N3]]]]]]].
    rewrite (clipped_id (clipped w)) in * by (apply clipped_ge).
    exists (S m). split; [lia|]. split; [lia|]. split; [exact E3|]. split; [exact E4|].
    unfold next_member. replace (k + S m)%nat with (S k + m)%nat by lia. split; [|split; assumption].
    intros [|m'] L.
    + replace (k + 0)%nat with k by lia. exact A.
    + replace (k + S m')%nat with (S k + m')%nat by lia. apply N1. lia.
Qed.

(** The recorded lines: every line but the last carries the number of trials made from it
    and the total so far; [K] trials in all; the last line is unfinished business. *)
Inductive recorded (W : vec) : nat -> vec -> R -> list line -> nat -> Prop :=
| rec_last : forall k x c wt at_, recorded W k x c [Line x c wt at_] k
| rec_next : forall k m x c x' l K, next_member W k m x c x' ->
    recorded W (k + m + 1) x' (cost x') l K ->
    recorded W k x c (Line x c (m + 1) (k + m + 1) :: l) K.

Lemma recorded_W : forall W k x c l K, recorded W k x c l K -> forall W', W' = W -> recorded W' k x c l K.
Proof. intros; subst; assumption. Qed.

Lemma members_spec : forall fuel acc k wt x w c l,
  members n cost eig_max resc temp v0 c0 rs us fuel acc k wt k x w c = Some l ->
  exists K, recorded (clipped w) k x c l K /\ List.length l = S acc /\
    l_attempts (last l (Line x c 0 0)) = (K + l_weight (last l (Line x c 0 0)))%nat /\
    (acc = 0%nat -> l_weight (last l (Line x c 0 0)) = wt) /\
    (forall a, acc = S a -> l_weight (last l (Line x c 0 0)) = l_weight (nth a l (Line x c 0 0))).
Proof.
  intros fuel acc. induction acc; intros k wt x w c l H; cbn [members] in H.
  - inversion H; subst. exists k. split; [apply rec_last|]. split; [reflexivity|]. split; [reflexivity|].
    split; [reflexivity|]. intros a E. discriminate.
  - destruct (mc_sample _ _ _ _ _ _ _ _ _ fuel k 0 x w c) as [[[[[x' w'] c'] wt'] k']|] eqn:S; [|discriminate].
    destruct (sample_spec _ _ _ _ _ _ _ _ _ _ _ S) as [m [E1 [E2 [E3 [E4 N]]]]].
    assert (EA : (k + wt')%nat = k') by lia. rewrite EA in H.
    destruct (members _ _ _ _ _ _ _ _ _ fuel acc k' wt' k' x' w' c') as [l'|] eqn:M; [|discriminate].
    inversion H; subst l. destruct (IHacc _ _ _ _ _ _ M) as [K [R [LL [AT [Z P]]]]].
    destruct l' as [|a0 l0]; [simpl in LL; lia|].
    assert (LA : forall d d', last (Line x c wt' k' :: a0 :: l0) d = last (a0 :: l0) d').
    { clear. intros d d'. change (last (Line x c wt' k' :: a0 :: l0) d) with (last (a0 :: l0) d).
      revert a0. induction l0; intros a0; [reflexivity|]. apply IHl0. }
    exists K. split.
    { subst k' wt' c'. replace (0 + m + 1)%nat with (m + 1)%nat by lia.
      apply rec_next with (x' := x'); [exact N|].
      eapply recorded_W; [exact R|]. subst w'. symmetry. apply clipped_id. intros; apply clipped_ge; assumption. }
    split; [simpl in *; lia|]. rewrite !(LA _ (Line x' c' 0 0)). split; [exact AT|]. split; [discriminate|].
    intros a E. inversion E; subst a. destruct acc as [|acc].
    + rewrite Z by reflexivity. reflexivity.
    + rewrite (P acc eq_refl). apply f_equal.
      change (nth (Datatypes.S acc) (Line x c wt' k' :: a0 :: l0) (Line x c 0 0))
        with (nth acc (a0 :: l0) (Line x c 0 0)).
      apply nth_indep. simpl in LL |- *. lia.
Qed.

Lemma recorded_cost : forall W k x c l K, recorded W k x c l K -> c = cost x ->
  forall y, In y l -> l_cost y = cost (l_x y).
Proof.
  intros W k x c l K R. induction R; intros E y I.
  - destruct I as [I|[]]. subst y. simpl. exact E.
  - destruct I as [I|I]; [subst y; simpl; exact E|]. apply IHR; [reflexivity|exact I].
Qed.
Lemma recorded_head : forall W k x c l K, recorded W k x c l K -> exists a t, l = a :: t /\ l_x a = x /\ l_cost a = c.
Proof. intros W k x c l K R. destruct R; do 2 eexists; (split; [reflexivity|]); split; reflexivity. Qed.
End S.

Lemma ensemble_spec : forall v0 rs us fuel acc x w l,
  ensemble n cost eig_max resc temp v0 (cost x) rs us fuel acc x w = Some l ->
  exists K, recorded v0 (cost x) rs us (clipped w) 0 x (cost x) l K /\ List.length l = S acc /\
  (forall y, In y l -> l_cost y = cost (l_x y)) /\
  (forall a, acc = S a -> l_weight (last l (Line x (cost x) 0 0)) = l_weight (nth a l (Line x (cost x) 0 0)) /\
     l_attempts (last l (Line x (cost x) 0 0)) = (K + l_weight (nth a l (Line x (cost x) 0 0)))%nat).
Proof.
  intros v0 rs us fuel acc x w l H. unfold ensemble in H.
  destruct (members_spec v0 (cost x) rs us fuel acc 0 1 x w (cost x) l H) as [K [R [L [A [_ P]]]]].
  exists K. split; [exact R|]. split; [exact L|]. split.
  - eapply recorded_cost; [exact R|reflexivity].
  - intros a E. rewrite A, (P a E). auto.
Qed.
End M.

(** *** the perturbation search *)
Section P.
Variable cost : vec -> R.
Lemma shrink_spec : forall x index aim fuel p c p' c', c = pert_cost cost x index p ->
  shrink cost x index aim fuel p c = Some (p', c') ->
  c' = pert_cost cost x index p' /\ c' <= aim /\ (0 < p -> 0 < p') /\ (p < 0 -> p' < 0).
Proof.
  intros x index aim fuel. induction fuel; intros p c p' c' E H; [discriminate|]. cbn [shrink] in H.
  destruct (Rlt_dec aim c) as [L|L].
  - destruct (IHfuel _ _ _ _ eq_refl H) as [H1 [H2 [H3 H4]]]. split; [exact H1|]. split; [exact H2|].
    split; intros; [apply H3|apply H4]; lra.
  - inversion H; subst. split; [reflexivity|]. split; [lra|]. split; auto.
Qed.
Lemma grow_ratio : forall x index aim fuel lb p c a b, c = pert_cost cost x index p ->
  p = 10 * lb -> pert_cost cost x index lb < aim ->
  grow cost x index aim fuel lb p c = Some (a, b) ->
  b = 10 * a /\ pert_cost cost x index a < aim <= pert_cost cost x index b.
Proof.
  intros x index aim fuel. induction fuel; intros lb p c a b E P L H; [discriminate|]. cbn [grow] in H.
  destruct (Rlt_dec c aim) as [C|C].
  - apply (IHfuel p (p * 10) _ a b eq_refl ltac:(lra)); [subst c; exact C|exact H].
  - inversion H; subst. split; [reflexivity|]. lra.
Qed.

(** A first bracket: the cost aimed at is met at one end or lies between *)
Lemma bracket_spec : forall x index aim neg fuel a b,
  first_bracket cost x index aim neg fuel = Some (a, b) ->
  (a = b /\ pert_cost cost x index a = aim) \/
  (b = 10 * a /\ pert_cost cost x index a < aim <= pert_cost cost x index b).
Proof.
  intros x index aim neg fuel a b H. unfold first_bracket in H. cbv zeta in H.
  destruct (shrink _ _ _ _ _ _ _) as [[p c]|] eqn:S; [|discriminate].
  destruct (shrink_spec _ _ _ _ _ _ _ _ eq_refl S) as [E [L _]].
  destruct fuel as [|fuel]; [discriminate|]. cbn [grow] in H.
  destruct (Rlt_dec c aim) as [C|C].
  - right. eapply grow_ratio; [reflexivity| | |exact H]; [lra|subst c; exact C].
  - left. inversion H; subst. split; [reflexivity|]. lra.
Qed.

(** A parameter whose changes leave the cost below the aim *)
Lemma bracket_never : forall x index aim neg, (forall p, pert_cost cost x index p < aim) ->
  forall fuel, first_bracket cost x index aim neg fuel = None.
Proof.
  intros x index aim neg H fuel. unfold first_bracket. cbv zeta.
  destruct (shrink _ _ _ _ _ _ _) as [[p c]|] eqn:S; [|reflexivity].
  destruct (shrink_spec _ _ _ _ _ _ _ _ eq_refl S) as [E _].
  assert (G : forall fuel lb q r, r < aim -> grow cost x index aim fuel lb q r = None).
  { induction fuel0; intros lb q r L; [reflexivity|]. cbn [grow]. destruct (Rlt_dec r aim); [|contradiction].
    apply IHfuel0. apply H. }
  apply G. subst c. apply H.
Qed.
Lemma zero_never : forall x index aim neg, x index = 0 -> cost x < aim ->
  forall fuel, first_bracket cost x index aim neg fuel = None.
Proof.
  intros x index aim neg Z L. apply bracket_never. intros p. unfold pert_cost.
  replace (x index * (1 + p)) with (x index) by (rewrite Z; lra). rewrite upd_self. exact L.
Qed.
End P.

(** *** witnesses for the Hessian *)
(** cost 10 + 2 (a - b)^2 - (a + b - 2) at a = b = 1, perturbation 1 *)
Definition valley (y : vec) : R := 10 + 2 * ((y 0%nat - y 1%nat) * (y 0%nat - y 1%nat)) - (y 0%nat + y 1%nat - 2).
Lemma valley_missed : forall h0, exists H,
  calc_hessian 2 valley (fun _ => 1) (fun _ => 1) (valley (fun _ => 1)) h0 = (H, (fun _ => 1), valley (fun _ => 1), false) /\
  equal_steps 2 (dist (fun _ => 1) (fun _ => 1)) (fun _ => 1) (fun k => if (k <? 2)%nat then 2 else 1) /\
  valley (fun k => if (k <? 2)%nat then 2 else 1) < valley (fun _ => 1).
Proof.
  intros h0. destruct (calc_hessian 2 valley (fun _ => 1) (fun _ => 1) (valley (fun _ => 1)) h0) as [[[H x'] c'] flag] eqn:E.
  destruct (hessian_spec 2 _ _ _ _ _ _ _ _ _ E) as [_ [_ [F T]]].
  assert (D1 : forall k, dist (fun _ => 1) (fun _ => 1) k = 1).
  { intros k. unfold dist. destruct (Req_EM_T 1 0); lra. }
  destruct flag.
  - exfalso. destruct (T eq_refl) as [C [L [Te _]]]. rewrite C in L. revert L. apply Rle_not_lt. unfold valley.
    destruct Te as [[i [s [Li [S Y]]]]|[i [j [s [Li [Lj [Dij [S Y]]]]]]]]; rewrite !Y, !D1;
      destruct i as [|[|i]]; try lia; try (destruct j as [|[|j]]; try lia); cbn [Nat.eqb];
      destruct S; subst s; lra.
  - exists H. destruct (F eq_refl) as [-> [-> _]]. split; [reflexivity|]. split; [|unfold valley; simpl; lra].
    exists 0%nat, 1%nat, 1. split; [lia|]. split; [lia|]. split; [lia|]. split; [lra|].
    intros k. rewrite !D1. destruct k as [|[|k]]; cbn; lra.
Qed.
(** 0.3 with perturbation 0.1 * 0.3 in binary64 *)
Definition p03 : spec_float := S754_finite false 5404319552844595 (-54).
Definition p01 : spec_float := S754_finite false 7205759403792794 (-56).
Lemma not_restored : SFeqb (restore64 p03 (SFmul 53 1024 p01 p03)) p03 = false /\
  SFltb (restore64 p03 (SFmul 53 1024 p01 p03)) p03 = true.
Proof. split; vm_compute; reflexivity. Qed.

(** *** the last line of the output *)
Lemma recorded_weight : forall n cost resc temp v0 c0 rs us W k x c l K,
  recorded n cost resc temp v0 c0 rs us W k x c l K ->
  forall a d, (S a < List.length l)%nat -> (0 < l_weight (nth a l d))%nat.
Proof.
  intros n cost resc temp v0 c0 rs us W k x c l K R. induction R; intros a d L; [simpl in L; lia|].
  destruct a as [|a]; [simpl; lia|]. apply (IHR a d). simpl in L |- *. lia.
Qed.
Lemma last_line_wrong : forall n cost eig_max resc temp, 0 < eig_max ->
  forall v0 rs us fuel a x w l,
  ensemble n cost eig_max resc temp v0 (cost x) rs us fuel (S a) x w = Some l ->
  exists K, recorded n cost resc temp v0 (cost x) rs us (clipped n eig_max w) 0 x (cost x) l K /\
    (0 < l_weight (last l (Line x (cost x) 0 0)))%nat /\
    (K < l_attempts (last l (Line x (cost x) 0 0)))%nat.
Proof.
  intros n cost eig_max resc temp P v0 rs us fuel a x w l H.
  destruct (ensemble_spec n cost eig_max resc temp P v0 rs us fuel (S a) x w l H) as [K [R [L [_ E]]]].
  destruct (E a eq_refl) as [E1 E2]. exists K. split; [exact R|].
  pose proof (recorded_weight _ _ _ _ _ _ _ _ _ _ _ _ _ _ R a (Line x (cost x) 0 0) ltac:(lia)). lia.
Qed.

(** *** examples *)
Lemma ex_ensemble : exists l, ensemble 1 (fun _ => 1) 1 1 1 (fun _ _ => 1) 1 (fun _ _ => 1) (fun _ => 0) 1 1
  (fun _ => 0) (fun _ => 2) = Some l.
Proof.
  unfold ensemble. cbn [members mc_sample].
  destruct (mc_moves_spec 1 (fun _ => 1) 1 1 1 (fun _ _ => 1) 1 (fun _ _ => 1) (fun _ => 0) 0
    (fun _ => 0) (fun _ => 2) 1) as [[_ E]|[A _]].
  - rewrite E. eexists. reflexivity.
  - exfalso. apply A. right. left. apply exp_pos.
Qed.
Lemma ex_bracket : exists a b, first_bracket (fun y => 1 + (y 0%nat - 1) * (y 0%nat - 1) * 10 ^ 10) (fun _ => 1) 0 (1 + 1 / 2) false 5 = Some (a, b).
Proof.
  unfold first_bracket, shrink, pert_cost, upd. cbn [Nat.eqb]. cbv zeta.
  destruct (Rlt_dec _ _); [exfalso; lra|]. cbn [grow]. unfold pert_cost, upd. cbn [Nat.eqb].
  destruct (Rlt_dec _ _); [|exfalso; lra].
  destruct (Rlt_dec _ _); [exfalso; lra|]. do 2 eexists. reflexivity.
Qed.
