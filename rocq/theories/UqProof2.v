(** Hessian *)
From Coq Require Import Reals List Arith Bool Lra Lia FunctionalExtensionality.
From Verif Require Import LoopUtil UqModel UqSpec.
Open Scope R_scope.

Definition pt (d x : vec) (i : nat) (s : R) : vec := upd x i (x i + s * d i).
Definition pt2 (d x : vec) (i j : nat) (s t : R) : vec := upd (upd x i (x i + s * d i)) j (x j + t * d j).

Ltac cmp_tac :=
  apply functional_extensionality; intros k; unfold pt, pt2, upd;
  repeat match goal with
  | |- context [Nat.eqb ?a ?b] => destruct (Nat.eqb_spec a b); subst; try lia; try congruence
  end; try lra.

Section H.
Variable n : nat.
Variable cost : vec -> R.

Lemma diag_eq : forall c0 d i x b h, diag cost c0 d i (HS x b h) =
  HS x (note c0 (pt d x i (-1)) (cost (pt d x i (-1))) (note c0 (pt d x i 1) (cost (pt d x i 1)) b))
    (seth h i i ((cost (pt d x i 1) - 2 * c0 + cost (pt d x i (-1))) / (d i * d i))).
Proof.
  intros. unfold diag. cbn [hx hb hm]. cbv zeta.
  assert (E1 : upd x i (x i + d i) = pt d x i 1) by cmp_tac. rewrite E1.
  assert (E2 : upd (pt d x i 1) i (pt d x i 1 i - 2 * d i) = pt d x i (-1)) by cmp_tac. rewrite E2.
  assert (E3 : upd (pt d x i (-1)) i (pt d x i (-1) i + d i) = x) by cmp_tac. rewrite E3.
  reflexivity.
Qed.
Definition mix (d x : vec) (i j : nat) : R :=
  (cost (pt2 d x i j 1 1) + cost (pt2 d x i j (-1) (-1)) - cost (pt2 d x i j 1 (-1)) - cost (pt2 d x i j (-1) 1)) /
  (4 * d i * d j).
Lemma off_eq : forall c0 d i j x b h, i <> j -> offdiag cost c0 d i j (HS x b h) =
  HS x (note c0 (pt2 d x i j (-1) 1) (cost (pt2 d x i j (-1) 1))
       (note c0 (pt2 d x i j 1 (-1)) (cost (pt2 d x i j 1 (-1))) b))
    (seth (seth h i j (mix d x i j)) j i (mix d x i j)).
Proof.
  intros c0 d i j x b h D. unfold offdiag. cbn [hx hb hm]. cbv zeta.
  assert (E0 : upd x i (x i + d i) = pt d x i 1) by cmp_tac. rewrite E0.
  assert (E1 : upd (pt d x i 1) j (pt d x i 1 j + d j) = pt2 d x i j 1 1) by cmp_tac. rewrite E1.
  assert (E2 : upd (pt2 d x i j 1 1) j (pt2 d x i j 1 1 j - 2 * d j) = pt2 d x i j 1 (-1)) by cmp_tac. rewrite E2.
  assert (E3 : upd (upd (pt2 d x i j 1 (-1)) i (pt2 d x i j 1 (-1) i - 2 * d i)) j
     (upd (pt2 d x i j 1 (-1)) i (pt2 d x i j 1 (-1) i - 2 * d i) j + 2 * d j) = pt2 d x i j (-1) 1) by cmp_tac. rewrite E3.
  assert (E4 : upd (pt2 d x i j (-1) 1) j (pt2 d x i j (-1) 1 j - 2 * d j) = pt2 d x i j (-1) (-1)) by cmp_tac. rewrite E4.
  assert (E5 : upd (upd (pt2 d x i j (-1) (-1)) i (pt2 d x i j (-1) (-1) i + d i)) j
     (upd (pt2 d x i j (-1) (-1)) i (pt2 d x i j (-1) (-1) i + d i) j + d j) = x) by cmp_tac. rewrite E5.
  unfold mix. reflexivity.
Qed.

(** *** the stored better fit *)
Section B.
Variables (c0 : R) (d x : vec).
Definition tested (y : vec) : Prop := one_step n d x y \/ opposite_steps n d x y.
Definition Binv (b : better) : Prop :=
  snd b = very_large \/ (snd b = cost (fst b) /\ snd b < c0 /\ snd b < very_large /\ tested (fst b)).
Lemma note_inv : forall y b, tested y -> Binv b -> Binv (note c0 y (cost y) b).
Proof.
  intros y b T I. unfold note. destruct (Rlt_dec (cost y) c0) as [L|L]; [|exact I].
  destruct (Rlt_dec (cost y) (snd b)) as [L'|L']; [|exact I]. right. cbn [fst snd].
  split; [reflexivity|]. split; [exact L|]. split; [|exact T].
  destruct I as [I|[_ [_ [I _]]]]; lra.
Qed.
Lemma note_le : forall y c b, snd (note c0 y c b) <= snd b.
Proof. intros. unfold note. destruct (Rlt_dec c c0); [|lra]. destruct (Rlt_dec c (snd b)); simpl; lra. Qed.
Lemma note_min : forall y c b, c < c0 -> snd (note c0 y c b) <= c.
Proof. intros. unfold note. destruct (Rlt_dec c c0); [|lra]. destruct (Rlt_dec c (snd b)); simpl; lra. Qed.

Lemma pt_tested : forall i s, (i < n)%nat -> (s = 1 \/ s = -1) -> tested (pt d x i s).
Proof.
  intros i s L S. left. exists i, s. split; [exact L|]. split; [exact S|]. intros k. unfold pt, upd.
  destruct (Nat.eqb_spec k i); subst; reflexivity.
Qed.
Lemma pt2_tested : forall i j s, (i < n)%nat -> (j < n)%nat -> i <> j -> (s = 1 \/ s = -1) ->
  tested (pt2 d x i j s (- s)).
Proof.
  intros i j s L L' D S. right. exists i, j, s. repeat (split; [assumption|]). intros k. unfold pt2, upd.
  destruct (Nat.eqb_spec k j), (Nat.eqb_spec k i); subst; try congruence; lra.
Qed.
End B.

Section Run.
Variables (c0 : R) (d x : vec).

Definition dval (i : nat) : R := (cost (pt d x i 1) - 2 * c0 + cost (pt d x i (-1))) / (d i * d i).

Lemma seth_same : forall h i j v, seth h i j v i j = v.
Proof. intros. unfold seth. rewrite !Nat.eqb_refl. reflexivity. Qed.
Lemma seth_other : forall h i j v a b, a <> i \/ b <> j -> seth h i j v a b = h a b.
Proof.
  intros h i j v a b H. unfold seth. destruct (Nat.eqb_spec a i), (Nat.eqb_spec b j); simpl; auto. lia.
Qed.

(** after the diagonal *)
Lemma diag_loop : forall m b h, (m <= n)%nat -> Binv c0 d x b ->
  let s := for_up 0 m (diag cost c0 d) (HS x b h) in
  hx s = x /\ Binv c0 d x (hb s) /\ snd (hb s) <= snd b /\
  (forall i, (i < m)%nat -> hm s i i = dval i) /\
  (forall i sg, (i < m)%nat -> (sg = 1 \/ sg = -1) -> cost (pt d x i sg) < c0 -> snd (hb s) <= cost (pt d x i sg)).
Proof.
  induction m; intros b h L I; cbv zeta.
  - rewrite for_up_nil. cbn [hx hb hm]. split; [reflexivity|]. split; [exact I|]. split; [lra|]. split; intros; lia.
  - rewrite for_up_S by lia. specialize (IHm b h ltac:(lia) I). cbv zeta in IHm.
    destruct (for_up 0 m (diag cost c0 d) (HS x b h)) as [x1 b1 h1].
    cbn [hx hb hm] in IHm. destruct IHm as [E [I1 [Le [D M]]]]. subst x1. rewrite diag_eq. cbn [hx hb hm].
    split; [reflexivity|]. split; [|split; [|split]].
    + apply note_inv; [apply pt_tested; auto|]. apply note_inv; [apply pt_tested; auto|exact I1].
    + eapply Rle_trans; [apply note_le|]. eapply Rle_trans; [apply note_le|]. exact Le.
    + intros i Li. destruct (Nat.eq_dec i m) as [Q|Q].
      * subst. rewrite seth_same. reflexivity.
      * rewrite seth_other by auto. apply D. lia.
    + intros i sg Li S C. destruct (Nat.eq_dec i m) as [Q|Q].
      * subst i. destruct S as [S|S]; subst sg.
        -- eapply Rle_trans; [apply note_le|]. apply note_min. exact C.
        -- apply note_min. exact C.
      * eapply Rle_trans; [apply note_le|]. eapply Rle_trans; [apply note_le|]. apply M; [lia|exact S|exact C].
Qed.

Lemma inner_loop : forall i m b h, (i < m)%nat -> (m <= n)%nat -> Binv c0 d x b ->
  let s := for_up (S i) m (offdiag cost c0 d i) (HS x b h) in
  hx s = x /\ Binv c0 d x (hb s) /\ snd (hb s) <= snd b /\
  (forall j, (i < j < m)%nat -> hm s i j = mix d x i j /\ hm s j i = mix d x i j) /\
  (forall a c, (a = c \/ (a < i)%nat \/ (c < i)%nat) -> hm s a c = h a c) /\
  (forall j sg, (i < j < m)%nat -> (sg = 1 \/ sg = -1) -> cost (pt2 d x i j sg (- sg)) < c0 ->
     snd (hb s) <= cost (pt2 d x i j sg (- sg))).
Proof.
  intros i m. induction m; intros b h Li L I; cbv zeta; [lia|].
  destruct (Nat.eq_dec i m) as [Q|Q].
  - subst m. rewrite for_up_nil. cbn [hx hb hm]. split; [reflexivity|]. split; [exact I|]. split; [lra|].
    split; [intros; lia|]. split; [reflexivity|intros; lia].
  - rewrite for_up_S by lia. specialize (IHm b h ltac:(lia) ltac:(lia) I). cbv zeta in IHm.
    destruct (for_up (S i) m (offdiag cost c0 d i) (HS x b h)) as [x1 b1 h1].
    cbn [hx hb hm] in IHm. destruct IHm as [E [I1 [Le [D [K M]]]]]. subst x1. rewrite off_eq by exact Q.
    cbn [hx hb hm]. split; [reflexivity|]. split; [|split; [|split; [|split]]].
    + apply note_inv.
      { replace (pt2 d x i m (-1) 1) with (pt2 d x i m (-1) (- -1)) by (f_equal; lra). apply pt2_tested; auto; lia. }
      apply note_inv; [apply pt2_tested; auto; lia|exact I1].
    + eapply Rle_trans; [apply note_le|]. eapply Rle_trans; [apply note_le|]. exact Le.
    + intros j Lj. destruct (Nat.eq_dec j m) as [Z|Z].
      * subst. split; [rewrite seth_other by lia|]; apply seth_same.
      * rewrite !seth_other by lia. apply D. lia.
    + intros a c H. rewrite !seth_other by lia. apply K. exact H.
    + intros j sg Lj S C. destruct (Nat.eq_dec j m) as [Z|Z].
      * subst j. destruct S as [S|S]; subst sg.
        -- eapply Rle_trans; [apply note_le|]. apply note_min. exact C.
        -- replace (- -1) with 1 in * by lra. apply note_min. exact C.
      * eapply Rle_trans; [apply note_le|]. eapply Rle_trans; [apply note_le|]. apply M; [lia|exact S|exact C].
Qed.

Lemma off_loop : forall m b h, (m <= n)%nat -> Binv c0 d x b ->
  let s := for_up 0 m (fun i => for_up (S i) n (offdiag cost c0 d i)) (HS x b h) in
  hx s = x /\ Binv c0 d x (hb s) /\ snd (hb s) <= snd b /\
  (forall i j, (i < m)%nat -> (i < j < n)%nat -> hm s i j = mix d x i j /\ hm s j i = mix d x i j) /\
  (forall a, hm s a a = h a a) /\
  (forall i j sg, (i < m)%nat -> (i < j < n)%nat -> (sg = 1 \/ sg = -1) -> cost (pt2 d x i j sg (- sg)) < c0 ->
     snd (hb s) <= cost (pt2 d x i j sg (- sg))).
Proof.
  induction m; intros b h L I; cbv zeta.
  - rewrite for_up_nil. cbn [hx hb hm]. split; [reflexivity|]. split; [exact I|]. split; [lra|].
    split; [intros; lia|]. split; [reflexivity|intros; lia].
  - rewrite for_up_S by lia. specialize (IHm b h ltac:(lia) I). cbv zeta in IHm.
    destruct (for_up 0 m (fun i => for_up (S i) n (offdiag cost c0 d i)) (HS x b h)) as [x1 b1 h1].
    cbn [hx hb hm] in IHm. destruct IHm as [E [I1 [Le [D [K M]]]]]. subst x1.
    pose proof (inner_loop m n b1 h1 ltac:(lia) (le_n n) I1) as J. cbv zeta in J.
    destruct (for_up (S m) n (offdiag cost c0 d m) (HS x b1 h1)) as [x2 b2 h2].
    cbn [hx hb hm] in J |- *. destruct J as [E2 [I2 [Le2 [D2 [K2 M2]]]]].
    split; [exact E2|]. split; [exact I2|]. split; [lra|]. split; [|split].
    + intros i j Li Lj. destruct (Nat.eq_dec i m) as [Q|Q].
      * subst. apply D2. exact Lj.
      * rewrite !K2 by lia. apply D; lia.
    + intros a. rewrite K2 by auto. apply K.
    + intros i j sg Li Lj S C. destruct (Nat.eq_dec i m) as [Q|Q].
      * subst. apply M2; assumption.
      * eapply Rle_trans; [exact Le2|]. apply M; try assumption. lia.
Qed.
End Run.

(** *** the whole routine *)
Lemma hessian_spec : forall pert x c0 h0 H x' c' flag,
  calc_hessian n cost pert x c0 h0 = (H, x', c', flag) ->
  let d := dist pert x in
  (forall i, (i < n)%nat -> H i i = dval c0 d x i) /\
  (forall i j, (i < j < n)%nat -> H i j = mix d x i j /\ H j i = mix d x i j) /\
  (flag = false -> x' = x /\ c' = c0 /\
     forall y, tested d x y -> cost y < c0 -> very_large <= cost y) /\
  (flag = true -> c' = cost x' /\ c' < c0 /\ tested d x x' /\
     forall y, tested d x y -> c' <= cost y).
Proof.
  intros pert x c0 h0 H x' c' flag E. cbv zeta. unfold calc_hessian in E. cbv zeta in E.
  set (d := dist pert x) in *.
  pose proof (diag_loop c0 d x n ((fun _ => 0), very_large) h0 (le_n n) (or_introl eq_refl)) as D. cbv zeta in D.
  destruct (for_up 0 n (diag cost c0 d) (HS x ((fun _ => 0), very_large) h0)) as [x1 b1 h1].
  cbn [hx hb hm] in D. destruct D as [E1 [I1 [_ [D1 M1]]]]. subst x1.
  pose proof (off_loop c0 d x n b1 h1 (le_n n) I1) as O. cbv zeta in O.
  destruct (for_up 0 n (fun i => for_up (S i) n (offdiag cost c0 d i)) (HS x b1 h1)) as [x2 b2 h2].
  cbn [hx hb hm] in O, E. destruct O as [E2 [I2 [Le [D2 [K2 M2]]]]]. subst x2.
  assert (MIN : forall y, tested d x y -> cost y < c0 -> snd b2 <= cost y).
  { intros y [T|T] C.
    - destruct T as [i [s [Li [S Y]]]]. assert (Ey : y = pt d x i s).
      { apply functional_extensionality. intros k. rewrite Y. unfold pt, upd.
        destruct (Nat.eqb_spec k i); subst; reflexivity. }
      subst y. eapply Rle_trans; [exact Le|]. apply M1; assumption.
    - destruct T as [i [j [s [Li [Lj [Dij [S Y]]]]]]].
      destruct (Nat.lt_ge_cases i j) as [O|O].
      + assert (Ey : y = pt2 d x i j s (- s)).
        { apply functional_extensionality. intros k. rewrite Y. unfold pt2, upd.
          destruct (Nat.eqb_spec k i), (Nat.eqb_spec k j); subst; try congruence; lra. }
        subst y. apply M2; auto.
      + assert (Ey : y = pt2 d x j i (- s) (- - s)).
        { apply functional_extensionality. intros k. rewrite Y. unfold pt2, upd.
          destruct (Nat.eqb_spec k i), (Nat.eqb_spec k j); subst; try congruence; lra. }
        subst y. apply M2; auto; try lia. destruct S; [right|left]; lra. }
  assert (G : H = h2 /\ ((flag = false /\ x' = x /\ c' = c0 /\ snd b2 = very_large) \/
              (flag = true /\ x' = fst b2 /\ c' = snd b2 /\ snd b2 <> very_large))).
  { destruct (Req_EM_T (snd b2) very_large) as [V|V]; inversion E; subst; (split; [reflexivity|]); [left|right]; auto. }
  destruct G as [-> G]. split; [|split; [|split]].
  - intros i L. rewrite K2. apply D1. exact L.
  - intros i j L. apply D2; lia.
  - intros F. destruct G as [[_ [-> [-> V]]]|[F' _]]; [|congruence]. split; [reflexivity|]. split; [reflexivity|].
    intros y T C. rewrite <- V. apply MIN; assumption.
  - intros F. destruct G as [[F' _]|[_ [-> [-> V]]]]; [congruence|].
    destruct I2 as [I2|[I2 [C2 [_ T2]]]]; [contradiction|]. split; [exact I2|]. split; [exact C2|].
    split; [exact T2|]. intros y T. destruct (Rlt_dec (cost y) c0) as [L|L]; [apply MIN; assumption|lra].
Qed.
End H.

(** *** quadratic cost functions *)
Lemma sumr_ext : forall n f g, (forall k, (k < n)%nat -> f k = g k) -> sumr f n = sumr g n.
Proof. induction n; intros f g H; simpl; auto. rewrite (IHn f g), H; auto. Qed.
Lemma sumr_plus : forall n f g, sumr (fun k => f k + g k) n = sumr f n + sumr g n.
Proof. induction n; intros; simpl; [lra|]. rewrite IHn. lra. Qed.
Lemma sumr_scal : forall n a f, sumr (fun k => a * f k) n = a * sumr f n.
Proof. induction n; intros; simpl; [lra|]. rewrite IHn. lra. Qed.
Lemma sumr_upd : forall n (f : nat -> R -> R) x i v, (i < n)%nat ->
  sumr (fun k => f k (upd x i v k)) n = sumr (fun k => f k (x k)) n + (f i v - f i (x i)).
Proof.
  induction n; intros f x i v L; [lia|]. simpl. destruct (Nat.eq_dec i n) as [Q|Q].
  - subst. rewrite (sumr_ext n (fun k => f k (upd x n v k)) (fun k => f k (x k))).
    + unfold upd. rewrite Nat.eqb_refl. lra.
    + intros k Lk. unfold upd. destruct (Nat.eqb_spec k n); [lia|reflexivity].
  - rewrite IHn by lia. replace (upd x i v n) with (x n); [lra|].
    unfold upd. destruct (Nat.eqb_spec n i); [lia|reflexivity].
Qed.

Section Quad.
Variables (n : nat) (c : R) (g : nat -> R) (A : nat -> nat -> R).
Hypothesis sym : forall i j, (i < n)%nat -> (j < n)%nat -> A i j = A j i.
Definition slope (x : vec) (i : nat) : R := g i + sumr (fun l => A i l * x l) n.

Lemma lin_upd : forall k x i v, (i < n)%nat ->
  sumr (fun l => A k l * upd x i v l) n = sumr (fun l => A k l * x l) n + A k i * (v - x i).
Proof. intros k x i v L. rewrite (sumr_upd n (fun l r => A k l * r) x i v L). lra. Qed.
Lemma slope_upd : forall x i s j, (i < n)%nat -> slope (upd x i (x i + s)) j = slope x j + s * A j i.
Proof. intros x i s j L. unfold slope. rewrite lin_upd by exact L. lra. Qed.
Lemma quad_upd : forall x i s, (i < n)%nat ->
  quadratic n c g A (upd x i (x i + s)) = quadratic n c g A x + s * slope x i + s * s * A i i / 2.
Proof.
  intros x i s L. unfold quadratic, slope.
  rewrite (sumr_upd n (fun k r => g k * r) x i (x i + s) L).
  rewrite (sumr_ext n (fun k => upd x i (x i + s) k * sumr (fun l => A k l * upd x i (x i + s) l) n)
     (fun k => upd x i (x i + s) k * sumr (fun l => A k l * x l) n + s * (A k i * upd x i (x i + s) k))).
  2:{ intros k _. rewrite lin_upd by exact L. lra. }
  rewrite sumr_plus, sumr_scal.
  rewrite (sumr_upd n (fun k r => r * sumr (fun l => A k l * x l) n) x i (x i + s) L).
  rewrite (sumr_upd n (fun k r => A k i * r) x i (x i + s) L).
  rewrite (sumr_ext n (fun k => A k i * x k) (fun l => A i l * x l)).
  2:{ intros k Lk. rewrite sym by assumption. reflexivity. }
  lra.
Qed.

Lemma hessian_quadratic : forall pert x h0 H x' c' flag,
  (forall i, (i < n)%nat -> pert i <> 0) ->
  calc_hessian n (quadratic n c g A) pert x (quadratic n c g A x) h0 = (H, x', c', flag) ->
  forall i j, (i < n)%nat -> (j < n)%nat -> H i j = A i j.
Proof.
  intros pert x h0 H x' c' flag P E. destruct (hessian_spec n _ _ _ _ _ _ _ _ _ E) as [D [O _]].
  set (d := dist pert x) in *.
  assert (DN : forall i, (i < n)%nat -> d i <> 0).
  { intros i L. unfold d, dist. destruct (Req_EM_T (x i) 0) as [Z|Z]; [apply P; exact L|].
    apply Rmult_integral_contrapositive_currified; [apply P; exact L|exact Z]. }
  assert (OFF : forall i j, (i < j < n)%nat -> mix (quadratic n c g A) d x i j = A i j).
  { intros i j L. unfold mix. pose proof (DN i ltac:(lia)) as Di. pose proof (DN j ltac:(lia)) as Dj.
    assert (Q : forall s t, quadratic n c g A (pt2 d x i j s t) = quadratic n c g A x + s * d i * slope x i +
       s * d i * (s * d i) * A i i / 2 + t * d j * (slope x j + s * d i * A i j) + t * d j * (t * d j) * A j j / 2).
    { intros s t. unfold pt2. replace (x j) with (upd x i (x i + s * d i) j).
      - rewrite quad_upd by lia. rewrite quad_upd, slope_upd by lia. rewrite (sym j i) by lia. reflexivity.
      - unfold upd. destruct (Nat.eqb_spec j i); [lia|reflexivity]. }
    rewrite !Q. field. split; assumption. }
  intros i j Li Lj. destruct (lt_eq_lt_dec i j) as [[L|L]|L].
  - rewrite (proj1 (O i j (conj L Lj))). apply OFF. lia.
  - subst j. rewrite (D i Li). unfold dval, pt. rewrite !quad_upd by exact Li. field. apply DN. exact Li.
  - rewrite (proj2 (O j i (conj L Li))). rewrite OFF by lia. apply sym; assumption.
Qed.
End Quad.
