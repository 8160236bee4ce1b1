(** Neighbour lists: completeness, soundness, each pair once. *)
From Coq Require Import Reals ZArith List Bool Lia Lra Permutation.
From Verif Require Import Vec NbrModel.
Import ListNotations.
Local Open Scope R_scope.

(** ** make_box *)
Theorem make_box_dual : forall b t v, make_box b = Some (t, v) ->
  sprod (bx b) (bx t) = 1 /\ sprod (bx b) (by_ t) = 0 /\ sprod (bx b) (bz t) = 0 /\
  sprod (by_ b) (bx t) = 0 /\ sprod (by_ b) (by_ t) = 1 /\ sprod (by_ b) (bz t) = 0 /\
  sprod (bz b) (bx t) = 0 /\ sprod (bz b) (by_ t) = 0 /\ sprod (bz b) (bz t) = 1.
Proof.
  intros b t v H. unfold make_box in H. destruct (Req_EM_T 0 _) as [|N]; [discriminate|]. injection H as <- <-.
  destruct b as [[a1 a2 a3] [b1 b2 b3] [c1 c2 c3]]. unfold sprod, vec_prod, unscale in *; simpl in *.
  repeat split; field; auto.
Qed.
(** the volume is the determinant *)
Definition det (b : box) : R := sprod (bx b) (vec_prod (by_ b) (bz b)).
Lemma make_box_spec : forall b, (det b = 0 -> make_box b = None) /\
  (det b <> 0 -> exists t, make_box b = Some (t, det b)).
Proof.
  intros b. unfold make_box, det. destruct (Req_EM_T 0 _) as [E|N]; split; intros H; auto.
  - exfalso. auto.
  - exfalso. auto.
  - eexists. reflexivity.
Qed.

(** combination of the box vectors *)
Definition comb (b : box) (f : vec) : vec :=
  vadd (vadd (vscale (vx f) (bx b)) (vscale (vy f) (by_ b))) (vscale (vz f) (bz b)).
Definition frac (t : box) (p : vec) : vec := V3 (sprod p (bx t)) (sprod p (by_ t)) (sprod p (bz t)).
Lemma frac_comb : forall b t v f, make_box b = Some (t, v) -> frac t (comb b f) = f.
Proof.
  intros b t v f H. unfold make_box in H. destruct (Req_EM_T 0 _) as [|N]; [discriminate|]. injection H as <- <-.
  destruct b as [[a1 a2 a3] [b1 b2 b3] [c1 c2 c3]], f as [p1 p2 p3].
  apply vec_eq; unfold comb, frac, sprod, vec_prod, unscale, vadd, vscale in *; simpl in *; field; auto.
Qed.
Theorem comb_frac : forall b t v p, make_box b = Some (t, v) -> comb b (frac t p) = p.
Proof.
  intros b t v p H. unfold make_box in H. destruct (Req_EM_T 0 _) as [|N]; [discriminate|]. injection H as <- <-.
  destruct b as [[a1 a2 a3] [b1 b2 b3] [c1 c2 c3]], p as [p1 p2 p3].
  apply vec_eq; unfold comb, frac, sprod, vec_prod, unscale, vadd, vscale in *; simpl in *; field; auto.
Qed.

(** ** cell_scale *)
Lemma ceil_ge : forall x, x <= IZR (ceil x).
Proof. intros x. unfold ceil. rewrite opp_IZR. destruct (base_Int_part (- x)). lra. Qed.
Lemma ceil_lt : forall x, IZR (ceil x) < x + 1.
Proof. intros x. unfold ceil. rewrite opp_IZR. destruct (base_Int_part (- x)). lra. Qed.
Lemma ceil_nonneg : forall x, 0 <= x -> (0 <= ceil x)%Z.
Proof. intros x H. pose proof (ceil_ge x). apply le_IZR. lra. Qed.

(** ** visited images *)
Lemma zrange_in : forall s z, In z (zrange s) <-> (- s <= z <= s)%Z.
Proof.
  intros s z. unfold zrange. rewrite in_map_iff. split.
  - intros (k & E & K). apply in_seq in K. lia.
  - intros H. exists (Z.to_nat (z + s)). split; [lia|]. apply in_seq. lia.
Qed.
Lemma zrange_nodup : forall s, NoDup (zrange s).
Proof.
  intros s. unfold zrange. apply FinFun.Injective_map_NoDup; [|apply seq_NoDup]. intros a b H. lia.
Qed.
Definition within (s n : image) : Prop :=
  let '(sx, sy, sz) := s in let '(ix, iy, iz) := n in
  (- sx <= ix <= sx)%Z /\ (- sy <= iy <= sy)%Z /\ (- sz <= iz <= sz)%Z.
Lemma images_in : forall s n, In n (images s) <-> within s n.
Proof.
  intros [[sx sy] sz] [[ix iy] iz]. unfold images, within. rewrite in_flat_map. split.
  - intros (x & X & H). apply in_flat_map in H. destruct H as (y & Y & H). apply in_map_iff in H. destruct H as (z & E & H).
    injection E as -> -> ->. rewrite zrange_in in *. auto.
  - intros (X & Y & Z). exists ix. rewrite zrange_in. split; auto. apply in_flat_map. exists iy. rewrite zrange_in. split; auto.
    apply in_map_iff. exists iz. rewrite zrange_in. auto.
Qed.
Lemma nodup_flat_map : forall {A B} (f : A -> list B) l, NoDup l -> (forall a, In a l -> NoDup (f a)) ->
  (forall a b x, In a l -> In b l -> In x (f a) -> In x (f b) -> a = b) -> NoDup (flat_map f l).
Proof.
  intros A B f l. induction 1; intros F D; simpl; [constructor|].
  assert (N : NoDup (flat_map f l)) by (apply IHNoDup; [intros; apply F; right; auto|intros a b y P Q; apply (D a b y); right; auto]).
  assert (M : forall y, In y (f x) -> ~ In y (flat_map f l)).
  { intros y Y K. apply in_flat_map in K. destruct K as (a & A1 & A2). assert (x = a) by (apply (D x a y); auto; [left; auto|right; auto]). subst. auto. }
  assert (Fx : NoDup (f x)) by (apply F; left; auto). clear - N M Fx. induction (f x); simpl; auto.
  inversion Fx; subst. constructor.
  - intros K. apply in_app_or in K. destruct K; [auto|]. apply (M a); [left; auto|auto].
  - apply IHl0; auto. intros; apply M; right; auto.
Qed.
Lemma images_nodup : forall s, NoDup (images s).
Proof.
  intros [[sx sy] sz]. unfold images. apply nodup_flat_map; [apply zrange_nodup| |].
  - intros x _. apply nodup_flat_map; [apply zrange_nodup| |].
    + intros y _. apply FinFun.Injective_map_NoDup; [intros a b H; congruence|apply zrange_nodup].
    + intros y y' p _ _ P Q. apply in_map_iff in P, Q. destruct P as (? & <- & _), Q as (? & E & _). congruence.
  - intros x x' p _ _ P Q. apply in_flat_map in P, Q. destruct P as (? & _ & P), Q as (? & _ & Q).
    apply in_map_iff in P, Q. destruct P as (? & <- & _), Q as (? & E & _). congruence.
Qed.
Lemma visits_in : forall lo hi s j n, In (j, n) (visits lo hi s) <-> (lo <= j < hi)%nat /\ within s n.
Proof.
  intros. unfold visits. rewrite in_flat_map. split.
  - intros (k & K & H). apply in_map_iff in H. destruct H as (m & E & H). injection E as -> ->. apply in_seq in K. apply images_in in H. split; [lia|auto].
  - intros [J W]. exists j. rewrite in_seq. split; [lia|]. apply in_map. apply images_in. auto.
Qed.
Lemma visits_nodup : forall lo hi s, NoDup (visits lo hi s).
Proof.
  intros. unfold visits. apply nodup_flat_map; [apply seq_NoDup| |].
  - intros j _. apply FinFun.Injective_map_NoDup; [intros a b H; congruence|apply images_nodup].
  - intros j j' p _ _ P Q. apply in_map_iff in P, Q. destruct P as (? & <- & _), Q as (? & E & _). congruence.
Qed.

Section Config.
Variables (natoms atom_count : nat) (pos : nat -> vec) (typ : nat -> nat) (b : box).
Variables (rcut : nat -> nat -> R) (scale : image) (full : bool).

Notation shift i j n := (shifted b (vsub (pos j) (pos i)) n).
(** independent description: displacement from atom i to image n of atom j *)
Definition displacement (i j : nat) (n : image) : vec :=
  let '(ix, iy, iz) := n in
  vsub (vadd (pos j) (comb b (V3 (IZR ix) (IZR iy) (IZR iz)))) (pos i).
Lemma shift_displacement : forall i j n, shift i j n = displacement i j n.
Proof. intros i j [[x y] z]. unfold displacement, shifted, comb. vring. Qed.

Lemma self_true : forall i j n, self i j n = true <-> i = j /\ n = (0, 0, 0)%Z.
Proof.
  intros i j [[x y] z]. unfold self. rewrite !andb_true_iff, Nat.eqb_eq, !Z.eqb_eq. split.
  - intros (((-> & ->) & ->) & ->). auto.
  - intros (-> & E). injection E as -> -> ->. auto.
Qed.

(** i and the image n of j are different and at most rcut apart *)
Definition bond (i j : nat) (n : image) : Prop :=
  ~ (i = j /\ n = (0, 0, 0)%Z) /\ norm (displacement i j n) <= rcut (typ i) (typ j).
Definition bondb (i : nat) (v : nat * image) : bool :=
  if self i (fst v) (snd v) then false
  else if Rle_dec (norm (shift i (fst v) (snd v))) (rcut (typ i) (typ (fst v))) then true else false.
Lemma bondb_true : forall i j n, bondb i (j, n) = true <-> bond i j n.
Proof.
  intros i j n. unfold bondb, bond. simpl. rewrite <- shift_displacement. rewrite <- self_true.
  destruct (self i j n).
  - split; [discriminate|]. intros [A _]. exfalso. auto.
  - destruct (Rle_dec _ _); split; intros H; try discriminate; try tauto. split; [congruence|auto].
Qed.
Definition overlap (i j : nat) (n : image) : Prop :=
  ~ (i = j /\ n = (0, 0, 0)%Z) /\ displacement i j n = v0.

Lemma norm_0 : forall v, norm v = 0 <-> v = v0.
Proof.
  intros v. split.
  - intros H. assert (S : sprod v v = 0) by (rewrite <- norm_sqr, H; ring). destruct v as [a c d]. unfold sprod in S; simpl in S.
    pose proof (Rle_0_sqr a). pose proof (Rle_0_sqr c). pose proof (Rle_0_sqr d). unfold Rsqr in *.
    assert (a * a = 0) by lra. assert (c * c = 0) by lra. assert (d * d = 0) by lra.
    apply vec_eq; simpl; apply Rsqr_eq_0; auto.
  - intros ->. unfold norm, sprod, v0; simpl. replace (0 * 0 + 0 * 0 + 0 * 0) with 0 by ring. apply sqrt_0.
Qed.

Lemma count_spec : forall i l num,
  match fold_left (count_one pos typ b rcut i) l (Some num) with
  | None => exists v, In v l /\ overlap i (fst v) (snd v)
  | Some k => k = (num + length (filter (bondb i) l))%nat /\ forall v, In v l -> ~ overlap i (fst v) (snd v)
  end.
Proof.
  intros i. assert (NN : forall l, fold_left (count_one pos typ b rcut i) l None = None) by (induction l; auto).
  induction l as [|[j n] l IH]; intros num; cbn [fold_left].
  - simpl. split; [lia|tauto].
  - unfold count_one at 2. 
    assert (G : forall m, ~ overlap i j n -> m = (num + length (filter (bondb i) [(j, n)]))%nat ->
      match fold_left (count_one pos typ b rcut i) l (Some m) with
      | None => exists v, In v ((j, n) :: l) /\ overlap i (fst v) (snd v)
      | Some k => k = (num + length (filter (bondb i) ((j, n) :: l)))%nat /\ forall v, In v ((j, n) :: l) -> ~ overlap i (fst v) (snd v)
      end).
    { intros m NO M. specialize (IH m). destruct (fold_left _ l (Some m)).
      - destruct IH as [-> IH]. split.
        + rewrite M. change ((j, n) :: l) with ([(j, n)] ++ l). rewrite filter_app, app_length. lia.
        + intros v [<-|V]; auto.
      - destruct IH as (v & V & O). exists v. split; [right; auto|auto]. }
    destruct (self i j n) eqn:E.
    + apply G.
      * intros [A _]. apply A. apply self_true. auto.
      * simpl. unfold bondb; simpl. rewrite E. simpl. lia.
    + assert (NS : ~ (i = j /\ n = (0, 0, 0)%Z)) by (rewrite <- self_true; congruence).
      destruct (Req_EM_T _ 0) as [Z|Z].
      * rewrite NN. exists (j, n). split; [left; auto|]. split; [exact NS|]. simpl. rewrite <- shift_displacement. apply norm_0. auto.
      * assert (NO : ~ overlap i j n) by (intros [_ O]; apply Z; rewrite shift_displacement, O; apply norm_0; auto).
        destruct (Rle_dec _ _) as [L|L]; apply G; auto; simpl; unfold bondb; simpl; rewrite E; destruct (Rle_dec _ _); try contradiction; simpl; lia.
Qed.

Lemma fill_spec : forall i num l acc,
  (length acc + length (filter (bondb i) l) <= num)%nat ->
  fold_left (fill_one pos typ b rcut i num) l (Some acc) =
  Some (acc ++ map (fun v => entry pos typ b i (fst v) (snd v)) (filter (bondb i) l)).
Proof.
  intros i num. induction l as [|[j n] l IH]; intros acc H; cbn [fold_left].
  - simpl. rewrite app_nil_r. auto.
  - unfold fill_one at 2. cbn [filter] in *.
    assert (BB : bondb i (j, n) = if self i j n then false else if Rle_dec (norm (shift i j n)) (rcut (typ i) (typ j)) then true else false) by reflexivity.
    rewrite BB in *. clear BB. destruct (self i j n); [apply IH; auto|].
    destruct (Rle_dec _ _); [|apply IH; auto].
    simpl in H. replace (Nat.ltb (length acc) num) with true by (symmetry; apply Nat.ltb_lt; lia).
    rewrite IH.
    + cbn [map]. rewrite <- app_assoc. auto.
    + rewrite app_length. simpl. lia.
Qed.

(** C26: the passes agree *)
Theorem init_neighbors_spec : forall i,
  let lo := j_start natoms full i in
  match init_neighbors natoms atom_count pos typ b rcut scale full i with
  | Neighbors l => l = map (fun v => entry pos typ b i (fst v) (snd v)) (filter (bondb i) (visits lo (natoms + atom_count) scale)) /\
      forall j n, (lo <= j < natoms + atom_count)%nat -> within scale n -> ~ overlap i j n
  | Overlap => exists j n, (lo <= j < natoms + atom_count)%nat /\ within scale n /\ overlap i j n
  | Out_of_bounds | Count_mismatch => False
  end.
Proof.
  intros i lo. unfold init_neighbors, count_neighbors. fold lo.
  pose proof (count_spec i (visits lo (natoms + atom_count) scale) 0) as C.
  destruct (fold_left _ _ (Some 0%nat)).
  - destruct C as [-> C]. rewrite fill_spec by (simpl; lia). simpl app.
    rewrite map_length. simpl. rewrite Nat.eqb_refl, andb_false_r. split; auto.
    intros j n J W. apply (C (j, n)). apply visits_in. auto.
  - destruct C as ([j n] & V & O). apply visits_in in V. exists j, n. tauto.
Qed.

(** ** completeness: images beyond cell_scale are too far away *)
Definition in_cell (p : vec) : Prop := exists f, p = comb b f /\ 0 <= vx f < 1 /\ 0 <= vy f < 1 /\ 0 <= vz f < 1.

Lemma scale_suffices : forall t v rcutmax i j n,
  make_box b = Some (t, v) -> 0 <= rcutmax -> init_box_vectors t rcutmax = Some scale ->
  in_cell (pos i) -> in_cell (pos j) -> norm (displacement i j n) <= rcutmax -> within scale n.
Proof.
  intros t v rm i j n M R0 S (f & Fi & F1 & F2 & F3) (g & Gj & G1 & G2 & G3) D.
  unfold init_box_vectors in S. destruct ((_ || _ || _)%bool); [discriminate|]. injection S as <-.
  destruct n as [[ix iy] iz]. unfold displacement in D.
  set (h := vsub (vadd g (V3 (IZR ix) (IZR iy) (IZR iz))) f).
  assert (E : vsub (vadd (pos j) (comb b (V3 (IZR ix) (IZR iy) (IZR iz)))) (pos i) = comb b h) by (rewrite Fi, Gj; unfold h, comb; vring).
  rewrite E in D. pose proof (frac_comb b t v h M) as FC.
  assert (B : forall (c : vec) q (k : Z) u, sprod (comb b h) c = q -> q = u + IZR k -> -1 < u < 1 -> (- ceil (rm * norm c) <= k <= ceil (rm * norm c))%Z).
  { intros c q k u Q U I. pose proof (cauchy_schwarz (comb b h) c) as CS. rewrite Q in CS.
    pose proof (norm_nonneg c). assert (norm (comb b h) * norm c <= rm * norm c) by (apply Rmult_le_compat_r; auto).
    pose proof (ceil_ge (rm * norm c)) as CG. assert (A : Rabs q <= IZR (ceil (rm * norm c))) by lra.
    assert (- IZR (ceil (rm * norm c)) <= q <= IZR (ceil (rm * norm c))) by (unfold Rabs in A; destruct (Rcase_abs q); lra).
    assert (P1 : IZR k < IZR (ceil (rm * norm c) + 1)) by (rewrite plus_IZR; lra).
    assert (P2 : IZR (- ceil (rm * norm c) - 1) < IZR k) by (rewrite minus_IZR, opp_IZR; lra).
    apply lt_IZR in P1, P2. lia. }
  unfold frac in FC. injection FC as X Y Z. unfold within. unfold h in X, Y, Z; simpl in X, Y, Z.
  split; [|split].
  - apply (B (bx t) _ ix (vx g - vx f) X); lra.
  - apply (B (by_ t) _ iy (vy g - vy f) Y); lra.
  - apply (B (bz t) _ iz (vz g - vz f) Z); lra.
Qed.

Lemma entry_fields : forall i j n, let e := entry pos typ b i j n in
  n_nr e = j /\ n_image e = n /\ n_type e = typ j /\ n_r e = norm (displacement i j n) /\ n_r2 e = n_r e * n_r e /\ n_inv_r e = 1 / n_r e /\
  (displacement i j n <> v0 -> n_dist e = displacement i j n /\ vscale (n_r e) (n_dist_r e) = displacement i j n).
Proof.
  intros i j n e. unfold e, entry. simpl. rewrite shift_displacement. repeat split; auto;
  assert (norm (displacement i j n) <> 0) by (rewrite norm_0; auto); apply vec_eq; simpl; field; auto.
Qed.

Theorem complete_and_sound : forall t v rcutmax i l,
  make_box b = Some (t, v) -> 0 <= rcutmax -> init_box_vectors t rcutmax = Some scale ->
  (forall k, (natoms <= k < natoms + atom_count)%nat -> in_cell (pos k)) ->
  (forall k m, rcut k m <= rcutmax) ->
  (natoms <= i < natoms + atom_count)%nat ->
  init_neighbors natoms atom_count pos typ b rcut scale full i = Neighbors l ->
  (forall e, In e l -> exists j n, (j_start natoms full i <= j < natoms + atom_count)%nat /\ bond i j n /\
     n_nr e = j /\ n_image e = n /\ n_type e = typ j /\
     n_dist e = displacement i j n /\ n_r e = norm (displacement i j n) /\ n_r2 e = n_r e * n_r e /\ n_inv_r e = 1 / n_r e /\
     0 < n_r e /\ vscale (n_r e) (n_dist_r e) = n_dist e) /\
  (forall j n, (j_start natoms full i <= j < natoms + atom_count)%nat -> bond i j n ->
     exists e, In e l /\ n_nr e = j /\ n_image e = n) /\
  NoDup (map (fun e => (n_nr e, n_image e)) l).
Proof.
  intros t v rm i l M R0 S IC RC Hi H. pose proof (init_neighbors_spec i) as IN. cbv zeta in IN. rewrite H in IN. destruct IN as [-> NO].
  assert (LO : (natoms <= j_start natoms full i)%nat) by (unfold j_start; destruct full; lia).
  assert (W : forall j n, (j_start natoms full i <= j < natoms + atom_count)%nat -> bond i j n -> within scale n).
  { intros j n J [_ B]. apply (scale_suffices t v rm i j n); auto; [apply IC; lia|]. apply Rle_trans with (rcut (typ i) (typ j)); auto. }
  split; [|split].
  - intros e E. apply in_map_iff in E. destruct E as ([j n] & <- & V). apply filter_In in V. destruct V as [V B]. apply visits_in in V. apply bondb_true in B.
    cbn [fst snd]. exists j, n. destruct (entry_fields i j n) as (E1 & E2 & E3 & E4 & E5 & E6 & E7).
    assert (D0 : displacement i j n <> v0). { intros D. apply (NO j n); [tauto|tauto|]. split; [apply B|auto]. }
    destruct (E7 D0) as [E8 E9]. rewrite E8, E9.
    assert (0 < n_r (entry pos typ b i j n)). { rewrite E4. pose proof (norm_nonneg (displacement i j n)). pose proof (proj1 (norm_0 (displacement i j n))). destruct H0; [auto|]. symmetry in H0. tauto. }
    tauto.
  - intros j n J B. exists (entry pos typ b i j n). split; [|split; [apply entry_fields|apply entry_fields]].
    apply in_map_iff. exists (j, n). split; [auto|]. apply filter_In. split; [apply visits_in; split; [auto|eauto]|apply bondb_true; auto].
  - rewrite map_map. simpl. rewrite (map_ext _ (fun v => v)) by (intros []; reflexivity). rewrite map_id. apply NoDup_filter, visits_nodup.
Qed.
End Config.
