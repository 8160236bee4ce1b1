(** Proofs about contributing atoms, pair histogram and minimal distances. *)
From Coq Require Import Reals ZArith List Bool Lia Lra.
From Verif Require Import Vec PairIndexModel PairIndexProof ConfModel.
Import ListNotations.
Local Open Scope R_scope.

Lemma int_part_spec : forall x z, IZR z <= x < IZR z + 1 -> Int_part x = z.
Proof.
  intros x z [A B]. destruct (base_Int_part x) as [C D].
  assert (IZR (Int_part x) < IZR (z + 1)) by (rewrite plus_IZR; lra).
  assert (IZR z < IZR (Int_part x + 1)) by (rewrite plus_IZR; lra).
  apply lt_IZR in H, H0. lia.
Qed.
Lemma ztrunc_nonneg : forall x z, 0 <= x -> (ztrunc x = z <-> IZR z <= x < IZR z + 1).
Proof.
  intros x z H. unfold ztrunc. destruct (Rlt_dec x 0); [lra|]. split; [intros <-|apply int_part_spec].
  destruct (base_Int_part x). lra.
Qed.
Lemma zero_or_one_spec : forall x, zero_or_one (ztrunc x) = true <-> -1 < x < 2.
Proof.
  intros x. unfold zero_or_one. rewrite andb_true_iff, !Z.leb_le. unfold ztrunc. destruct (Rlt_dec x 0).
  - destruct (base_Int_part (- x)) as [A B]. split.
    + intros [C D]. assert (Int_part (- x) <= 0)%Z by lia. apply IZR_le in H. lra.
    + intros [C D]. assert (IZR (Int_part (- x)) < 1) by lra. apply (lt_IZR _ 1) in H.
      assert (-1 < IZR (Int_part (-x))) by lra. apply (lt_IZR (-1)) in H0. lia.
  - destruct (base_Int_part x) as [A B]. split.
    + intros [C D]. apply IZR_le in C, D. lra.
    + intros [C D]. assert (IZR (Int_part x) < 2) by lra. apply (lt_IZR _ 2) in H.
      assert (-1 < IZR (Int_part x)) by lra. apply (lt_IZR (-1)) in H0. lia.
Qed.

(** ** contributing atoms *)
(** the box and the spheres of the user *)
Definition in_box (c : contrib) (p : vec) : Prop := have_box c = true /\
  exists fa fb fc, 0 <= fa <= 1 /\ 0 <= fb <= 1 /\ 0 <= fc <= 1 /\
  p = vadd (cbox_o c) (vadd (vscale fa (cbox_a c)) (vadd (vscale fb (cbox_b c)) (vscale fc (cbox_c c)))).
Definition in_spheres (c : contrib) (p : vec) : Prop := exists s, In s (spheres c) /\ norm (vsub p (fst s)) < snd s.
Definition orthogonal (c : contrib) : Prop :=
  cbox_a c <> v0 /\ cbox_b c <> v0 /\ cbox_c c <> v0 /\
  sprod (cbox_a c) (cbox_b c) = 0 /\ sprod (cbox_b c) (cbox_c c) = 0 /\ sprod (cbox_c c) (cbox_a c) = 0.
Lemma sprod_pos : forall v, v <> v0 -> 0 < sprod v v.
Proof.
  intros [x y z] H. unfold sprod; simpl. destruct (Req_dec x 0), (Req_dec y 0), (Req_dec z 0); subst; try nra. exfalso. apply H. reflexivity.
Qed.
Lemma spheres_spec : forall c p, existsb (in_sphere p) (spheres c) = true <-> in_spheres c p.
Proof.
  intros c p. rewrite existsb_exists. unfold in_spheres, in_sphere, norm. split; intros (s & I & H); exists s; split; auto.
  - destruct (Rlt_dec _ _); [auto|discriminate].
  - destruct (Rlt_dec _ _); [auto|contradiction].
Qed.
(** exact meaning of the test *)
Definition projections (c : contrib) (p : vec) : Prop := have_box c = true /\
  let d := vsub p (cbox_o c) in
  -1 < sprod d (cbox_a c) / sprod (cbox_a c) (cbox_a c) < 2 /\
  -1 < sprod d (cbox_b c) / sprod (cbox_b c) (cbox_b c) < 2 /\
  -1 < sprod d (cbox_c c) / sprod (cbox_c c) (cbox_c c) < 2.
Theorem contribute_exact : forall c p, (have_box c = true -> cbox_a c <> v0 /\ cbox_b c <> v0 /\ cbox_c c <> v0) ->
  exists b, does_contribute p c = Some b /\ (b = true <-> projections c p \/ in_spheres c p).
Proof.
  intros c p H. unfold does_contribute, projections, cell_no. destruct (have_box c).
  - destruct (H eq_refl) as (A & B & C). apply sprod_pos in A, B, C.
    destruct (Req_EM_T (sprod (cbox_a c) (cbox_a c)) 0); [lra|]. destruct (Req_EM_T (sprod (cbox_b c) (cbox_b c)) 0); [lra|].
    destruct (Req_EM_T (sprod (cbox_c c) (cbox_c c)) 0); [lra|].
    destruct (zero_or_one _ && zero_or_one _ && zero_or_one _)%bool eqn:Z.
    + exists true. split; auto. apply andb_true_iff in Z. destruct Z as [Z Z3]. apply andb_true_iff in Z. destruct Z as [Z1 Z2].
      rewrite zero_or_one_spec in Z1, Z2, Z3. split; [intros _; left; cbv zeta; auto|auto].
    + eexists. split; [reflexivity|]. rewrite spheres_spec. split; [auto|]. intros [(_ & K)|K]; auto. exfalso.
      cbv zeta in K. destruct K as (K1 & K2 & K3). apply zero_or_one_spec in K1, K2, K3. rewrite K1, K2, K3 in Z. discriminate.
  - eexists. split; [reflexivity|]. rewrite spheres_spec. split; [auto|]. intros [(K & _)|K]; [discriminate|auto].
Qed.
(** orthogonal boxes: every atom of the box contributes *)
Theorem box_contributes : forall c p, orthogonal c -> in_box c p \/ in_spheres c p -> does_contribute p c = Some true.
Proof.
  intros c p (A & B & C & AB & BC & CA) H. destruct (contribute_exact c p) as (b & E & S); [auto|]. rewrite E. f_equal. apply S.
  destruct H as [(HB & fa & fb & fc & FA & FB & FC & ->)|H]; [left|right; auto]. split; auto.
  assert (PA := sprod_pos _ A). assert (PB := sprod_pos _ B). assert (PC := sprod_pos _ C).
  set (d := vsub _ _).
  assert (DA : sprod d (cbox_a c) = fa * sprod (cbox_a c) (cbox_a c) + fb * sprod (cbox_a c) (cbox_b c) + fc * sprod (cbox_c c) (cbox_a c)) by (unfold d, sprod; simpl; ring).
  assert (DB : sprod d (cbox_b c) = fa * sprod (cbox_a c) (cbox_b c) + fb * sprod (cbox_b c) (cbox_b c) + fc * sprod (cbox_b c) (cbox_c c)) by (unfold d, sprod; simpl; ring).
  assert (DC : sprod d (cbox_c c) = fa * sprod (cbox_c c) (cbox_a c) + fb * sprod (cbox_b c) (cbox_c c) + fc * sprod (cbox_c c) (cbox_c c)) by (unfold d, sprod; simpl; ring).
  cbv zeta. rewrite DA, DB, DC, AB, BC, CA.
  replace ((fa * sprod (cbox_a c) (cbox_a c) + fb * 0 + fc * 0) / sprod (cbox_a c) (cbox_a c)) with fa by (field; lra).
  replace ((fa * 0 + fb * sprod (cbox_b c) (cbox_b c) + fc * 0) / sprod (cbox_b c) (cbox_b c)) with fb by (field; lra).
  replace ((fa * 0 + fb * 0 + fc * sprod (cbox_c c) (cbox_c c)) / sprod (cbox_c c) (cbox_c c)) with fc by (field; lra). lra.
Qed.
Definition unit_box : contrib := Contrib true v0 (V3 1 0 0) (V3 0 1 0) (V3 0 0 1) [].
Lemma unit_box_orthogonal : orthogonal unit_box.
Proof. unfold orthogonal, unit_box, v0, sprod; simpl. repeat split; try (intros H; injection H; intros; lra); lra. Qed.
Lemma unit_box_ex : in_box unit_box (V3 (1/2) (1/2) (1/2)).
Proof. split; auto. exists (1/2), (1/2), (1/2). repeat split; try lra. unfold unit_box, vadd, vscale, v0; simpl. f_equal; lra. Qed.
Theorem box_refuted : exists c p, orthogonal c /\ does_contribute p c = Some true /\ ~ in_box c p /\ ~ in_spheres c p.
Proof.
  exists unit_box, (V3 (-(1/2)) 0 0). split; [apply unit_box_orthogonal|]. split.
  - destruct (contribute_exact unit_box (V3 (-(1/2)) 0 0)) as (b & E & S); [intros _; destruct unit_box_orthogonal; tauto|].
    rewrite E. f_equal. apply S. left. split; auto. unfold unit_box, vsub, v0, sprod; simpl. lra.
  - split; [|intros (s & [] & _)]. intros (_ & fa & fb & fc & FA & FB & FC & E). injection E as E _ _. lra.
Qed.
(** skew boxes: an atom inside that does not contribute *)
Theorem skew_refuted : exists c p, cbox_a c <> v0 /\ cbox_b c <> v0 /\ cbox_c c <> v0 /\ in_box c p /\ does_contribute p c = Some false.
Proof.
  set (c := Contrib true v0 (V3 1 0 0) (V3 3 1 0) (V3 0 0 1) []).
  assert (N : cbox_a c <> v0 /\ cbox_b c <> v0 /\ cbox_c c <> v0) by (unfold c, v0; simpl; repeat split; intros H; injection H; intros; lra).
  exists c, (V3 3 1 0). destruct N as (N1 & N2 & N3). repeat (split; [auto; fail|]). split.
  - split; auto. exists 0, 1, 0. repeat split; try lra. unfold c, vadd, vscale, v0; simpl. f_equal; lra.
  - destruct (contribute_exact c (V3 3 1 0)) as (b & E & S); [auto|]. rewrite E. f_equal. destruct b; auto. exfalso.
    destruct (proj1 S eq_refl) as [(_ & P)|(s & [] & _)]. cbv zeta in P. unfold c, vsub, v0, sprod in P; simpl in P. lra.
Qed.

(** ** histogram *)
Section Histogram.
Variables (paircol steps : Z) (rcut : Z -> R).
Hypothesis steps_pos : (0 < steps)%Z.
Definition bin_of (k p : Z) (nb : Z * R) : bool :=
  (Z.eqb (fst nb) k && Z.eqb (ztrunc (snd nb / (rcut k / IZR steps))) p)%bool.
Definition count (k p : Z) (nbs : list (Z * R)) : Z := Z.of_nat (length (filter (bin_of k p) nbs)).
Definition inside (nb : Z * R) : Prop := (0 <= fst nb < paircol)%Z /\ 0 <= snd nb < rcut (fst nb).

Lemma bin_range : forall k r, 0 <= r < rcut k -> (0 <= ztrunc (r / (rcut k / IZR steps)) < steps)%Z.
Proof.
  intros k r H. assert (S : 0 < IZR steps) by (apply (IZR_lt 0); auto). assert (P : 0 < rcut k) by lra.
  assert (Q : 0 < rcut k / IZR steps) by (apply Rdiv_lt_0_compat; auto).
  assert (N : 0 <= r / (rcut k / IZR steps)) by (apply Rmult_le_pos; [lra|left; apply Rinv_0_lt_compat; auto]).
  assert (M : r / (rcut k / IZR steps) < IZR steps).
  { apply Rmult_lt_reg_r with (rcut k / IZR steps); auto. replace (r / (rcut k / IZR steps) * (rcut k / IZR steps)) with r by (field; lra).
    replace (IZR steps * (rcut k / IZR steps)) with (rcut k) by (field; lra). lra. }
  destruct (proj1 (ztrunc_nonneg _ (ztrunc (r / (rcut k / IZR steps))) N) eq_refl) as [A B].
  split.
  - assert (-1 < IZR (ztrunc (r / (rcut k / IZR steps)))) by lra. apply (lt_IZR (-1)) in H0. lia.
  - apply lt_IZR. lra.
Qed.
Lemma column_counts : forall k nbs t, (0 <= k < paircol)%Z -> (forall nb, In nb nbs -> inside nb) ->
  exists t', fold_left (fun st (nb : Z * R) =>
      if Z.eqb (fst nb) k then bump (paircol * steps) (k * steps + ztrunc (snd nb / (rcut k / IZR steps))) st else st) nbs (Some t) = Some t' /\
  (forall p, (0 <= p < steps)%Z -> t' (k * steps + p)%Z = (t (k * steps + p) + count k p nbs)%Z) /\
  (forall m, (m < k * steps \/ (k + 1) * steps <= m)%Z -> t' m = t m).
Proof.
  intros k nbs. induction nbs as [|nb nbs IH]; intros t K H.
  - exists t. split; auto. split; auto. intros. unfold count; simpl. lia.
  - cbn [fold_left]. destruct (Z.eqb_spec (fst nb) k) as [E|E].
    + destruct (H nb (or_introl eq_refl)) as [_ RR]. rewrite E in RR. pose proof (bin_range k (snd nb) RR) as B.
      set (q := ztrunc (snd nb / (rcut k / IZR steps))) in *. unfold bump at 2.
      destruct (Z.ltb_spec (k * steps + q) 0); [nia|]. destruct (Z.leb_spec (paircol * steps) (k * steps + q)); [nia|]. cbn [orb].
      destruct (IH (fun m => if Z.eqb m (k * steps + q) then (t m + 1)%Z else t m) K) as (t' & F & C & O); [intros; apply H; right; auto|].
      exists t'. split; [exact F|]. split.
      * intros p P. rewrite C by auto. unfold count. cbn [filter]. unfold bin_of at 2. rewrite E, Z.eqb_refl. fold q.
        destruct (Z.eqb_spec (k * steps + p) (k * steps + q)) as [Q|Q].
        -- assert (p = q) by lia. subst p. rewrite Z.eqb_refl. cbn [andb length]. lia.
        -- destruct (Z.eqb_spec q p); [lia|]. cbn [andb]. reflexivity.
      * intros m M. rewrite O by auto. destruct (Z.eqb_spec m (k * steps + q)); [nia|auto].
    + destruct (IH t K) as (t' & F & C & O); [intros; apply H; right; auto|]. exists t'. split; [exact F|]. split; auto.
      intros p P. rewrite C by auto. unfold count. cbn [filter]. unfold bin_of at 2. destruct (Z.eqb_spec (fst nb) k); [contradiction|]. reflexivity.
Qed.
Theorem histogram_counts : forall nbs, (forall nb, In nb nbs -> inside nb) ->
  exists t, histogram paircol steps rcut nbs = Some t /\
  forall k p, (0 <= k < paircol)%Z -> (0 <= p < steps)%Z -> t (k * steps + p)%Z = count k p nbs.
Proof.
  intros nbs H. unfold histogram.
  assert (G : forall m, (m <= Z.to_nat paircol)%nat -> exists t, fold_left (fun st k =>
    fold_left (fun st (nb : Z * R) => if Z.eqb (fst nb) k then bump (paircol * steps) (k * steps + ztrunc (snd nb / (rcut k / IZR steps))) st else st) nbs st)
    (map Z.of_nat (seq 0 m)) (Some (fun _ => 0%Z)) = Some t /\
    (forall k p, (0 <= k < Z.of_nat m)%Z -> (0 <= p < steps)%Z -> t (k * steps + p)%Z = count k p nbs) /\
    (forall i, (Z.of_nat m * steps <= i)%Z -> t i = 0%Z)).
  { induction m as [|m IH]; intros L.
    - exists (fun _ => 0%Z). split; auto. split; auto. intros; lia.
    - destruct IH as (t & F & C & O); [lia|]. rewrite seq_S, map_app, fold_left_app, F. cbn [map fold_left].
      destruct (column_counts (Z.of_nat (0 + m)) nbs t) as (t' & F' & C' & O'); [lia|auto|]. exists t'. split; [exact F'|]. cbn [Nat.add] in *. split.
      + intros k p K P. destruct (Z.eq_dec k (Z.of_nat m)) as [->|D].
        * rewrite C' by auto. rewrite O by nia. lia.
        * rewrite O' by nia. apply C; lia.
      + intros i I. rewrite O' by nia. apply O. nia. }
  destruct (G (Z.to_nat paircol) (le_n _)) as (t & F & C & _). exists t. split; auto. intros k p K P. apply C; auto. lia.
Qed.
(** the bin is the interval of the distance *)
Lemma bin_interval : forall k p nb, 0 < rcut k -> 0 <= snd nb -> (bin_of k p nb = true <->
  fst nb = k /\ IZR p * (rcut k / IZR steps) <= snd nb < (IZR p + 1) * (rcut k / IZR steps)).
Proof.
  intros k p nb RC H. unfold bin_of. rewrite andb_true_iff, !Z.eqb_eq.
  assert (S : 0 < IZR steps) by (apply (IZR_lt 0); auto). assert (Q : 0 < rcut k / IZR steps) by (apply Rdiv_lt_0_compat; auto).
  set (h := rcut k / IZR steps) in *.
  rewrite ztrunc_nonneg by (apply Rmult_le_pos; [auto|left; apply Rinv_0_lt_compat; auto]).
  assert (E : snd nb = snd nb / h * h) by (field; lra). split; intros [A [B C]]; split; auto.
  - rewrite E. split; [apply Rmult_le_compat_r; lra|apply Rmult_lt_compat_r; lra].
  - split; [apply Rmult_le_reg_r with h; lra|apply Rmult_lt_reg_r with h; lra].
Qed.
End Histogram.
Lemma one_step : ztrunc (1 / (1 / 500)) = 500%Z.
Proof. apply ztrunc_nonneg; lra. Qed.
Theorem cutoff_distance_refuted : histogram 1 500 (fun _ => 1) [(0%Z, 1)] = None.
Proof. unfold histogram. simpl. rewrite one_step. reflexivity. Qed.
Theorem cutoff_other_column : exists t, histogram 2 500 (fun _ => 1) [(0%Z, 1)] = Some t /\
  t 500%Z = 1%Z /\ forall p, (0 <= p < 500)%Z -> t p = 0%Z.
Proof.
  unfold histogram. simpl. rewrite one_step. simpl. eexists. split; [reflexivity|]. split; [reflexivity|].
  intros p P. destruct (Z.eqb_spec p 500); [lia|auto].
Qed.
Lemma histogram_ex : forall nb, In nb [(0%Z, 1/2); (1%Z, 3/4)] -> inside 2 (fun _ => 1) nb.
Proof. intros nb [<-|[<-|[]]]; split; simpl; try lia; lra. Qed.

(** ** minimal distances *)
Section Mindist.
Variable DBL_MAX : R.
Lemma rmin2_spec : forall a b, rmin2 a b = Rmin a b.
Proof. intros. unfold rmin2, Rmin. destruct (Rlt_dec a b), (Rle_dec a b); lra. Qed.
Lemma mindists_fold : forall nbs md c,
  let md' := fold_left (fun (md : Z -> R) nb => fun c => if Z.eqb c (fst nb) then rmin2 (md c) (snd nb) else md c) nbs md in
  md' c <= md c /\ (forall r, In (c, r) nbs -> md' c <= r) /\ (md' c = md c \/ In (c, md' c) nbs).
Proof.
  induction nbs as [|[k r] nbs IH]; intros md c md'.
  - subst md'; simpl. split; [lra|]. split; [intros r []|auto].
  - subst md'. cbn [fold_left]. destruct (IH (fun c => if Z.eqb c (fst (k, r)) then rmin2 (md c) (snd (k, r)) else md c) c) as (A & B & C).
    cbn [fst snd] in *. destruct (Z.eqb_spec c k) as [EE|D].
    + subst k. rewrite rmin2_spec in *. pose proof (Rmin_l (md c) r). pose proof (Rmin_r (md c) r). split; [lra|]. split.
      * intros r' [E|I]; [inversion E; subst; lra|auto].
      * destruct C as [C|C]; [|right; right; auto]. rewrite C. unfold Rmin. destruct (Rle_dec (md c) r); [auto|right; left; reflexivity].
    + split; [lra|]. split; [intros r' [E|I]; [inversion E; congruence|auto]|]. destruct C; [auto|right; right; auto].
Qed.
(** the smallest distance of each column *)
Theorem mindists_spec : forall nbs c, let m := mindists DBL_MAX nbs c in
  (forall r, In (c, r) nbs -> m <= r) /\ (m = DBL_MAX \/ In (c, m) nbs).
Proof. intros nbs c m. destruct (mindists_fold nbs (fun _ => DBL_MAX) c) as (A & B & C). auto. Qed.

Lemma all_pairs_in : forall n i j, In (i, j) (all_pairs n) <-> (0 <= i < n)%Z /\ (0 <= j < n)%Z.
Proof.
  intros n i j. unfold all_pairs. rewrite in_flat_map.
  assert (L : forall i, In i (map Z.of_nat (seq 0 (Z.to_nat n))) <-> (0 <= i < n)%Z).
  { intros x. rewrite in_map_iff. split; [intros (m & <- & M); apply in_seq in M; lia|]. intros X. exists (Z.to_nat x). split; [lia|]. apply in_seq. lia. }
  split.
  - intros (x & X & H). apply in_map_iff in H. destruct H as (y & E & Y). inversion E; subst. split; apply L; auto.
  - intros [I J]. exists i. split; [apply L; auto|]. apply in_map. apply L; auto.
Qed.
Lemma start_fold : forall n md ps s s', fold_left (start_pair DBL_MAX n md) ps (Some s) = Some s' ->
  (forall i j, In (i, j) ps -> md (pair_index n i j) <> DBL_MAX /\ s_begin s' (pair_index n i j) = md (pair_index n i j) * (95 / 100) /\
     s_rmin s' (i, j) = md (pair_index n i j) /\ s_min s' <= md (pair_index n i j)) /\ s_min s' <= s_min s /\
  (s_min s' = s_min s \/ exists i j, In (i, j) ps /\ s_min s' = md (pair_index n i j)) /\
  (forall c, s_begin s' c = s_begin s c \/ s_begin s' c = md c * (95/100)) /\
  (forall i j, s_rmin s' (i, j) = s_rmin s (i, j) \/ s_rmin s' (i, j) = md (pair_index n i j)).
Proof.
  intros n md ps. induction ps as [|[i j] ps IH]; intros s s' H.
  - inversion H; subst. split; [intros i j []|]. split; [lra|]. auto.
  - cbn [fold_left] in H. unfold start_pair at 2 in H. cbn [fst snd] in H.
    destruct (Req_EM_T (md (pair_index n i j)) DBL_MAX) as [E|E].
    { exfalso. clear - H. induction ps; [discriminate|auto]. }
    destruct (IH _ _ H) as (A & B & C & D & F). clear IH H. cbn [s_begin s_rmin s_min] in *. rewrite rmin2_spec in *.
    pose proof (Rmin_l (s_min s) (md (pair_index n i j))). pose proof (Rmin_r (s_min s) (md (pair_index n i j))).
    split; [|split; [lra|split; [|split]]].
    + intros i' j' [Q|I]; [inversion Q; subst i' j'|apply A; auto]. split; auto. split; [|split].
      * destruct (D (pair_index n i j)) as [X|X]; rewrite X; [rewrite Z.eqb_refl; auto|auto].
      * destruct (F i j) as [X|X]; rewrite X; [cbn [fst snd]; rewrite !Z.eqb_refl; auto|auto].
      * lra.
    + destruct C as [C|(i' & j' & I & C)]; [|right; exists i', j'; split; [right; auto|auto]].
      rewrite C. unfold Rmin. destruct (Rle_dec _ _); [auto|right; exists i, j; split; [left; auto|auto]].
    + intros c. destruct (D c) as [X|X]; [|auto]. destruct (Z.eqb_spec c (pair_index n i j)) as [EE|EE]; [right; rewrite X, EE; reflexivity|auto].
    + intros i' j'. destruct (F i' j') as [X|X]; [|auto]. rewrite X. cbn [fst snd].
      destruct (Z.eqb_spec i' i), (Z.eqb_spec j' j); subst; cbn [andb]; auto.
Qed.
Lemma start_fold_none : forall n md ps st, fold_left (start_pair DBL_MAX n md) ps st = None ->
  st = None \/ exists i j, In (i, j) ps /\ md (pair_index n i j) = DBL_MAX.
Proof.
  intros n md ps. induction ps as [|[i j] ps IH]; intros st H; [auto|]. cbn [fold_left] in H.
  destruct (IH _ H) as [X|(i' & j' & I & X)]; [|right; exists i', j'; split; [right; auto|auto]].
  destruct st as [s|]; [|auto]. right. unfold start_pair in X. cbn [fst snd] in X. destruct (Req_EM_T _ _) as [E|E]; [|discriminate].
  exists i, j. split; [left; auto|auto].
Qed.
(** C69: neighbours with columns of pairs of types and positive distances below DBL_MAX *)
Definition proper (n : Z) (nbs : list (Z * R)) : Prop := forall c r, In (c, r) nbs ->
  0 < r < DBL_MAX /\ exists i j, (0 <= i < n)%Z /\ (0 <= j < n)%Z /\ c = pair_index n i j.
Theorem table_starts : forall n nbs old oldmin, proper n nbs ->
  match start_tables DBL_MAX n (mindists DBL_MAX nbs) old oldmin with
  | Some s =>
      (forall i j, (0 <= i < n)%Z -> (0 <= j < n)%Z -> exists r, In (pair_index n i j, r) nbs /\
         (forall r', In (pair_index n i j, r') nbs -> r <= r') /\
         s_begin s (pair_index n i j) = r * (95 / 100) /\ s_rmin s (i, j) = r) /\
      (forall c r, In (c, r) nbs -> s_begin s c < r) /\
      (forall t c r, (0 <= t < n)%Z -> In (c, r) nbs -> start_transfer n s (paircol n + t) < r)
  | None => exists i j, (0 <= i < n)%Z /\ (0 <= j < n)%Z /\ forall r, ~ In (pair_index n i j, r) nbs
  end.
Proof.
  intros n nbs old oldmin P. destruct (start_tables DBL_MAX n (mindists DBL_MAX nbs) old oldmin) as [s|] eqn:H; unfold start_tables in H.
  - destruct (start_fold _ _ _ _ _ H) as (A & B & _ & _ & _). 
    assert (X : forall i j, (0 <= i < n)%Z -> (0 <= j < n)%Z -> exists r, In (pair_index n i j, r) nbs /\
         (forall r', In (pair_index n i j, r') nbs -> r <= r') /\ r = mindists DBL_MAX nbs (pair_index n i j) /\
         s_begin s (pair_index n i j) = r * (95 / 100) /\ s_rmin s (i, j) = r /\ s_min s <= r).
    { intros i j I J. destruct (A i j) as (N & E & M & L); [apply all_pairs_in; auto|].
      destruct (mindists_spec nbs (pair_index n i j)) as (U & [V|V]); [contradiction|]. exists (mindists DBL_MAX nbs (pair_index n i j)). repeat split; auto. }
    split; [|split].
    + intros i j I J. destruct (X i j I J) as (r & R1 & R2 & _ & R3 & R4 & _). exists r. auto.
    + intros c r I. destruct (P c r I) as (R0 & i & j & HI & HJ & ->). destruct (X i j HI HJ) as (r0 & R1 & R2 & _ & R3 & _).
      rewrite R3. specialize (R2 r I). destruct (P _ _ R1) as [Q _]. lra.
    + intros t c r T I. unfold start_transfer. destruct (Z.leb_spec (paircol n) (paircol n + t)); [|lia].
      destruct (Z.ltb_spec (paircol n + t) (paircol n + n)); [|lia]. cbn [andb].
      destruct (P c r I) as (R0 & i & j & HI & HJ & ->). destruct (X i j HI HJ) as (r0 & R1 & R2 & _ & _ & _ & R5). specialize (R2 r I). destruct (P _ _ R1) as [Q _]. lra.
  - destruct (start_fold_none _ _ _ _ H) as [X|(i & j & I & X)]; [discriminate|]. apply all_pairs_in in I. exists i, j. split; [tauto|]. split; [tauto|].
    intros r K. destruct (mindists_spec nbs (pair_index n i j)) as [U _]. specialize (U r K). destruct (P _ _ K) as [Q _]. lra.
Qed.
End Mindist.
Lemma proper_ex : proper 1000 1 [(0%Z, 2); (0%Z, 3)].
Proof. intros c r [E|[E|[]]]; inversion E; subst; (split; [lra|]); exists 0%Z, 0%Z; repeat split; lia. Qed.
