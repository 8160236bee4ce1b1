From Coq Require Import List Arith Reals Lra Lia Permutation.
From Verif Require Import LoopUtil RcutModel.
Import ListNotations.
Open Scope bool_scope.

Lemma cell_inj : forall n i j i' j', j < n -> j' < n -> i * n + j = i' * n + j' -> i = i' /\ j = j'.
Proof.
  intros n i j i' j' H H' E. assert (i = i').
  { destruct (Nat.lt_trichotomy i i') as [A|[A|A]]; auto; nia. }
  subst. split; auto. nia.
Qed.
Lemma row_spec : forall n g a i m, m <= n -> forall k,
  for_up 0 m (fun j a => upd a (i * n + j) (g i j (a (i * n + j)))) a k =
  if (i * n <=? k) && (k <? i * n + m) then g i (k - i * n) (a k) else a k.
Proof.
  intros n g a i m. induction m as [|m IH]; intros L k.
  - rewrite for_up_nil. destruct (i * n <=? k) eqn:A, (k <? i * n + 0) eqn:B; simpl; auto.
    apply Nat.leb_le in A. apply Nat.ltb_lt in B. lia.
  - rewrite for_up_S by lia. unfold upd at 1. rewrite !IH by lia.
    destruct (Nat.eqb_spec k (i * n + m)) as [->|N].
    + replace (i * n <=? i * n + m) with true by (symmetry; apply Nat.leb_le; lia).
      replace (i * n + m <? i * n + m) with false by (symmetry; apply Nat.ltb_ge; lia).
      replace (i * n + m <? i * n + S m) with true by (symmetry; apply Nat.ltb_lt; lia). simpl.
      f_equal. lia.
    + destruct (i * n <=? k) eqn:A; simpl; auto.
      destruct (k <? i * n + m) eqn:B, (k <? i * n + S m) eqn:C; auto.
      * apply Nat.ltb_lt in B. apply Nat.ltb_ge in C. lia.
      * apply Nat.ltb_ge in B. apply Nat.ltb_lt in C. lia.
Qed.
Lemma sweep_at : forall n g a i j, i < n -> j < n -> sweep n g a (i * n + j) = g i j (a (i * n + j)).
Proof.
  intros n g a i j Hi Hj. unfold sweep.
  assert (G : forall m, m <= n ->
    for_up 0 m (fun i a => for_up 0 n (fun j a => upd a (i * n + j) (g i j (a (i * n + j)))) a) a (i * n + j) =
    if i <? m then g i j (a (i * n + j)) else a (i * n + j)).
  { induction m as [|m IH]; intros L.
    - rewrite for_up_nil. reflexivity.
    - rewrite for_up_S by lia. rewrite row_spec by lia. rewrite IH by lia.
      destruct (Nat.lt_trichotomy i m) as [A|[A|A]].
      + replace (m * n <=? i * n + j) with false by (symmetry; apply Nat.leb_gt; nia). simpl.
        replace (i <? m) with true by (symmetry; apply Nat.ltb_lt; lia).
        replace (i <? S m) with true by (symmetry; apply Nat.ltb_lt; lia). reflexivity.
      + subst m. replace (i * n <=? i * n + j) with true by (symmetry; apply Nat.leb_le; lia).
        replace (i * n + j <? i * n + n) with true by (symmetry; apply Nat.ltb_lt; lia). simpl.
        rewrite Nat.ltb_irrefl. replace (i <? S i) with true by (symmetry; apply Nat.ltb_lt; lia).
        f_equal. lia.
      + replace (i * n + j <? m * n + n) with false by (symmetry; apply Nat.ltb_ge; nia).
        rewrite Bool.andb_false_r.
        replace (i <? m) with false by (symmetry; apply Nat.ltb_ge; lia).
        replace (i <? S m) with false by (symmetry; apply Nat.ltb_ge; lia). reflexivity. }
  rewrite G by lia. replace (i <? n) with true by (symmetry; apply Nat.ltb_lt; lia). reflexivity.
Qed.

Lemma MAX_l : forall a b, (a <= MAX a b)%R.
Proof. intros. unfold MAX. destruct (Rlt_dec b a); lra. Qed.
Lemma MAX_r : forall a b, (b <= MAX a b)%R.
Proof. intros. unfold MAX. destruct (Rlt_dec b a); lra. Qed.
Lemma MAX_cases : forall a b, MAX a b = a \/ MAX a b = b.
Proof. intros. unfold MAX. destruct (Rlt_dec b a); auto. Qed.
Lemma MAX_comm3 : forall v a b, MAX (MAX v a) b = MAX (MAX v b) a.
Proof. intros. unfold MAX. repeat destruct (Rlt_dec _ _); lra. Qed.
Lemma col0_sym : forall n i j, col0 n i j = col0 n j i.
Proof.
  intros. unfold col0. destruct (Nat.leb_spec i j), (Nat.leb_spec j i); auto; try lia.
  replace j with i by lia. reflexivity.
Qed.

(** everything the cutoff of two types is taken from *)
Definition considered (b : build) (n : nat) (i j : nat) : list nat :=
  col0 n i j :: match b with Pairs | Ang | Stiweb => [] | Eam | Tbeam | Adp | Meam => [paircol n + i; paircol n + j] end.
Lemma considered_dens : forall b n i j, considered b n i j = col0 n i j :: if dens b then [paircol n + i; paircol n + j] else [].
Proof. intros []; reflexivity. Qed.

Section Cut.
Variable bld : build.
Variable n : nat.
Variable end_ : nat -> R.
Lemma with_dens_at : forall a i j, i < n -> j < n ->
  let v := with_dens bld n end_ (from_pairs n end_ a) (i * n + j) in
  (forall k, In k (considered bld n i j) -> (end_ k <= v)%R) /\ exists k, In k (considered bld n i j) /\ v = end_ k.
Proof.
  intros a i j Hi Hj v.
  assert (P : from_pairs n end_ a (i * n + j) = end_ (col0 n i j)) by (apply (sweep_at n (fun i j _ => end_ (col0 n i j))); auto).
  rewrite considered_dens. unfold v, with_dens. destruct (dens bld).
  - rewrite (sweep_at n (fun i j v => MAX (MAX v (end_ (paircol n + i))) (end_ (paircol n + j)))) by auto. rewrite P.
    set (x := end_ (col0 n i j)). set (y := end_ (paircol n + i)). set (z := end_ (paircol n + j)).
    pose proof (MAX_l x y). pose proof (MAX_r x y). pose proof (MAX_l (MAX x y) z). pose proof (MAX_r (MAX x y) z).
    split.
    + intros k [<-|[<-|[<-|[]]]]; fold x y z; lra.
    + destruct (MAX_cases (MAX x y) z) as [->| ->].
      * destruct (MAX_cases x y) as [->| ->]; [exists (col0 n i j)|exists (paircol n + i)]; simpl; auto.
      * exists (paircol n + j). simpl; auto.
  - rewrite P. split.
    + intros k [<-|[]]. lra.
    + exists (col0 n i j). simpl; auto.
Qed.
Lemma with_dens_sym : forall a i j, i < n -> j < n ->
  with_dens bld n end_ (from_pairs n end_ a) (i * n + j) = with_dens bld n end_ (from_pairs n end_ a) (j * n + i).
Proof.
  intros a i j Hi Hj.
  assert (P : forall i j, i < n -> j < n -> from_pairs n end_ a (i * n + j) = end_ (col0 n i j)).
  { intros. apply (sweep_at n (fun i j _ => end_ (col0 n i j))); auto. }
  unfold with_dens. destruct (dens bld).
  - rewrite !(sweep_at n (fun i j v => MAX (MAX v (end_ (paircol n + i))) (end_ (paircol n + j)))) by auto.
    rewrite !P by auto. rewrite (col0_sym n j i). apply MAX_comm3.
  - rewrite !P by auto. now rewrite col0_sym.
Qed.

Variable dp : option R.
Definition below_cut (v : R) : Prop := match dp with Some c => v = c | None => False end.
Lemma rcut_at : forall a i j, i < n -> j < n ->
  let v := rcut bld n end_ dp a (i * n + j) in
  (forall k, In k (considered bld n i j) -> (end_ k <= v)%R) /\ (forall c, dp = Some c -> (c <= v)%R) /\
  (dp = Some v \/ exists k, In k (considered bld n i j) /\ v = end_ k).
Proof.
  intros a i j Hi Hj v. destruct (with_dens_at a i j Hi Hj) as (A & k & B & C).
  unfold v, rcut, with_coulomb. destruct dp as [c|].
  - rewrite (sweep_at n (fun _ _ v => MAX v c)) by auto.
    set (w := with_dens bld n end_ (from_pairs n end_ a) (i * n + j)) in *.
    pose proof (MAX_l w c). pose proof (MAX_r w c). split; [|split].
    + intros k' K. specialize (A k' K). lra.
    + intros c' E. injection E as <-. lra.
    + destruct (MAX_cases w c) as [->| ->]; [right; exists k; auto|left; auto].
  - split; [exact A|]. split; [discriminate|]. right. exists k. auto.
Qed.
Lemma rcut_sym : forall a i j, i < n -> j < n ->
  rcut bld n end_ dp a (i * n + j) = rcut bld n end_ dp a (j * n + i).
Proof.
  intros. unfold rcut, with_coulomb. destruct dp as [c|].
  - rewrite !(sweep_at n (fun _ _ v => MAX v c)) by auto. f_equal. apply with_dens_sym; auto.
  - apply with_dens_sym; auto.
Qed.
End Cut.

Lemma scan : forall n (f : R -> R -> R) (P : R -> Prop) (Q : R -> R -> Prop) (rc : nat -> R) v0,
  P v0 -> (forall v w, P v -> P (f v w)) -> (forall v w, Q (f v w) w) -> (forall v w u, Q v u -> Q (f v w) u) ->
  let v := for_up 0 n (fun i v => for_up 0 n (fun j v => f v (rc (i + n * j))) v) v0 in
  P v /\ forall i j, i < n -> j < n -> Q v (rc (i + n * j)).
Proof.
  intros n f P Q rc v0 H0 HP HQ HK.
  apply (for_up_inv (fun m v => P v /\ forall i j, i < m -> j < n -> Q v (rc (i + n * j)))); try lia.
  - split; auto. lia.
  - intros i v Hi (A & B).
    assert (G : (fun m v => P v /\ (forall i' j, i' < i -> j < n -> Q v (rc (i' + n * j))) /\
                          forall j, j < m -> Q v (rc (i + n * j))) n
                (for_up 0 n (fun j v => f v (rc (i + n * j))) v)).
    { apply (for_up_inv (fun m v => P v /\ (forall i' j, i' < i -> j < n -> Q v (rc (i' + n * j))) /\
                          forall j, j < m -> Q v (rc (i + n * j)))); try lia.
      - split; [auto|split; [auto|lia]].
      - intros j w Hj (C & D & E). split; [auto|split].
        + intros; apply HK; auto.
        + intros j' L. destruct (Nat.eq_dec j' j) as [->|N]; [apply HQ|apply HK, E; lia]. }
    destruct G as (C & D & E). split; auto.
    intros i' j L Hj. destruct (Nat.eq_dec i' i) as [->|N]; [apply E; auto|apply D; auto; lia].
Qed.
Lemma rcutmax_above : forall n rc i j, i < n -> j < n -> (rc (i * n + j)%nat <= rcutmax n rc)%R.
Proof.
  intros n rc i j Hi Hj.
  destruct (scan n MAX (fun _ => True) (fun v u => (u <= v)%R) rc 0%R) as (_ & H); auto.
  - intros. apply MAX_r.
  - intros. pose proof (MAX_l v w). lra.
  - specialize (H j i Hj Hi). replace (i * n + j) with (j + n * i) by lia. exact H.
Qed.
Lemma rcutmax_nonneg : forall n rc, (0 <= rcutmax n rc)%R.
Proof.
  intros. destruct (scan n MAX (fun v => (0 <= v)%R) (fun v u => True) rc 0%R) as (H & _); auto; try lra.
  intros. pose proof (MAX_l v w). lra.
Qed.

Lemma MIN_cases : forall a b, MIN a b = a \/ MIN a b = b.
Proof. intros. unfold MIN. destruct (Rlt_dec a b); auto. Qed.
Lemma MIN_l : forall a b, (MIN a b <= a)%R.
Proof. intros. unfold MIN. destruct (Rlt_dec a b); lra. Qed.
Lemma MIN_r : forall a b, (MIN a b <= b)%R.
Proof. intros. unfold MIN. destruct (Rlt_dec a b); lra. Qed.
(** the result is the start value or one of the entries *)
Lemma scan_one : forall n (f : R -> R -> R) (rc : nat -> R) v0, (forall v w, f v w = v \/ f v w = w) ->
  let v := for_up 0 n (fun i v => for_up 0 n (fun j v => f v (rc (i + n * j))) v) v0 in
  v = v0 \/ exists i j, i < n /\ j < n /\ v = rc (i * n + j).
Proof.
  intros n f rc v0 F. apply (for_up_inv (fun _ v => v = v0 \/ exists i j, i < n /\ j < n /\ v = rc (i * n + j))); try lia; [auto|].
  intros i v Hi I. apply (for_up_inv (fun _ v => v = v0 \/ exists i j, i < n /\ j < n /\ v = rc (i * n + j))); try lia; [auto|].
  intros j w Hj W. destruct (F w (rc (i + n * j))) as [-> | ->]; auto. right. exists j, i. split; [lia|]. split; [lia|]. f_equal. lia.
Qed.
Lemma rcutmax_attained : forall n rc, (0 < n) -> (forall i j, i < n -> j < n -> (0 <= rc (i * n + j)%nat)%R) ->
  exists i j, i < n /\ j < n /\ rcutmax n rc = rc (i * n + j).
Proof.
  intros n rc N P. destruct (scan_one n MAX rc 0%R MAX_cases) as [E|E]; [|exact E].
  exists 0, 0. split; [auto|]. split; [auto|]. pose proof (rcutmax_above n rc 0 0 N N) as A. pose proof (P 0 0 N N). unfold rcutmax in *. rewrite E in *. lra.
Qed.
Lemma rcutmin_spec : forall n rc, (forall i j, i < n -> j < n -> (rcutmin n rc <= rc (i * n + j)%nat)%R) /\
  (0 < n -> (forall i j, i < n -> j < n -> (rc (i * n + j)%nat <= 9999 / 10)%R) -> exists i j, i < n /\ j < n /\ rcutmin n rc = rc (i * n + j)).
Proof.
  intros n rc. assert (B : forall i j, i < n -> j < n -> (rcutmin n rc <= rc (i * n + j)%nat)%R).
  { intros i j Hi Hj. destruct (scan n MIN (fun _ => True) (fun v u => (v <= u)%R) rc (9999 / 10)%R) as (_ & H); auto.
    - intros. apply MIN_r.
    - intros. pose proof (MIN_l v w). lra.
    - specialize (H j i Hj Hi). replace (i * n + j) with (j + n * i) by lia. exact H. }
  split; [auto|]. intros N P. destruct (scan_one n MIN rc (9999 / 10)%R MIN_cases) as [E|E]; [|exact E].
  exists 0, 0. split; [auto|]. split; [auto|]. pose proof (B 0 0 N N) as A. pose proof (P 0 0 N N). unfold rcutmin in *. rewrite E in *. lra.
Qed.

(** ** which of the looked up functions are covered *)
Lemma covered : forall b n t1 t2 k, b = Pairs \/ b = Eam -> In k (slots b n t1 t2) -> In k (considered b n t1 t2).
Proof.
  intros b n t1 t2 k [->| ->]; unfold slots, considered; simpl; intros H; tauto.
Qed.

Lemma tri : forall i, 2 * (i * (i + 1) / 2) = i * (i + 1).
Proof.
  intros i. assert (H : exists t, i * (i + 1) = t * 2).
  { induction i as [|i (t & IH)]; [exists 0; auto|]. exists (t + i + 1). lia. }
  destruct H as (t & H). rewrite H, Nat.div_mul by lia. lia.
Qed.
Lemma col0_small : forall n i j, i < n -> j < n -> col0 n i j < paircol n.
Proof.
  assert (G : forall n i j, i <= j < n -> i * n + j - i * (i + 1) / 2 < paircol n).
  { intros n i j H. unfold paircol. pose proof (tri i) as A. pose proof (tri n) as B.
    set (t := i * (i + 1) / 2) in *. set (u := n * (n + 1) / 2) in *.
    assert (exists d, n = i + 1 + d) as (d & ->) by (exists (n - i - 1); lia). nia. }
  intros n i j Hi Hj. unfold col0. destruct (Nat.leb_spec i j); apply G; lia.
Qed.

Definition beyond (b : build) (n t1 t2 : nat) : nat :=
  match b with
  | Tbeam => paircol n + 2 * n + t2
  | Meam | Adp => paircol n + 2 * n + col0 n t1 t2
  | _ => paircol n + col0 n t1 t2
  end.
Lemma uncovered : forall b n t1 t2, b <> Pairs -> b <> Eam -> t1 < n -> t2 < n ->
  exists (end_ : nat -> R) k, In k (slots b n t1 t2) /\
    forall a, (rcut b n end_ None a (t1 * n + t2)%nat < end_ k)%R.
Proof.
  intros b n t1 t2 N1 N2 H1 H2. pose proof (col0_small n t1 t2 H1 H2) as L.
  exists (fun k => if k =? beyond b n t1 t2 then 2%R else 1%R), (beyond b n t1 t2). split.
  - destruct b; try congruence; simpl; auto.
  - intros a. rewrite Nat.eqb_refl.
    destruct (rcut_at b n (fun k => if k =? beyond b n t1 t2 then 2%R else 1%R) None a t1 t2 H1 H2) as (_ & _ & [E|(k & K & E)]); [discriminate|].
    rewrite E. replace (k =? beyond b n t1 t2) with false; [lra|]. symmetry. apply Nat.eqb_neq.
    unfold considered in K. destruct b; try congruence; simpl in K; unfold beyond;
      repeat (destruct K as [<-|K]; [lia|]); destruct K.
Qed.
(** a sufficient condition *)
Lemma enough : forall b n (end_ : nat -> R) dp a t1 t2, t1 < n -> t2 < n ->
  (forall k, In k (slots b n t1 t2) -> ~ In k (considered b n t1 t2) -> (end_ k <= end_ (col0 n t1 t2))%R) ->
  forall k, In k (slots b n t1 t2) -> (end_ k <= rcut b n end_ dp a (t1 * n + t2)%nat)%R.
Proof.
  intros b n end_ dp a t1 t2 H1 H2 H k K.
  destruct (rcut_at b n end_ dp a t1 t2 H1 H2) as (A & _).
  destruct (in_dec Nat.eq_dec k (considered b n t1 t2)) as [I|I]; [apply A; auto|].
  specialize (H k K I). specialize (A (col0 n t1 t2)). unfold considered in A at 1.
  assert (end_ (col0 n t1 t2) <= rcut b n end_ dp a (t1 * n + t2)%nat)%R by (apply A; left; auto). lra.
Qed.
Lemma all_covered : forall b n (end_ : nat -> R) dp a t1 t2 k, b = Pairs \/ b = Eam -> t1 < n -> t2 < n ->
  In k (slots b n t1 t2) -> (end_ k <= rcut b n end_ dp a (t1 * n + t2)%nat)%R.
Proof. intros b n end_ dp a t1 t2 k B H1 H2 K. exact (proj1 (rcut_at b n end_ dp a t1 t2 H1 H2) k (covered b n t1 t2 k B K)). Qed.
Lemma all_warned : forall b n (beg : nat -> R) a t1 t2 k, b = Pairs \/ b = Eam -> t1 < n -> t2 < n ->
  In k (slots b n t1 t2) -> (beg k <= rmin b n beg a (t1 * n + t2)%nat)%R.
Proof. intros b n beg a t1 t2 k B H1 H2 K. exact (proj1 (with_dens_at b n beg a t1 t2 H1 H2) k (covered b n t1 t2 k B K)). Qed.
Lemma unwarned : forall b n t1 t2, b <> Pairs -> b <> Eam -> t1 < n -> t2 < n ->
  exists (beg : nat -> R) k, In k (slots b n t1 t2) /\
    forall a, (rmin b n beg a (t1 * n + t2)%nat < beg k)%R.
Proof. intros b n t1 t2 A B C D. exact (uncovered b n t1 t2 A B C D). Qed.
