(** The derivative matrix of the least squares optimiser (C66). *)
From Coq Require Import List Arith QArith Qabs Bool Lia Lqa Setoid.
From Verif Require Import ListUtil DiffEvoModel DiffEvoProof LineMinModel LineMinProof PowellModel PowellProof.
Import ListNotations.
Local Open Scope Q_scope.

Section G.
Variable rt : Q -> Q.
Variable mdim : nat.
Variable idx : list nat.
Variable bounded : bool.
Variables pmin pmax : nat -> Q.
Variable devf : list Q -> vec.
Notation gamma_init := (gamma_init rt mdim idx bounded pmin pmax devf).
Notation gamma_init_loop := (gamma_init_loop rt mdim idx bounded pmin pmax devf).
Notation gi_column := (gi_column mdim bounded pmin pmax).
Notation scale := (scale bounded pmin pmax).
Notation ndim := (ndim idx).
Notation ix := (ix idx).

(** Difference quotient of the j-th deviation in direction of the i-th free parameter,
    between the vector x and the reference value r. *)
Definition quot (x : list Q) (r : vec) (i j : nat) : Q :=
  (devf (upd x (ix i) (nth (ix i) x 0 + EPS * scale i)) j - r j) / (EPS * scale i).

Lemma gi_column_spec : forall f r i g, let '(g1, sum) := gi_column f r i g in
  (forall j, (j < mdim)%nat -> g1 j i = (f j - r j) / (EPS * scale i)) /\
  (forall j c, c <> i -> g1 j c = g j c) /\
  sum == sumf mdim (fun j => (f j - r j) / (EPS * scale i) * ((f j - r j) / (EPS * scale i))).
Proof.
  intros. unfold PowellModel.gi_column.
  apply (loop_inv (fun t (p : mat * Q) => let '(g1, sum) := p in
  (forall j, (j < t)%nat -> g1 j i = (f j - r j) / (EPS * scale i)) /\
  (forall j c, c <> i -> g1 j c = g j c) /\
  sum == sumf t (fun j => (f j - r j) / (EPS * scale i) * ((f j - r j) / (EPS * scale i))))); [lia| |].
  - split; [intros; lia|]. split; [auto|]. reflexivity.
  - intros t [h s] _ (A & B & C). cbv zeta. split; [|split].
    + intros j Hj. destruct (Nat.eq_dec j t) as [->|N]; [apply setm_eq|]. rewrite setm_neq by auto. apply A. lia.
    + intros j c N. rewrite setm_neq by auto. auto.
    + rewrite C. simpl. reflexivity.
Qed.

Lemma scale_col : forall (g : mat) i t, 
  (forall j, (j < mdim)%nat -> loop 0 mdim (fun j g => setm g j i (g j i / t)) g j i = g j i / t) /\
  (forall j c, c <> i -> loop 0 mdim (fun j g => setm g j i (g j i / t)) g j c = g j c).
Proof.
  intros. 
  assert (Q : forall n, n = mdim -> let R := loop 0 mdim (fun j g => setm g j i (g j i / t)) g in
    (forall j, (j < n)%nat -> R j i = g j i / t) /\ (forall j, (n <= j)%nat -> R j i = g j i) /\ (forall j c, c <> i -> R j c = g j c)).
  { intros n ->. cbv zeta. apply (loop_inv (fun n (R : mat) =>
    (forall j, (j < n)%nat -> R j i = g j i / t) /\ (forall j, (n <= j)%nat -> R j i = g j i) /\ (forall j c, c <> i -> R j c = g j c))); [lia| |].
    - split; [intros; lia|]. auto.
    - intros n h _ (A & B & C). split; [|split].
      + intros j Hj. destruct (Nat.eq_dec j n) as [->|N].
        * rewrite setm_eq. rewrite B by lia. reflexivity.
        * rewrite setm_neq by auto. apply A. lia.
      + intros j Hj. rewrite setm_neq by lia. apply B. lia.
      + intros j c N. rewrite setm_neq by auto. auto. }
  destruct (Q mdim eq_refl) as (A & _ & C). split; auto.
Qed.

(** norm of the i-th column before normalisation: the model takes [rt] of the sum of squares *)
Definition norm (x : list Q) (r : vec) (i : nat) (t : Q) : Prop :=
  exists s, s == sumf mdim (fun j => quot x r i j * quot x r i j) /\ t = rt s /\ VERY_SMALL < t.

Lemma gamma_init_loop_spec : forall cols g d x r g' d' x',
  NoDup cols -> gamma_init_loop cols g d x r = (g', d', x', O) ->
  x' = x /\
  (forall i, In i cols -> exists t, norm x r i t /\ d' i i = d i i / t /\
      forall j, (j < mdim)%nat -> g' j i = quot x r i j / t) /\
  (forall i j, ~ In i cols -> g' j i = g j i) /\
  (forall i k, i <> k \/ ~ In i cols -> d' i k = d i k).
Proof.
  induction cols as [|c cols IH]; intros g d x r g' d' x' ND E.
  - simpl in E. injection E as <- <- <-. split; [auto|]. split; [intros i []|]. auto.
  - simpl in E. pose proof (gi_column_spec (devf (upd x (ix c) (nth (ix c) x 0 + EPS * scale c))) r c g) as C.
    destruct (gi_column _ _ _ _) as [g1 sum]. destruct C as (C1 & C2 & C3).
    destruct (qltb VERY_SMALL (rt sum)) eqn:V; [|discriminate]. apply qltb_t in V.
    rewrite upd_restore in E. inversion ND; subst.
    destruct (IH _ _ _ _ _ _ _ H2 E) as (X & G & GO & D).
    destruct (scale_col g1 c (rt sum)) as [S1 S2].
    split; [exact X|]. split; [|split].
    + intros i [<-|I].
      * exists (rt sum). split; [|split].
        -- exists sum. split; [exact C3|]. auto.
        -- rewrite D by auto. rewrite setm_eq. reflexivity.
        -- intros j Hj. rewrite GO by auto. rewrite S1 by auto. rewrite C1 by auto. reflexivity.
      * destruct (G i I) as (t & Nt & Dt & Gt). exists t. split; [exact Nt|]. split; [|exact Gt].
        rewrite Dt. rewrite setm_neq; auto. left. intros ->. contradiction.
    + intros i j NI. rewrite GO by (intros I; apply NI; right; auto). 
      assert (i <> c) by (intros ->; apply NI; left; auto). rewrite S2 by auto. apply C2; auto.
    + intros i k N. rewrite D. 
      * rewrite setm_neq; auto. destruct N as [N|N]; [|left; intros ->; apply N; left; auto].
        destruct (Nat.eq_dec i c); subst; auto.
      * destruct N as [N|N]; auto. right. intros I. apply N. right. auto.
Qed.

Theorem gamma_init_spec : forall g x r g' d' x', gamma_init g x r = (g', d', x', O) ->
  forall i, (i < ndim)%nat -> 0 < d' i i /\
    (forall k, k <> i -> d' i k = 0) /\
    (forall j, (j < mdim)%nat -> g' j i == d' i i * quot x r i j) /\
    ((forall s, s == sumf mdim (fun j => quot x r i j * quot x r i j) -> rt s * rt s == s) ->
      sumf mdim (fun j => g' j i * g' j i) == 1).
Proof.
  intros g x r g' d' x' E i Hi. unfold PowellModel.gamma_init in E.
  destruct (gamma_init_loop_spec _ _ _ _ _ _ _ _ (seq_NoDup _ _) E) as (_ & G & _ & D).
  destruct (G i) as (t & (s & S1 & S2 & S3) & Dt & Gt). { apply in_seq. lia. }
  assert (T : 0 < t) by (unfold VERY_SMALL in S3; lra).
  unfold unit_mat in Dt. rewrite Nat.eqb_refl in Dt.
  split; [|split; [|split]].
  - rewrite Dt. unfold Qdiv. rewrite Qmult_1_l. apply Qinv_lt_0_compat; auto.
  - intros k N. rewrite D by auto. unfold unit_mat. destruct (Nat.eqb_spec i k); congruence.
  - intros j Hj. rewrite Gt by auto. rewrite Dt. field. lra.
  - intros R. rewrite (sumf_ext mdim _ (fun j => / (t * t) * (quot x r i j * quot x r i j))).
    2:{ intros j Hj. rewrite Gt by auto. field. lra. }
    assert (L : forall m c f, sumf m (fun j => c * f j) == c * sumf m f).
    { induction m; intros c f; simpl; [ring|]. rewrite IHm. ring. }
    rewrite L, <- S1. rewrite <- (R s S1), <- S2. field. lra.
Qed.
End G.

(** Affine deviation vectors: the matrix is exact, whatever the increment. *)
Definition affine (a : nat -> nat -> Q) (c : nat -> Q) (devf : list Q -> vec) : Prop :=
  forall x j, devf x j == c j + sumf (length x) (fun k => a j k * nth k x 0).

Lemma sumf_upd : forall n (g : nat -> Q) x k v, (k < n)%nat -> n = length x ->
  sumf n (fun l => g l * nth l (upd x k v) 0) == sumf n (fun l => g l * nth l x 0) + g k * (v - nth k x 0).
Proof.
  intros n g x k v Hk Hn.
  assert (Q : forall m, (m <= n)%nat -> sumf m (fun l => g l * nth l (upd x k v) 0) ==
     sumf m (fun l => g l * nth l x 0) + (if (k <? m)%nat then g k * (v - nth k x 0) else 0)).
  { induction m; intros Hm; simpl sumf; [simpl; ring|]. rewrite IHm by lia.
    destruct (Nat.eq_dec m k) as [->|N].
    - rewrite nth_upd_eq by lia. rewrite (proj2 (Nat.ltb_ge k k)) by lia. rewrite (proj2 (Nat.ltb_lt k (S k))) by lia. ring.
    - rewrite nth_upd_neq by auto. destruct (Nat.ltb_spec k m).
      + rewrite (proj2 (Nat.ltb_lt k (S m))) by lia. ring.
      + rewrite (proj2 (Nat.ltb_ge k (S m))) by lia. ring. }
  rewrite Q by auto. rewrite (proj2 (Nat.ltb_lt k n)) by auto. reflexivity.
Qed.

Lemma quot_affine : forall idx bounded pmin pmax a c devf x i j,
  affine a c devf -> (nth i idx O < length x)%nat -> ~ scale bounded pmin pmax i == 0 ->
  quot idx bounded pmin pmax devf x (devf x) i j == a j (nth i idx O).
Proof.
  intros. unfold quot. rewrite (H (upd _ _ _) j), (H x j). rewrite upd_length. unfold ix.
  rewrite sumf_upd by auto. field. split; [auto|]. unfold EPS. lra.
Qed.

(** ** Restart: witness *)
Definition wrt (q : Q) : Q := let r := Qred q in (Z.sqrt (Qnum r)) # (Z.to_pos (Z.sqrt (Zpos (Qden r)))).
Definition wx (l : list Q) : Q := Qred (nth 0 l 0).
Definition wcost (l : list Q) : Q := Qred ((wx l - 3) * (wx l - 3)).
Definition wdev (l : list Q) : vec := fun _ => Qred (wx l - 3).
(** a solution off by a factor 9 keeps the line search short *)
Definition wsolve (A : mat) (p : vec) : answer := mk_answer O (fun _ => Qred (9 * p O / A O O)) 0 0.
Notation wpass := (inner_pass wrt 1 [0%nat] false (fun _ => 0) (fun _ => 0) (fun _ => None) wcost wdev wsolve).
Notation wbegin := (outer_begin wrt 1 [0%nat] false (fun _ => 0) (fun _ => 0) wdev).
Notation whead := (head wrt 1 [0%nat] false (fun _ => 0) (fun _ => 0) (fun _ => None) wcost wdev wsolve).
Notation wquot := (quot [0%nat] false (fun _ => 0) (fun _ => 0) wdev).

Lemma wx_ext : forall a b, Forall2 Qeq a b -> wx a = wx b.
Proof. intros a b H. unfold wx. apply Qred_complete. destruct H; simpl; auto. reflexivity. Qed.
Lemma w_ext : (forall a b, Forall2 Qeq a b -> wcost a = wcost b) /\ (forall a b, Forall2 Qeq a b -> wdev a = wdev b).
Proof. split; intros a b H; [unfold wcost|unfold wdev]; rewrite (wx_ext a b H); reflexivity. Qed.

Lemma restart_refuted : exists s, whead s /\
  gam s O O * gam s O O == 1 /\ ~ gam s O O == dir s O O * wquot (xi s) (wdev (xi s)) O O.
Proof.
  set (chk := fun s => Qeq_bool (gam s O O * gam s O O) 1 && negb (Qeq_bool (gam s O O) (dir s O O * wquot (xi s) (wdev (xi s)) O O))).
  assert (H : match wbegin (start wcost wdev [0]) with inl s0 => match wpass s0 with Broken s1 =>
    match wbegin s1 with inl s2 => chk s2 | inr _ => false end | _ => false end | inr _ => false end = true) by (vm_compute; reflexivity).
  destruct (wbegin (start wcost wdev [0])) as [s0|s0] eqn:E0; [|discriminate].
  destruct (wpass s0) as [s1|s1| |s1] eqn:E1; try discriminate.
  destruct (wbegin s1) as [s2|s2] eqn:E2; [|discriminate].
  exists s2. split.
  - eapply head_outer; [eapply head_start; exact E0|left; exact E1|exact E2].
  - unfold chk in H. apply andb_prop in H. destruct H as [H1 H2]. split; [apply Qeq_bool_eq; auto|].
    intros N. apply Qeq_bool_iff in N. rewrite N in H2. discriminate.
Qed.

(** ** A run for the examples *)
Lemma powell_ex : exists s log, 
  run_powell_lsq wrt 1 [0%nat] false (fun _ => 0) (fun _ => 0) (fun _ => None) wcost wdev wsolve (fun n => (n =? 0)%nat) (1#10) 2 [0] = Final s log /\ wcost (xi s) < 1.
Proof.
  set (r := run_powell_lsq wrt 1 [0%nat] false (fun _ => 0) (fun _ => 0) (fun _ => None) wcost wdev wsolve (fun n => (n =? 0)%nat) (1#10) 2 [0]).
  assert (H : match r with Final s _ => qltb (wcost (xi s)) 1 | _ => false end = true) by (vm_compute; reflexivity).
  clearbody r. destruct r as [s log| |]; try discriminate. exists s, log. split; auto. apply qltb_t. auto.
Qed.
