(** Proofs about the least squares optimiser (C20, C21, C66). *)
From Coq Require Import List Arith QArith Qabs Bool Lia Lqa Setoid.
From Verif Require Import ListUtil DiffEvoModel DiffEvoProof LineMinModel LineMinProof PowellModel.
Import ListNotations.
Local Open Scope Q_scope.

(** ** Loops *)
Lemma loop_inv : forall {S : Type} (P : nat -> S -> Prop) hi (body : nat -> S -> S) lo s,
  (lo <= hi)%nat -> P lo s ->
  (forall i s, (lo <= i < hi)%nat -> P i s -> P (Datatypes.S i) (body i s)) -> P hi (loop lo hi body s).
Proof.
  intros S P hi body lo s L H Hs. unfold loop.
  remember (hi - lo)%nat as k eqn:E. revert lo s L H Hs E.
  induction k; intros lo s L H Hs E; simpl.
  - replace hi with lo by lia. exact H.
  - apply IHk; [lia| | |lia].
    + apply Hs; [lia|exact H].
    + intros i s' I. apply Hs. lia.
Qed.

(** ** Plain sums, for the statements *)
Fixpoint sumf (m : nat) (f : nat -> Q) : Q :=
  match m with O => 0 | S m' => sumf m' f + f m' end.

Lemma sumf_ext : forall m f g, (forall j, (j < m)%nat -> f j == g j) -> sumf m f == sumf m g.
Proof. induction m; intros f g H; simpl; [lra|]. rewrite (IHm f g) by (intros; apply H; lia). rewrite (H m) by lia. reflexivity. Qed.

(** The normal equations  gamma^t gamma q = - gamma^t f. *)
Definition normal_matrix (gamma : mat) (n m : nat) (A : mat) : Prop :=
  forall i k, (i < n)%nat -> (k < n)%nat -> A i k == sumf m (fun j => gamma j i * gamma j k).
Definition normal_rhs (gamma : mat) (f : vec) (n m : nat) (p : vec) : Prop :=
  forall i, (i < n)%nat -> p i == - sumf m (fun j => gamma j i * f j).

Lemma setv_eq : forall v i x, setv v i x i = x.
Proof. intros. unfold setv. rewrite Nat.eqb_refl. auto. Qed.
Lemma setv_neq : forall v i x k, k <> i -> setv v i x k = v k.
Proof. intros. unfold setv. destruct (Nat.eqb_spec k i); [contradiction|auto]. Qed.
Lemma setm_eq : forall a i j x, setm a i j x i j = x.
Proof. intros. unfold setm. rewrite !Nat.eqb_refl. auto. Qed.
Lemma setm_neq : forall a i j x r c, r <> i \/ c <> j -> setm a i j x r c = a r c.
Proof. intros. unfold setm. destruct (Nat.eqb_spec r i), (Nat.eqb_spec c j); simpl; auto. destruct H; contradiction. Qed.

Lemma loop_p : forall (p : vec) i m (g : nat -> Q),
  loop 0 m (fun j p => setv p i (p i - g j)) (setv p i 0) i == - sumf m g /\
  forall k, k <> i -> loop 0 m (fun j p => setv p i (p i - g j)) (setv p i 0) k = p k.
Proof.
  intros. apply (loop_inv (fun j (q : vec) => q i == - sumf j g /\ forall k, k <> i -> q k = p k)); [lia| |].
  - simpl. split; [rewrite setv_eq; lra|]. intros. apply setv_neq; auto.
  - intros j q _ [H1 H2]. split.
    + rewrite setv_eq. simpl. rewrite H1. lra.
    + intros k N. rewrite setv_neq; auto.
Qed.

Lemma loop_A : forall (A : mat) i k m (g : nat -> Q),
  let R := loop 0 m (fun j A => setm A i k (A i k + g j)) (setm A i k 0) in
  R i k == sumf m g /\ forall r c, r <> i \/ c <> k -> R r c = A r c.
Proof.
  intros. unfold R. apply (loop_inv (fun j (q : mat) => q i k == sumf j g /\ forall r c, r <> i \/ c <> k -> q r c = A r c)); [lia| |].
  - simpl. split; [rewrite setm_eq; lra|]. intros. apply setm_neq; auto.
  - intros j q _ [H1 H2]. split.
    + rewrite setm_eq. simpl. rewrite H1. lra.
    + intros r c N. rewrite setm_neq; auto.
Qed.

Lemma lineqsys_init_spec : forall gamma f n m A p A' p',
  lineqsys_init gamma f n m A p = (A', p') -> normal_matrix gamma n m A' /\ normal_rhs gamma f n m p'.
Proof.
  intros gamma f n m A p A' p' E. unfold lineqsys_init in E. injection E as <- <-. split.
  - cut (forall i k, (i < n)%nat -> (k < n)%nat ->
      (loop 0 n (fun i A =>
              let A1 := setm A i i 0 in
              let A2 := loop 0 m (fun j A => setm A i i (A i i + gamma j i * gamma j i)) A1 in
              loop (S i) n (fun k A =>
                let A3 := setm A i k 0 in
                let A4 := loop 0 m (fun j A => setm A i k (A i k + gamma j i * gamma j k)) A3 in
                setm A4 k i (A4 i k)) A2) A) i k == sumf m (fun j => gamma j i * gamma j k)); [intros H; exact H|].
    intros i k Hi Hk.
    cut ((min i k < n)%nat -> (loop 0 n (fun i A =>
              let A1 := setm A i i 0 in
              let A2 := loop 0 m (fun j A => setm A i i (A i i + gamma j i * gamma j i)) A1 in
              loop (S i) n (fun k A =>
                let A3 := setm A i k 0 in
                let A4 := loop 0 m (fun j A => setm A i k (A i k + gamma j i * gamma j k)) A3 in
                setm A4 k i (A4 i k)) A2) A) i k == sumf m (fun j => gamma j i * gamma j k)); [intros H; apply H; lia|].
    revert i k Hi Hk.
    apply (loop_inv (fun t (B : mat) => forall i k, (i < n)%nat -> (k < n)%nat -> (min i k < t)%nat ->
       B i k == sumf m (fun j => gamma j i * gamma j k))); [lia|intros; lia|].
    intros t B [_ Ht] IH. cbv zeta.
    destruct (loop_A B t t m (fun j => gamma j t * gamma j t)) as [D1 D2].
    set (A2 := loop 0 m (fun j A0 => setm A0 t t (A0 t t + gamma j t * gamma j t)) (setm B t t 0)) in *.
    assert (Q : forall i k, (i < n)%nat -> (k < n)%nat -> (min i k < S t)%nat -> (max i k < n)%nat \/ (min i k < t)%nat ->
       loop (S t) n (fun k A =>
                setm (loop 0 m (fun j A => setm A t k (A t k + gamma j t * gamma j k)) (setm A t k 0)) k t
                     (loop 0 m (fun j A => setm A t k (A t k + gamma j t * gamma j k)) (setm A t k 0) t k)) A2 i k
       == sumf m (fun j => gamma j i * gamma j k)).
    { apply (loop_inv (fun c (B : mat) => forall i k, (i < n)%nat -> (k < n)%nat -> (min i k < S t)%nat ->
         (max i k < c)%nat \/ (min i k < t)%nat -> B i k == sumf m (fun j => gamma j i * gamma j k))
         n) with (lo := S t) (s := A2) ; [lia| |].
      - intros i k Hi Hk Hm Hc. destruct (Nat.eq_dec (min i k) t) as [E|N].
        + assert (i = t /\ k = t) as [-> ->] by lia. exact D1.
        + rewrite D2 by lia. apply IH; lia.
      - intros c C Hc IHc i k Hi Hk Hm Hd.
        destruct (loop_A C t c m (fun j => gamma j t * gamma j c)) as [F1 F2].
        set (A4 := loop 0 m (fun j A0 => setm A0 t c (A0 t c + gamma j t * gamma j c)) (setm C t c 0)) in *.
        destruct (Nat.eq_dec i c) as [Ei|Ni], (Nat.eq_dec k t) as [Ek|Nk]; subst.
        + rewrite setm_eq. rewrite F1. apply sumf_ext. intros. ring.
        + rewrite setm_neq by lia. rewrite F2 by lia. apply IHc; lia.
        + rewrite setm_neq by lia. destruct (Nat.eq_dec i t); [subst; rewrite F2 by lia; apply IHc; lia|].
          rewrite F2 by lia. apply IHc; lia.
        + rewrite setm_neq by lia. destruct (Nat.eq_dec i t), (Nat.eq_dec k c); subst.
          * exact F1.
          * rewrite F2 by lia. apply IHc; lia.
          * rewrite F2 by lia. apply IHc; lia.
          * rewrite F2 by lia. apply IHc; lia.
      }
    intros i k Hi Hk Hm. apply Q; lia.
  - refine (loop_inv (fun t (q : vec) => forall i, (i < t)%nat -> q i == - sumf m (fun j => gamma j i * f j)) n _ 0%nat p _ _ _); [lia|intros; lia|].
    intros t q _ IH i Hi. cbv beta. destruct (loop_p q t m (fun j => gamma j t * f j)) as [P1 P2].
    destruct (Nat.eq_dec i t) as [->|N]; [exact P1|]. rewrite P2 by auto. apply IH. lia.
Qed.

Lemma lineqsys_update_spec : forall gamma gamma' f i n m A p A' p',
  (i < n)%nat -> normal_matrix gamma n m A ->
  (forall r c, c <> i -> gamma' r c = gamma r c) ->
  lineqsys_update gamma' f i n m A p = (A', p') -> normal_matrix gamma' n m A' /\ normal_rhs gamma' f n m p'.
Proof.
  intros gamma gamma' f i n m A p A' p' Hi HA Hg E. unfold normal_matrix in HA.
  assert (Q : forall t, t = n -> let '(A', p') := lineqsys_update gamma' f i n m A p in
    (forall r c, (r < n)%nat -> (c < n)%nat -> (r <> i /\ c <> i) \/ (r = i /\ c < t)%nat \/ (c = i /\ r < t)%nat ->
       A' r c == sumf m (fun j => gamma' j r * gamma' j c)) /\
    (forall r, (r < t)%nat -> p' r == - sumf m (fun j => gamma' j r * f j))).
  { intros t ->. unfold lineqsys_update.
    apply (loop_inv (fun t (Ap : mat * vec) => let '(A', p') := Ap in
      (forall r c, (r < n)%nat -> (c < n)%nat -> (r <> i /\ c <> i) \/ (r = i /\ c < t)%nat \/ (c = i /\ r < t)%nat ->
       A' r c == sumf m (fun j => gamma' j r * gamma' j c)) /\
      (forall r, (r < t)%nat -> p' r == - sumf m (fun j => gamma' j r * f j)))); [lia| |].
    - split; [|intros; lia]. intros r c Hr Hc [[N1 N2]|[|]]; try lia. rewrite HA by auto.
      apply sumf_ext. intros. rewrite !Hg by auto. reflexivity.
    - intros k [B q] Hk [IA IP]. cbv zeta.
      assert (L : let '(A2, p2) := loop 0 m (fun j '(A, p) =>
        (setm A i k (A i k + gamma' j i * gamma' j k), setv p k (p k - gamma' j k * f j))) (setm B i k 0, setv q k 0) in
        (A2 i k == sumf m (fun j => gamma' j i * gamma' j k) /\ forall r c, r <> i \/ c <> k -> A2 r c = B r c) /\
        (p2 k == - sumf m (fun j => gamma' j k * f j) /\ forall r, r <> k -> p2 r = q r)).
      { apply (loop_inv (fun t (Ap : mat * vec) => let '(A2, p2) := Ap in
         (A2 i k == sumf t (fun j => gamma' j i * gamma' j k) /\ forall r c, r <> i \/ c <> k -> A2 r c = B r c) /\
         (p2 k == - sumf t (fun j => gamma' j k * f j) /\ forall r, r <> k -> p2 r = q r))); [lia| |].
        - split; (split; [rewrite ?setm_eq, ?setv_eq; simpl; lra|]); intros; [apply setm_neq|apply setv_neq]; auto.
        - intros t [A2 p2] _ [[X1 X2] [Y1 Y2]]. split; split.
          + rewrite setm_eq, X1. simpl. reflexivity.
          + intros. rewrite setm_neq; auto.
          + rewrite setv_eq, Y1. simpl. lra.
          + intros. rewrite setv_neq; auto. }
      destruct (loop 0 m _ _) as [A2 p2]. destruct L as [[X1 X2] [Y1 Y2]]. split.
      + intros r c Hr Hc C. 
        destruct (Nat.eq_dec r k) as [Er|Nr], (Nat.eq_dec c i) as [Ec|Nc]; subst.
        * rewrite setm_eq, X1. apply sumf_ext. intros. ring.
        * rewrite setm_neq by auto. destruct (Nat.eq_dec k i) as [->|N].
          -- destruct (Nat.eq_dec c i); [lia|]. rewrite X2 by auto. apply IA; lia.
          -- rewrite X2 by auto. apply IA; lia.
        * rewrite setm_neq by auto. destruct (Nat.eq_dec r i) as [->|N].
          -- destruct (Nat.eq_dec i k) as [->|N2]; [lia|]. rewrite X2 by auto. apply IA; lia.
          -- rewrite X2 by auto. apply IA; lia.
        * rewrite setm_neq by auto. destruct (Nat.eq_dec r i) as [->|N].
          -- destruct (Nat.eq_dec c k) as [->|N2]; [exact X1|]. rewrite X2 by auto. apply IA; lia.
          -- rewrite X2 by auto. apply IA; lia.
      + intros r Hr. destruct (Nat.eq_dec r k) as [->|N]; [exact Y1|]. rewrite Y2 by auto. apply IP. lia. }
  specialize (Q n eq_refl). rewrite E in Q. destruct Q as [Q1 Q2]. split.
  - intros r c Hr Hc. apply Q1; auto. destruct (Nat.eq_dec r i), (Nat.eq_dec c i); subst; auto; tauto.
  - intros r Hr. apply Q2; auto.
Qed.

Section P.
Variable rt : Q -> Q.
Variable mdim : nat.
Variable idx : list nat.
Variable bounded : bool.
Variables pmin pmax : nat -> Q.
Variable maxchange : nat -> option Q.
Variable costf : list Q -> Q.
Variable devf : list Q -> vec.
Variable solve : mat -> vec -> answer.
Variable flagfile : nat -> bool.
Variable d_eps : Q.

(** The cost and the deviation vector depend on the values of the parameters only. *)
Hypothesis cost_ext : forall a b, Forall2 Qeq a b -> costf a = costf b.
Hypothesis dev_ext : forall a b, Forall2 Qeq a b -> devf a = devf b.

Notation gamma_init := (gamma_init rt mdim idx bounded pmin pmax devf).
Notation gamma_init_loop := (gamma_init_loop rt mdim idx bounded pmin pmax devf).
Notation gamma_update := (gamma_update rt mdim).
Notation inner_pass := (inner_pass rt mdim idx bounded pmin pmax maxchange costf devf solve).
Notation inner := (inner rt mdim idx bounded pmin pmax maxchange costf devf solve).
Notation outer_begin := (outer_begin rt mdim idx bounded pmin pmax devf).
Notation outer := (outer rt mdim idx bounded pmin pmax maxchange costf devf solve flagfile d_eps).
Notation run := (run_powell_lsq rt mdim idx bounded pmin pmax maxchange costf devf solve flagfile d_eps).
Notation ndim := (ndim idx).
Notation ix := (ix idx).

Lemma along_0 : forall xi del, length del = length xi -> Forall2 Qeq (along xi del 0) xi.
Proof.
  induction xi; intros del L; destruct del; simpl in *; try discriminate; constructor.
  - ring.
  - apply IHxi. lia.
Qed.

Lemma upd_restore : forall (x : list Q) k v, upd (upd x k v) k (nth k x 0) = x.
Proof. induction x; intros [|k] v; simpl; auto. f_equal. apply IHx. Qed.

Lemma gamma_init_xi : forall cols g d x f g' d' x' i, gamma_init_loop cols g d x f = (g', d', x', i) -> x' = x.
Proof.
  induction cols as [|c cols IH]; intros g d x f g' d' x' i E; simpl in E.
  - congruence.
  - destruct (gi_column _ _ _ _ _ _ _) as [g1 sum]. destruct (qltb _ _).
    + apply IH in E. rewrite E. apply upd_restore.
    + injection E as _ _ <- _. apply upd_restore.
Qed.

(** What holds between two passes: cost and deviation vector belong to the parameters and
    the search direction does not touch the fixed parameters. *)
Record Inv (x0 : list Q) (s : state) : Prop := mk_Inv {
  i_cost : f1 s = costf (xi s);
  i_dev : buf s B1 = devf (xi s);
  i_len : length (delta s) = length (xi s);
  i_len0 : length (xi s) = length x0;
  i_fix : forall k, ~ In k idx -> nth k (delta s) 0 == 0;
  i_fixed : forall k, ~ In k idx -> nth k (xi s) 0 == nth k x0 0;
  i_le : costf (xi s) <= costf x0 }.

Lemma start_inv : forall x, Inv x (start costf devf x).
Proof.
  intros. constructor; simpl; auto; try reflexivity.
  - apply map_length.
  - intros. replace (nth k (map (fun _ => 0) x) 0) with 0; [reflexivity|].
    clear. revert k. induction x; intros [|k]; simpl; auto.
  - lra.
Qed.

Lemma begin_inv : forall x0 s s', Inv x0 s -> outer_begin s = inl s' \/ outer_begin s = inr s' ->
  Inv x0 s' /\ f1 s' = f1 s /\ xi s' = xi s.
Proof.
  intros x0 s s' I H. unfold PowellModel.outer_begin in H.
  destruct (gamma_init _ _ _) as [[[g d] x] i] eqn:E. apply gamma_init_xi in E. subst x.
  destruct (0 <? i)%nat; [|destruct (lineqsys_init _ _ _ _ _ _) as [A p]];
    (destruct H as [H|H]; [|]; try discriminate H; injection H as <-; simpl;
     split; [destruct I; constructor; simpl; auto|auto]).
Qed.

Lemma nth_along : forall x d t k, length d = length x -> (k < length x)%nat -> nth k (along x d t) 0 = nth k x 0 + t * nth k d 0.
Proof.
  induction x; intros d t k L K; simpl in *; [lia|]. destruct d; [discriminate|]. simpl.
  destruct k; [reflexivity|]. simpl. apply IHx; simpl in L; lia.
Qed.

Lemma along_length : forall x d t, length d = length x -> length (along x d t) = length x.
Proof. intros. unfold along. rewrite map_length, combine_length. lia. Qed.

Lemma step_dir_spec : forall d q x del del' fl,
  step_dir idx bounded pmin pmax maxchange d q x del = (del', fl) ->
  length del' = length del /\ forall k, ~ In k idx -> nth k del' 0 = nth k del 0.
Proof.
  intros d q x del del' fl E.
  change (let '(del', fl) := (del', fl) in length del' = length del /\ forall k, ~ In k idx -> nth k del' 0 = nth k del 0).
  rewrite <- E. unfold step_dir.
  apply (loop_inv (fun _ (r : list Q * bool) => let '(del', fl) := r in
    length del' = length del /\ forall k, ~ In k idx -> nth k del' 0 = nth k del 0)); [lia|auto|].
  intros i [dl b] Hi [L F]. cbv zeta.
  assert (I : In (ix i) idx) by (apply nth_In; unfold PowellModel.ndim in Hi; lia).
  destruct bounded; (split; [rewrite upd_length; exact L|]); intros k N;
    rewrite nth_upd_neq by congruence; auto.
Qed.

Lemma step_some : forall x0 s del x' d' F a b m',
  Inv x0 s -> length del = length (delta s) -> (forall k, ~ In k idx -> nth k del 0 = nth k (delta s) 0) ->
  linmin vec costf devf (xi s) del (f1 s) (buf s) = Some (x', d', F, a, b, m') ->
  F = costf x' /\ m' B1 = devf x' /\ F <= f1 s /\
  m' B2 = devf (along (xi s) del b) /\
  forall g D A p n, Inv x0 (mk_state x' F m' g D A p d' n).
Proof.
  intros x0 s del x' d' F a b m' I L Z E. destruct I as [Ic Id Il Il0 If Ifx Ile].
  assert (LL : length del = length (xi s)) by congruence.
  destruct (linmin_spec vec costf devf (xi s) del (f1 s) (buf s) x' d' F a b m') as (X & D & C & Le & V1 & V2).
  - rewrite Ic. symmetry. apply cost_ext, along_0; auto.
  - rewrite Id. symmetry. apply dev_ext, along_0; auto.
  - exact E.
  - split; [exact C|]. split; [exact V1|]. split; [exact Le|]. split; [exact V2|].
    intros. constructor; simpl; auto.
    + rewrite D, X, map_length, along_length; auto.
    + rewrite X, along_length; auto.
    + intros k N. rewrite D. 
      destruct (Nat.lt_ge_cases k (length del)) as [K|K].
      * rewrite nth_indep with (d' := (fun d => d * a) 0) by (rewrite map_length; auto).
        rewrite (map_nth (fun d => d * a)). rewrite (Z k N), (If k N). ring.
      * rewrite nth_overflow by (rewrite map_length; auto). reflexivity.
    + intros k N. rewrite X.
      destruct (Nat.lt_ge_cases k (length (xi s))) as [K|K].
      * rewrite nth_along by auto. rewrite (Z k N), (If k N), (Ifx k N). ring.
      * rewrite !nth_overflow by (rewrite ?along_length; auto; lia). reflexivity.
    + rewrite <- C. rewrite <- Ic in Ile. lra.
Qed.

Definition stop_or_go (r : pass) (P : state -> Prop) : Prop :=
  match r with Broken s' | Ended s' | Again s' => P s' | Abort => True end.

Lemma pass_inv : forall x0 s, Inv x0 s -> stop_or_go (inner_pass s) (fun s' => Inv x0 s' /\ f1 s' <= f1 s).
Proof.
  intros x0 s I. unfold PowellModel.inner_pass.
  destruct (_ && _); [simpl; split; [exact I|lra]|].
  destruct (step_dir _ _ _ _ _ _ _ _ _) as [del fl] eqn:SD. destruct (step_dir_spec _ _ _ _ _ _ SD) as [L Z].
  destruct fl.
  { simpl. split; [|lra]. destruct I. constructor; simpl; auto; try congruence. intros k N. rewrite (Z k N). auto. }
  destruct (linmin _ _ _ _ _ _ _) as [[[[[[x' d'] F] a] b] m']|] eqn:LM; [|exact Logic.I].
  destruct (step_some _ _ _ _ _ _ _ _ _ I L Z LM) as (C & V1 & Le & V2 & G).
  destruct (_ && _); [simpl; split; auto|].
  destruct (gamma_update _ _ _ _ _ _ _ _) as [[g' dn']|]; [|simpl; split; auto].
  destruct (lineqsys_update _ _ _ _ _ _ _) as [A' p'].
  destruct (_ && _); simpl; split; auto.
Qed.

Lemma inner_inv : forall fuel x0 s, Inv x0 s ->
  match inner fuel s with Left s' => Inv x0 s' /\ f1 s' <= f1 s | _ => True end.
Proof.
  induction fuel; intros x0 s I; simpl; [exact Logic.I|].
  pose proof (pass_inv x0 s I) as H. destruct (inner_pass s); simpl in H; auto.
  destruct H as [H1 H2]. specialize (IHfuel x0 s0 H1). destruct (inner fuel s0); auto.
  destruct IHfuel as [K1 K2]. split; auto. lra.
Qed.

Definition threshold_ok (e : Q * Q) : Prop := PRECISION / 10 < fst e - snd e /\ d_eps < fst e - snd e.

Lemma outer_inv : forall fuel x0 n s log, Inv x0 s -> Forall threshold_ok log ->
  match outer fuel n s log with
  | Final s' log' => Inv x0 s' /\ f1 s' <= f1 s /\ Forall threshold_ok log'
  | _ => True
  end.
Proof.
  induction fuel; intros x0 n s log I Fa; cbn [PowellModel.outer]; [exact Logic.I|].
  destruct (outer_begin s) as [s0|s0] eqn:B.
  - destruct (begin_inv x0 s s0 I (or_introl B)) as (I0 & F0 & _).
    pose proof (inner_inv (inner_fuel idx) x0 s0 I0) as H.
    destruct (inner (inner_fuel idx) s0) as [s'| |]; auto. destruct H as [I' Le]. rewrite F0 in Le.
    destruct (flagfile n); [split; [auto|split; [lra|auto]]|].
    unfold outer_again. destruct (_ && _) eqn:C; cbv iota.
    + specialize (IHfuel x0 (S n) s' ((f1 s, f1 s') :: log) I').
      assert (T : Forall threshold_ok ((f1 s, f1 s') :: log)).
      { constructor; auto. apply andb_prop in C. destruct C as [C1 C2]. apply qltb_t in C2. unfold threshold_ok; simpl.
        split; [|exact C2]. apply orb_prop in C1. destruct C1 as [C1|C1]; apply qltb_t in C1; [exact C1|]. lra. }
      specialize (IHfuel T). destruct (outer fuel (S n) s' _); auto. destruct IHfuel as (J1 & J2 & J3). split; [auto|]. split; [lra|auto].
    + split; [auto|split; [lra|auto]].
  - destruct (begin_inv x0 s s0 I (or_intror B)) as (I0 & F0 & _). split; [auto|]. split; [rewrite F0; lra|auto].
Qed.

Theorem powell_never_worse : forall fuel x s log, run fuel x = Final s log ->
  length (xi s) = length x /\ costf (xi s) <= costf x /\
  f1 s = costf (xi s) /\ buf s B1 = devf (xi s) /\
  (forall k, ~ In k idx -> nth k (xi s) 0 == nth k x 0) /\
  Forall threshold_ok log.
Proof.
  intros fuel x s log E. unfold run_powell_lsq in E. destruct (qltb _ _).
  - injection E as <- <-. pose proof (start_inv x) as []. repeat (split; auto).
  - pose proof (outer_inv fuel x O _ [] (start_inv x) (Forall_nil _)) as H. rewrite E in H.
    destruct H as ([] & _ & T). repeat (split; auto).
Qed.

(** ** The run ends *)
Lemma inner_terminates : forall fuel s, (S (max ndim (S INNERLOOPS)) <= fuel + steps s)%nat -> (0 < fuel)%nat -> inner fuel s <> OutOfFuel.
Proof.
  induction fuel; intros s Hf H0; [lia|]. simpl.
  destruct (inner_pass s) as [s'|s'| |s'] eqn:P; try congruence.
  assert (K : steps s' = S (steps s) /\ (steps s' < ndim \/ steps s' <= INNERLOOPS)%nat).
  { unfold PowellModel.inner_pass in P. destruct (_ && _) in P; [discriminate|].
    destruct (step_dir _ _ _ _ _ _ _ _ _) as [del fl] in P. destruct fl; [discriminate|].
    destruct (linmin _ _ _ _ _ _ _) as [[[[[[x' d'] F] a] b] m']|] in P; [|discriminate].
    destruct (_ && _) in P; [discriminate|].
    destruct (gamma_update _ _ _ _ _ _ _ _) as [[g' dn']|] in P; [|discriminate].
    destruct (lineqsys_update _ _ _ _ _ _ _) as [A' p'] in P.
    destruct (_ && _) eqn:C in P; [|discriminate]. injection P as <-. simpl. split; auto.
    apply andb_prop in C. destruct C as [C _]. apply orb_prop in C. destruct C as [C|C].
    - apply Nat.ltb_lt in C. lia.
    - apply andb_prop in C. destruct C as [C _]. apply Nat.leb_le in C. lia. }
  apply IHfuel; lia.
Qed.

Lemma outer_terminates : forall fuel x0 n s log, Inv x0 s -> (forall x, 0 <= costf x) ->
  f1 s <= inject_Z (Z.of_nat fuel) * (PRECISION / 10) -> outer (S fuel) n s log <> NoEnd.
Proof.
  induction fuel; intros x0 n s log I Pos Hf.
  - cbn [PowellModel.outer]. destruct (outer_begin s) as [s0|s0] eqn:B; [|congruence].
    destruct (begin_inv x0 s s0 I (or_introl B)) as (I0 & F0 & _).
    pose proof (inner_inv (inner_fuel idx) x0 s0 I0) as H.
    destruct (inner (inner_fuel idx) s0) as [s'| |] eqn:E; try congruence.
    + destruct H as [I' Le]. rewrite F0 in Le. destruct (flagfile n); [congruence|].
      destruct (outer_again d_eps (f1 s) (f1 s')) eqn:C; [|congruence]. exfalso.
      unfold outer_again in C. apply andb_prop in C. destruct C as [C1 C2]. 
      rewrite (i_cost _ _ I') in *. pose proof (Pos (xi s')) as Q.
      unfold PRECISION in *. apply orb_prop in C1. destruct C1 as [C1|C1]; apply qltb_t in C1.
      * assert (f1 s <= 0) by (change (inject_Z (Z.of_nat 0)) with 0 in Hf; rewrite Qmult_0_l in Hf; exact Hf). clear - C1 H Q. change ((1 # 10000000) / 10) with (1 # 100000000) in C1. lra.
      * lra.
    + exfalso. revert E. apply inner_terminates; unfold inner_fuel; simpl; lia.
  - remember (S fuel) as f. cbn [PowellModel.outer]. destruct (outer_begin s) as [s0|s0] eqn:B; [|congruence].
    destruct (begin_inv x0 s s0 I (or_introl B)) as (I0 & F0 & _).
    pose proof (inner_inv (inner_fuel idx) x0 s0 I0) as H.
    destruct (inner (inner_fuel idx) s0) as [s'| |] eqn:E; try congruence.
    + destruct H as [I' Le]. rewrite F0 in Le. destruct (flagfile n); [congruence|].
      destruct (outer_again d_eps (f1 s) (f1 s')) eqn:C; [|congruence]. subst f.
      apply (IHfuel x0); auto.
      unfold outer_again in C. apply andb_prop in C. destruct C as [C1 C2]. 
      apply orb_prop in C1. destruct C1 as [C1|C1]; apply qltb_t in C1; [|lra].
      rewrite Nat2Z.inj_succ in Hf. unfold Z.succ in Hf. rewrite inject_Z_plus in Hf.
      setoid_replace ((inject_Z (Z.of_nat fuel) + inject_Z 1) * (PRECISION / 10)) with
        (inject_Z (Z.of_nat fuel) * (PRECISION / 10) + PRECISION / 10) in Hf.
      2:{ change (inject_Z 1) with 1. ring. }
      lra.
    + exfalso. revert E. apply inner_terminates; unfold inner_fuel; simpl; lia.
Qed.

Theorem powell_terminates : forall x, (forall x, 0 <= costf x) -> exists fuel, run fuel x <> NoEnd.
Proof.
  intros x Pos.
  exists (S (Z.to_nat (Qnum (costf x) * 100000000))). unfold run_powell_lsq. destruct (qltb _ _); [congruence|].
  apply (outer_terminates _ x); [apply start_inv|exact Pos|]. simpl f1.
  rewrite Z2Nat.id. 2:{ specialize (Pos x). unfold Qle in Pos. simpl in Pos. lia. }
  change (PRECISION / 10) with (1 # 100000000).
  rewrite inject_Z_mult. setoid_replace (inject_Z (Qnum (costf x)) * inject_Z 100000000 * (1 # 100000000)) with (inject_Z (Qnum (costf x))).
  2:{ unfold Qeq. simpl. lia. }
  specialize (Pos x). destruct (costf x) as [a b]. unfold Qle in *. simpl in *. nia.
Qed.

(** ** Normal equations at every call of the solver *)
Inductive head : state -> Prop :=
| head_start : forall x s, outer_begin (start costf devf x) = inl s -> head s
| head_again : forall s s', head s -> inner_pass s = Again s' -> head s'
| head_outer : forall s s' s'', head s -> inner_pass s = Broken s' \/ inner_pass s = Ended s' ->
    outer_begin s' = inl s'' -> head s''.

Definition NE (s : state) : Prop :=
  normal_matrix (gam s) ndim mdim (les s) /\ normal_rhs (gam s) (buf s B1) ndim mdim (rhs s).

Lemma begin_NE : forall s s', outer_begin s = inl s' -> NE s'.
Proof.
  intros s s' H. unfold PowellModel.outer_begin in H.
  destruct (gamma_init _ _ _) as [[[g d] x] i] eqn:E.
  destruct (0 <? i)%nat; [discriminate|]. destruct (lineqsys_init _ _ _ _ _ _) as [A p] eqn:L.
  injection H as <-. unfold NE; simpl. eapply lineqsys_init_spec; eauto.
Qed.

Lemma gamma_update_col : forall g a b fa fb dl j fm g' d', gamma_update g a b fa fb dl j fm = Some (g', d') ->
  forall r c, c <> j -> g' r c = g r c.
Proof.
  intros g a b fa fb dl j fm g' d' E r c N. unfold PowellModel.gamma_update in E.
  destruct (_ || _); [discriminate|].
  match type of E with (let '(_, _) := ?l in _) = _ => destruct l as [g1 mu] eqn:E1 end.
  match type of E with (let '(_, _) := ?l in _) = _ => destruct l as [g2 sm] eqn:E2 end.
  cbv zeta in E. destruct (qltb _ _); [|discriminate]. injection E as <- _.
  transitivity (g2 r c); [|transitivity (g1 r c)].
  - apply (loop_inv (fun _ (h : mat) => h r c = g2 r c)); [lia|auto|]. intros i h _ H. rewrite setm_neq; auto.
  - change ((fun p : mat * Q => fst p r c = g1 r c) (g2, sm)). rewrite <- E2.
    apply (loop_inv (fun _ (p : mat * Q) => fst p r c = g1 r c)); [lia|auto|]. intros i [h q] _ H. simpl. rewrite setm_neq; auto.
  - change ((fun p : mat * Q => fst p r c = g r c) (g1, mu)). rewrite <- E1.
    apply (loop_inv (fun _ (p : mat * Q) => fst p r c = g r c)); [lia|auto|]. intros i [h q] _ H. simpl. rewrite setm_neq; auto.
Qed.

Lemma best_dir_lt : forall p q, (0 < ndim)%nat -> (best_dir idx p q < ndim)%nat.
Proof.
  intros p q H. unfold best_dir.
  apply (loop_inv (fun _ (r : nat * Q) => (fst r < ndim)%nat)); [lia|auto|].
  intros i [j t] Hi Hj. cbv zeta. destruct (qltb _ _); simpl in *; lia.
Qed.

Lemma pass_NE : forall s s', NE s -> inner_pass s = Again s' -> NE s'.
Proof.
  intros s s' [N1 N2] P. unfold PowellModel.inner_pass in P. destruct (_ && _) in P; [discriminate|].
    destruct (step_dir _ _ _ _ _ _ _ _ _) as [del fl] in P. destruct fl; [discriminate|].
    destruct (linmin _ _ _ _ _ _ _) as [[[[[[x' d'] F] a] b] m']|] in P; [|discriminate].
    destruct (_ && _) in P; [discriminate|].
    destruct (gamma_update _ _ _ _ _ _ _ _) as [[g' dn']|] eqn:G in P; [|discriminate].
    destruct (lineqsys_update _ _ _ _ _ _ _) as [A' p'] eqn:L in P.
    destruct (_ && _) eqn:C in P; [|discriminate]. injection P as <-. unfold NE; simpl.
    destruct (Nat.eq_dec ndim 0) as [Z|NZ].
    { split; [intros i k Hi|intros i Hi]; rewrite Z in Hi; lia. }
    eapply lineqsys_update_spec with (gamma := gam s).
    - apply best_dir_lt. lia.
    - exact N1.
    - intros r c. apply (gamma_update_col _ _ _ _ _ _ _ _ _ _ G).
    - exact L.
Qed.

Lemma head_inv : forall s, head s -> NE s /\ exists x0, Inv x0 s.
Proof.
  induction 1 as [x s B|s s' H [N [x0 I]] P|s s' s'' H [N [x0 I]] P B].
  - split; [eapply begin_NE; eauto|]. exists x. eapply begin_inv; [apply start_inv|]. left; eauto.
  - split; [eapply pass_NE; eauto|]. exists x0. pose proof (pass_inv x0 s I) as Q. rewrite P in Q. apply Q.
  - split; [eapply begin_NE; eauto|]. exists x0. eapply begin_inv; [|left; eauto].
    pose proof (pass_inv x0 s I) as Q. destruct P as [P|P]; rewrite P in Q; apply Q.
Qed.

Theorem normal_equations : forall s, head s ->
  normal_matrix (gam s) ndim mdim (les s) /\ normal_rhs (gam s) (devf (xi s)) ndim mdim (rhs s).
Proof. intros s H. destruct (head_inv s H) as [[N1 N2] [x0 I]]. rewrite <- (i_dev _ _ I). split; auto. Qed.
End P.
