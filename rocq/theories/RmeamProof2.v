(** A column times a number: the spline is the spline times that number. *)
From Coq Require Import Reals ZArith List Bool Lia Lra.
From Verif Require Import LoopUtil SplineModel SplineProof SplineProof2 SplineProof3 SplineProof4 SplineProof5 RescaleModel RescaleProof2 RescaleProof3 RescaleProof4 RmeamModel.
Local Open Scope R_scope.

Definition slope_scaled (a s s' : R) : Prop := (NATURAL < s /\ NATURAL < s') \/ (s <= NATURAL /\ s' <= NATURAL /\ s' = a * s).
Section Lin.
Variables (a h : R) (y y' : arr) (n : nat).
Hypothesis N2 : (2 <= n)%nat.
Hypothesis Y : forall i, (i < n)%nat -> y' i = a * y i.
Lemma start_scale : forall s s' z z', slope_scaled a s s' ->
  let p := ed_start h y s z (fun _ => 0) in let p' := ed_start h y' s' z' (fun _ => 0) in fst p' 0%nat = fst p 0%nat /\ snd p' 0%nat = a * snd p 0%nat.
Proof.
  intros s s' z z' H. cbv zeta. unfold ed_start. destruct H as [[A B]|(A & B & C)].
  - destruct (Rlt_dec NATURAL s); [|lra]. destruct (Rlt_dec NATURAL s'); [|lra]. cbn [fst snd]. unfold setr. cbn. split; ring.
  - destruct (Rlt_dec NATURAL s); [lra|]. destruct (Rlt_dec NATURAL s'); [lra|]. cbn [fst snd]. unfold setr. cbn. split; [ring|].
    rewrite C, (Y 1%nat) by lia. rewrite (Y 0%nat) by lia. unfold Rdiv. ring.
Qed.
Lemma forward_scale : forall p p', fst p' 0%nat = fst p 0%nat -> snd p' 0%nat = a * snd p 0%nat ->
  let q := for_up 1 (n - 1) (ed_forward h y) p in let q' := for_up 1 (n - 1) (ed_forward h y') p' in
  forall i, (i < n - 1)%nat -> fst q' i = fst q i /\ snd q' i = a * snd q i.
Proof.
  intros p p' A B. cbv zeta.
  assert (G : forall k, (1 <= k <= n - 1)%nat -> forall i, (i < k)%nat ->
    fst (for_up 1 k (ed_forward h y') p') i = fst (for_up 1 k (ed_forward h y) p) i /\ snd (for_up 1 k (ed_forward h y') p') i = a * snd (for_up 1 k (ed_forward h y) p) i).
  { intros k. induction k; intros Hk i Hi; [lia|]. destruct (Nat.eq_dec k 0) as [->|K].
    - replace i with 0%nat by lia. rewrite !for_up_nil. auto.
    - rewrite !for_up_S by lia. pose proof (IHk ltac:(lia)) as I.
      set (q := for_up 1 k (ed_forward h y) p) in *. set (q' := for_up 1 k (ed_forward h y') p') in *.
      destruct (I (k - 1)%nat ltac:(lia)) as [I1 I2]. 
      unfold ed_forward. destruct q as [z u]. destruct q' as [z' u']. cbn [fst snd] in *. unfold setr. destruct (Nat.eqb i k) eqn:E.
      + rewrite I1, I2. rewrite (Y (k + 1)%nat), (Y k), (Y (k - 1)%nat) by lia. split; [auto|]. unfold Rdiv. ring.
      + apply Nat.eqb_neq in E. apply I. lia. }
  apply (G (n - 1)%nat). lia.
Qed.
Lemma spline_scale : forall s s' e e' z z', slope_scaled a s s' -> slope_scaled a e e' ->
  forall i, (i < n)%nat -> spline_ed h y' n s' e' z' i = a * spline_ed h y n s e z i.
Proof.
  intros s s' e e' z z' HS HE i Hi. unfold spline_ed.
  destruct (start_scale s s' z z' HS) as [A B].
  pose proof (forward_scale _ _ A B) as F. cbv zeta in F.
  set (q := for_up 1 (n - 1) (ed_forward h y) (ed_start h y s z (fun _ => 0))) in *. set (q' := for_up 1 (n - 1) (ed_forward h y') (ed_start h y' s' z' (fun _ => 0))) in *.
  assert (E : exists qn un un', ed_end h y n e = (qn, un) /\ ed_end h y' n e' = (qn, un') /\ un' = a * un).
  { unfold ed_end. destruct HE as [[H1 H2]|(H1 & H2 & H3)].
    - destruct (Rlt_dec NATURAL e); [|lra]. destruct (Rlt_dec NATURAL e'); [|lra]. exists 0, 0, 0. split; [auto|]. split; [auto|ring].
    - destruct (Rlt_dec NATURAL e); [lra|]. destruct (Rlt_dec NATURAL e'); [lra|]. eexists _, _, _. split; [reflexivity|]. split; [reflexivity|].
      rewrite H3, (Y (n - 1)%nat), (Y (n - 2)%nat) by lia. unfold Rdiv. ring. }
  destruct E as (qn & un & un' & -> & -> & EU). destruct q as [z1 u]. destruct q' as [z1' u']. cbn [fst snd] in F. unfold finish.
  destruct (F (n - 2)%nat ltac:(lia)) as [F1 F2].
  set (w := setr z1 (n - 1) _). set (w' := setr z1' (n - 1) _).
  assert (W : w' (n - 1)%nat = a * w (n - 1)%nat /\ forall i, (i < n - 1)%nat -> w' i = w i).
  { unfold w, w', setr. rewrite Nat.eqb_refl. split.
    - rewrite F1, F2, EU. unfold Rdiv. ring.
    - intros j Hj. destruct (Nat.eqb_spec j (n - 1)); [lia|]. apply F. auto. }
  destruct W as [W1 W2].
  assert (G : forall m k v v', (k + m = n - 1)%nat -> (forall i, (n - 1 <= i < n)%nat -> v' i = a * v i) -> (forall i, (i < n - 1)%nat -> v' i = v i) ->
     (forall i, (k <= i < n)%nat -> for_down k (n - 1) (back u') v' i = a * for_down k (n - 1) (back u) v i) /\
     (forall i, (i < k)%nat -> for_down k (n - 1) (back u') v' i = v' i /\ for_down k (n - 1) (back u) v i = v i)).
  { induction m; intros k v v' K V1 V2.
    - replace k with (n - 1)%nat by lia. unfold for_down. rewrite Nat.sub_diag. cbn. split; auto.
    - assert (D : forall (b : nat -> arr -> arr) x, for_down k (n - 1) b x = b k (for_down (S k) (n - 1) b x)).
      { intros b x. unfold for_down. replace (n - 1 - k)%nat with (S (n - 1 - S k)) by lia. cbn [seq rev]. rewrite fold_left_app. reflexivity. }
      rewrite !D. destruct (IHm (S k) v v' ltac:(lia) V1 V2) as [I1 I2].
      set (x := for_down (S k) (n - 1) (back u) v) in *. set (x' := for_down (S k) (n - 1) (back u') v') in *.
      unfold back, setr. split.
      + intros j Hj. destruct (Nat.eqb_spec j k) as [->|N]; [|apply I1; lia].
        destruct (I2 k ltac:(lia)) as [J1 J2]. rewrite J1, J2, (I1 (k + 1)%nat) by lia. rewrite (V2 k) by lia. destruct (F k ltac:(lia)) as [_ ->]. ring.
      + intros j Hj. destruct (Nat.eqb_spec j k) as [->|N]; [lia|]. apply I2. lia. }
  destruct (G (n - 1)%nat 0%nat w w' ltac:(lia)) as [G1 _].
  - intros j Hj. replace j with (n - 1)%nat by lia. auto.
  - auto.
  - apply G1. lia.
Qed.
End Lin.

(** a slope, or natural in every test *)
Definition scalable (a s : R) : Prop := E30 <= s \/ (s <= NATURAL /\ s * a <= NATURAL).
Lemma scalable_slope : forall a s, scalable a s -> slope_scaled a s (if Rlt_dec s E30 then s * a else s).
Proof.
  intros a s H. destruct E29_NATURAL as (E1 & E2 & E3). destruct H as [H|[H1 H2]]; destruct (Rlt_dec s E30); try lra.
  - left. lra.
  - right. split; [lra|]. split; [lra|ring].
Qed.
Section Col.
Variable fmt3 : bool.
Variables (a : R) (f : fn).
Hypothesis OK : ok fmt3 f.
Hypothesis SL : scalable a (sl f).
Hypothesis SR : scalable a (sr f).
Let h := spl true true f.
Let h' := spl true true (m_scaled a h).
Lemma scaled_at : forall k, (first (col f) <= k <= last (col f))%nat -> val h' k = a * val h k /\ d2tab (col h') k = a * d2tab (col h) k.
Proof.
  intros k Hk. destruct OK as ((L & _) & _).
  assert (B : (Nat.leb (first (col f)) k && Nat.leb k (last (col f)))%bool = true) by (apply andb_true_intro; split; apply Nat.leb_le; lia).
  unfold h', h, m_scaled, spl. cbn [val col d2tab first last sl sr step]. rewrite !B. split; [ring|].
  apply spline_scale; try lia.
  - intros i Hi. destruct (Nat.leb_spec (first (col f)) (first (col f) + i)); [|lia]. destruct (Nat.leb_spec (first (col f) + i) (last (col f))); [|lia]. cbn [andb]. ring.
  - apply scalable_slope. auto.
  - apply scalable_slope. auto.
Qed.
(** up to the end of the table, and beyond it in format 4 *)
Theorem scaled_slot : forall r, r <= endr (col f) -> at_slot fmt3 h' r = a * at_slot fmt3 h r.
Proof.
  intros r Hr. unfold at_slot.
  assert (D : forall k b st, (first (col f) <= k < last (col f))%nat -> splint_dir (d2tab (col h')) (val h') k b st = a * splint_dir (d2tab (col h)) (val h) k b st).
  { intros k b st K. unfold splint_dir. destruct (scaled_at k ltac:(lia)) as [-> ->]. destruct (scaled_at (k + 1)%nat ltac:(lia)) as [-> ->]. unfold Rdiv. ring. }
  destruct fmt3 eqn:F.
  - change (slot_ed (col h') r) with (slot_ed (col f) r). change (slot_ed (col h) r) with (slot_ed (col f) r).
    destruct OK as (_ & E). destruct (E eq_refl) as (EQ & _). destruct (Rlt_dec r (begin (col f))) as [B|B].
    + destruct (ed_short (col f) (val f) r B) as (_ & _ & _ & ->). ring.
    + destruct (ed_slot_neighbour (col f) (val f) EQ r ltac:(lra)) as (k & b & -> & K & _). apply D. auto.
  - change (slot_ne (col h') r) with (slot_ne (col f) r). change (slot_ne (col h) r) with (slot_ne (col f) r).
    destruct OK as (LI & _). destruct (slot_ne (col f) r) as [[k b] st] eqn:S. destruct (ne_slot (col f) (val f) LI r k b st S) as (K & _). apply D. auto.
Qed.
End Col.
