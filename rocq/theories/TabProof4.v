(** Format 3 written as format 4; which columns are read; free parameters. *)
From Coq Require Import List ZArith QArith Qcanon Bool Arith Lia.
From Verif Require Import TabModel TabSpec TabProof TabProof2 TabProof3.
Import ListNotations.
Close Scope Q_scope.
Close Scope Qc_scope.
Open Scope nat_scope.

(** ** Free parameters *)
Definition col_free (free : kind -> nat -> nat -> bool) (k : kind) (c : col4) (o q : nat) : Prop :=
  snd (fst c) = 0%Z /\
  ((q = o /\ Z.shiftr (snd c) 1 <> 0%Z) \/ (q = o + 1 /\ Z.rem (snd c) 2 <> 0%Z) \/
   exists j, j < nv4 c /\ q = o + 2 + j /\ free k (nv4 c) j = true).
Fixpoint ixg (free : kind -> nat -> nat -> bool) (ks : list kind) (cs : list col4) (l : nat) : list nat :=
  match ks, cs with
  | k :: kr, (nv, inv, g) :: cr =>
      grad_idx inv g l ++ val_idx (free k) inv nv (l + 2) ++ ixg free kr cr (l + 2 + nv)
  | _, _ => []
  end.
Definition drop (c : col) : col4 := (nvc c, snd (fst c), snd c).
Lemma ix4_g : forall ks cs l, ix4 ks cs l = ixg free4 ks cs l.
Proof. induction ks as [|k kr IH]; intros [|[[nv inv] g] cr] l; try reflexivity. cbn. rewrite IH. reflexivity. Qed.
Lemma ix3_g : forall ks cs l, ix3 ks cs l = ixg free3 ks (map drop cs) l.
Proof. induction ks as [|k kr IH]; intros [|[[[[b e] nv] inv] g] cr] l; try reflexivity. cbn. rewrite IH. reflexivity. Qed.

Lemma in_col : forall free k nv inv g l q,
  In q (grad_idx inv g l ++ val_idx (free k) inv nv (l + 2)) <-> col_free free k (nv, inv, g) l q.
Proof.
  intros free k nv inv g l q. unfold col_free, nv4, grad_idx, val_idx. cbn [fst snd].
  rewrite !in_app_iff, in_flat_map.
  destruct (Z.eqb_spec inv 0) as [->|NI]; cbn [andb].
  - split.
    + intros [[H|H]|[j [Hj H]]]; split; try reflexivity.
      * destruct (Z.eqb_spec (Z.shiftr g 1) 0); cbn [negb] in H; [destruct H|]. destruct H as [H|[]]. left. auto.
      * destruct (Z.eqb_spec (Z.rem g 2) 0); cbn [negb] in H; [destruct H|]. destruct H as [H|[]]. right. left. auto.
      * apply in_seq in Hj. right. right. exists j. destruct (free k nv j) eqn:Ef; [|destruct H].
        destruct H as [H|[]]. repeat split; try lia; assumption.
    + intros [_ [[E H]|[[E H]|[j [Hj [E H]]]]]].
      * left. left. destruct (Z.eqb_spec (Z.shiftr g 1) 0); [contradiction|]. left. auto.
      * left. right. destruct (Z.eqb_spec (Z.rem g 2) 0); [contradiction|]. left. auto.
      * right. exists j. split; [apply in_seq; lia|]. rewrite H. left. lia.
  - split; [|intros [H _]; contradiction]. intros [[[]|[]]|[j [_ []]]].
Qed.
Lemma ixg_spec : forall free ks cs l q,
  In q (ixg free ks cs l) <->
  exists i, i < length ks /\ i < length cs /\
    col_free free (nth i ks KPair) (nth i cs (0, 0%Z, 0%Z)) (l + off (map nv4 cs) i) q.
Proof.
  intro free. induction ks as [|k kr IH]; intros cs l q.
  - split; [intros []|]. intros [i [H _]]. cbn in H. lia.
  - destruct cs as [|[[nv inv] g] cr].
    + split; [intros []|]. intros [i [_ [H _]]]. cbn in H. lia.
    + cbn [ixg]. rewrite app_assoc, in_app_iff, in_col, IH. split.
      * intros [H|[i [H1 [H2 H3]]]].
        -- exists 0. cbn [length nth off]. rewrite Nat.add_0_r. repeat split; try lia; apply H.
        -- exists (S i). cbn [length nth map off]. change (nv4 (nv, inv, g)) with nv.
           replace (l + (nv + 2 + off (map nv4 cr) i)) with (l + 2 + nv + off (map nv4 cr) i) by lia.
           repeat split; try lia; apply H3.
      * intros [[|i] [H1 [H2 H3]]].
        -- left. cbn [nth off map] in H3. rewrite Nat.add_0_r in H3. exact H3.
        -- right. exists i. cbn [length nth map off] in *. change (nv4 (nv, inv, g)) with nv in H3.
           replace (l + 2 + nv + off (map nv4 cr) i) with (l + (nv + 2 + off (map nv4 cr) i)) by lia.
           repeat split; try lia; apply H3.
Qed.
Lemma off_step : forall nv i, i < length nv -> off nv (S i) = off nv i + nth i nv 0 + 2.
Proof.
  induction nv as [|k r IH]; intros i L; [cbn in L; lia|]. destruct i as [|i].
  - destruct r; cbn; lia.
  - change (off (k :: r) (S (S i))) with (k + 2 + off r (S i)). rewrite IH by (cbn in L; lia).
    cbn [off nth]. lia.
Qed.
Lemma off_mono : forall nv i i', i < i' -> i' <= length nv -> off nv i + nth i nv 0 + 2 <= off nv i'.
Proof.
  intros nv i i' L L'. induction i' as [|i' IH]; [lia|].
  rewrite off_step by lia. destruct (Nat.eq_dec i i') as [->|N]; [lia|]. specialize (IH ltac:(lia) ltac:(lia)). lia.
Qed.
Lemma off_unique : forall nv i i' j j', i < length nv -> i' < length nv ->
  j < nth i nv 0 + 2 -> j' < nth i' nv 0 + 2 -> off nv i + j = off nv i' + j' -> i = i' /\ j = j'.
Proof.
  intros nv i i' j j' L L' J J' E.
  destruct (Nat.lt_trichotomy i i') as [T|[T|T]].
  - pose proof (off_mono nv i i' T ltac:(lia)). lia.
  - subst i'. lia.
  - pose proof (off_mono nv i' i T ltac:(lia)). lia.
Qed.
(** membership for a value of column [i] *)
Lemma ixg_value : forall free ks cs i j, i < length ks -> i < length cs -> j < nv4 (nth i cs (0, 0%Z, 0%Z)) ->
  (In (off (map nv4 cs) i + 2 + j) (ixg free ks cs 0) <->
   snd (fst (nth i cs (0, 0%Z, 0%Z))) = 0%Z /\ free (nth i ks KPair) (nv4 (nth i cs (0, 0%Z, 0%Z))) j = true).
Proof.
  intros free ks cs i j Lk Lc J. rewrite ixg_spec. split.
  - intros [i' [L1 [L2 [I H]]]].
    assert (NN : forall u, nth u (map nv4 cs) 0 = nv4 (nth u cs (0, 0%Z, 0%Z))).
    { intro u. change 0 with (nv4 (0, 0%Z, 0%Z)) at 1. apply map_nth. }
    assert (K : exists j', j' < nth i' (map nv4 cs) 0 + 2 /\ off (map nv4 cs) i + (2 + j) = off (map nv4 cs) i' + j' /\
              (2 <= j' -> free (nth i' ks KPair) (nv4 (nth i' cs (0, 0%Z, 0%Z))) (j' - 2) = true)).
    { rewrite NN. cbn [plus] in H. destruct H as [[E H]|[[E H]|[j' [Hj [E H]]]]].
      - exists 0. repeat split; lia.
      - exists 1. repeat split; lia.
      - exists (j' + 2). replace (j' + 2 - 2) with j' by lia. repeat split; try lia. intros _. exact H. }
    destruct K as [j' [J' [E F]]].
    apply off_unique in E; [|rewrite map_length; lia|rewrite map_length; lia|rewrite NN; lia|exact J'].
    destruct E as [<- E]. split; [exact I|]. rewrite <- E in F.
    replace (2 + j - 2) with j in F by lia. apply F. lia.
  - intros [I F]. exists i. repeat split; try assumption. right. right. exists j. repeat split; try assumption.
Qed.

(** ** Which columns are read *)
Lemma kinds3_all : forall b n, b <> Ang -> length (kinds3 b n) = npots b n.
Proof.
  intros b n H. unfold kinds3, npots. destruct b; try congruence;
    rewrite ?app_length, ?map_length, ?seq_length, ?repeat_length; cbn [length]; lia.
Qed.
Lemma kinds4_all : forall b n, b = Pairs \/ b = Eam \/ b = Adp -> length (kinds4 b n) = npots b n.
Proof.
  intros b n [->|[->| ->]]; unfold kinds4, npots; rewrite ?app_length, ?repeat_length; cbn [length]; lia.
Qed.
Lemma kinds34 : forall b n, b = Pairs \/ b = Eam \/ b = Adp -> kinds4 b n = kinds3 b n.
Proof. intros b n [->|[->| ->]]; reflexivity. Qed.

Lemma at_app_r : forall l m j, length l <= j -> at_ (l ++ m) j = at_ m (j - length l).
Proof. intros. unfold at_. apply app_nth2. lia. Qed.
Lemma at_pad : forall n l j, length l <= j -> at_ (pad n l) j = q0.
Proof.
  intros n l j H. unfold pad. rewrite at_app_r by exact H. unfold at_.
  generalize (j - length l) as u. generalize (n - length l) as v.
  induction v as [|v IH]; intros [|u]; try reflexivity. apply IH.
Qed.

Section Part.
Variables (rd : Qc -> Qc) (coord : Qc -> Qc -> nat -> nat -> Qc) (resc : bool).
Hypothesis Hrd : forall d : Qc, reads d (rd d).
(** The reader stops after its own loops. *)
Lemma cols4_part : forall ks hg cs l ts be t x ix r,
  cols4 rd resc hg ks cs l ts = Done (be, t, x, ix, r) ->
  length ks <= length cs /\ length t = off (map nv4 cs) (length ks) /\ ix = ix4 ks cs l /\
  (forall i, length ks <= i -> nth i be (q0, q0) = (q0, q0)).
Proof.
  induction ks as [|k kr IH]; intros hg cs l ts be t x ix r H.
  - cbn [cols4] in H. injection H as <- <- <- <- <-. repeat split; cbn; try lia.
    + destruct cs; reflexivity.
    + intros i _. clear. revert i. induction cs as [|c cs IH]; intros [|i]; try reflexivity. apply IH.
  - destruct cs as [|[[nv inv] g] cr]; [discriminate|]. cbn [cols4] in H.
    destruct (take_grad rd hg k ts) as [[g1 r1]| |] eqn:E1; try discriminate. cbn [bind fst snd] in H.
    destruct (take_pairs rd (lax4 k) nv None r1) as [[ps r2]| |] eqn:E2; try discriminate. cbn [bind fst snd] in H.
    destruct ps as [|[b v0] ps'] eqn:EP; [discriminate|]. rewrite <- EP in *.
    destruct (match k with KEmb => _ | _ => _ end) eqn:G; [discriminate|].
    destruct (cols4 rd resc hg kr cr (l + 2 + nv) r2) as [[[[[be' t'] x'] ix'] r']| |] eqn:E3; try discriminate.
    cbn [bind] in H. injection H as <- <- <- <- <-.
    destruct (IH _ _ _ _ _ _ _ _ _ E3) as [L [LT [-> Z]]].
    destruct (take_grad_B rd Hrd _ _ _ _ _ E1) as [L1 F1].
    destruct (take_pairs_back rd Hrd _ _ _ _ _ _ E2) as [L2 _].
    repeat split.
    + cbn [length]. lia.
    + rewrite !app_length, map_length, L1, L2, LT. cbn [length map off]. change (nv4 (nv, inv, g)) with nv. lia.
    + intros [|i] Hi; cbn [length] in Hi; [lia|]. cbn [nth]. apply Z. lia.
Qed.
Lemma cols3_part : forall ks hg cs l ts t x ix r,
  cols3 rd coord resc hg ks cs l ts = Done (t, x, ix, r) ->
  length ks <= length cs /\ length t = off (map nvc cs) (length ks) /\ ix = ix3 ks cs l.
Proof.
  induction ks as [|k kr IH]; intros hg cs l ts t x ix r H.
  - cbn [cols3] in H. injection H as <- <- <- <-. repeat split; cbn; try lia. destruct cs; reflexivity.
  - destruct cs as [|[[[[b e] nv] inv] g] cr]; [discriminate|]. cbn [cols3] in H.
    destruct (match k with KEmb => _ | _ => _ end) eqn:G; [discriminate|].
    destruct (take_grad rd hg k ts) as [[g1 r1]| |] eqn:E1; try discriminate. cbn [bind fst snd] in H.
    destruct (take_nums rd nv r1) as [[g2 r2]| |] eqn:E2; try discriminate. cbn [bind fst snd] in H.
    destruct (cols3 rd coord resc hg kr cr (l + 2 + nv) r2) as [[[[t' x'] ix'] r']| |] eqn:E3; try discriminate.
    injection H as <- <- <- <-.
    destruct (IH _ _ _ _ _ _ _ _ E3) as [L [LT ->]].
    destruct (take_grad_B rd Hrd _ _ _ _ _ E1) as [L1 F1]. destruct (take_nums_B rd Hrd _ _ _ _ E2) as [L2 F2].
    repeat split.
    + cbn [length]. lia.
    + rewrite !app_length, L1, L2, LT. cbn [length map off]. change (nvc (b, e, nv, inv, g)) with nv. lia.
Qed.

Lemma ixg_below : forall free ks cs q, length ks <= length cs -> In q (ixg free ks cs 0) -> q < off (map nv4 cs) (length ks).
Proof.
  intros free ks cs q LK H. apply ixg_spec in H. destruct H as [i [L1 [L2 [_ H]]]].
  pose proof (off_mono (map nv4 cs) i (length ks) L1 ltac:(rewrite map_length; lia)) as M.
  assert (NN : nth i (map nv4 cs) 0 = nv4 (nth i cs (0, 0%Z, 0%Z))).
  { change 0 with (nv4 (0, 0%Z, 0%Z)) at 1. apply map_nth. }
  rewrite NN in M. cbn [plus] in H. destruct H as [[E _]|[[E _]|[j [J [E _]]]]]; lia.
Qed.

(** first entry of column [i] (its gradients come before its values) *)
Definition start (p : pot) (i : nat) : nat := nth i (first p) 0 - 2.

Lemma unread4 : forall b n f p i, read4 rd resc b n f = Done p ->
  length (kinds4 b n) <= i < ncols p ->
  at_ (begin_ p) i = q0 /\ at_ (end_ p) i = q0 /\
  forall j, start p i <= j -> at_ (table p) j = q0 /\ ~ In j (idx p).
Proof.
  intros b n f p i H L. unfold read4 in H.
  destruct (header (f_num f) (f_inv f)) as [iv| |] eqn:H1; try discriminate.
  destruct (header (f_num f) (f_grad f)) as [gr| |] eqn:H2; try discriminate. cbn [bind] in H.
  destruct (info4 (f_num f) (f_toks f)) as [[nv r]| |] eqn:H3; try discriminate. cbn [bind fst snd] in H.
  destruct (cols4 rd resc _ _ _ _ _) as [[[[[be t] x] ix] r']| |] eqn:H4; try discriminate.
  cbn [bind] in H. injection H as <-. cbn [ncols] in L.
  pose proof (header_length _ _ _ H1) as L1. pose proof (header_length _ _ _ H2) as L2.
  pose proof (info4_back _ _ _ _ H3) as L3.
  destruct (zip2_map nv iv gr) as [Z1 Z2]; [lia|lia|].
  destruct (cols4_part _ _ _ _ _ _ _ _ _ _ H4) as [LK [LT [EI ZB]]]. rewrite Z1 in LT.
  unfold start. cbn [begin_ end_ first table idx].
  assert (ZI := ZB i ltac:(lia)). repeat split.
  - unfold at_. change q0 with (fst (q0, q0)) at 1. rewrite map_nth, ZI. reflexivity.
  - unfold at_. change q0 with (snd (q0, q0)) at 1. rewrite map_nth, ZI. reflexivity.
  - apply at_pad. rewrite LT. rewrite layout_first in H by lia.
    destruct (Nat.eq_dec (length (kinds4 b n)) i) as [<-|NE]; [lia|].
    pose proof (off_mono nv (length (kinds4 b n)) i ltac:(lia) ltac:(lia)). lia.
  - rewrite EI, ix4_g. intro IN. apply ixg_below in IN; [|lia]. rewrite Z1 in IN.
    rewrite layout_first in H by lia.
    destruct (Nat.eq_dec (length (kinds4 b n)) i) as [<-|NE]; [lia|].
    pose proof (off_mono nv (length (kinds4 b n)) i ltac:(lia) ltac:(lia)). lia.
Qed.
Lemma unread3 : forall b n f p i, read3 rd coord resc b n f = Done p ->
  length (kinds3 b n) <= i < ncols p ->
  forall j, start p i <= j -> at_ (table p) j = q0 /\ ~ In j (idx p).
Proof.
  intros b n f p i H L j Hj. unfold read3 in H.
  destruct (header (f_num f) (f_inv f)) as [iv| |] eqn:H1; try discriminate.
  destruct (header (f_num f) (f_grad f)) as [gr| |] eqn:H2; try discriminate. cbn [bind] in H.
  destruct (info3 rd (f_num f) (f_toks f)) as [[is r]| |] eqn:H3; try discriminate. cbn [bind fst snd] in H.
  destruct (cols3 rd coord resc _ _ _ _ _) as [[[[t x] ix] r']| |] eqn:H4; try discriminate.
  cbn [bind] in H. injection H as <-. cbn [ncols] in L.
  pose proof (header_length _ _ _ H1) as L1. pose proof (header_length _ _ _ H2) as L2.
  destruct (info3_back rd Hrd _ _ _ _ H3) as [L3 _].
  destruct (zip3_map is iv gr) as [Z1 Z2]; [lia|lia|].
  destruct (cols3_part _ _ _ _ _ _ _ _ _ H4) as [LK [LT EI]]. rewrite Z1 in LT.
  unfold start in Hj. cbn [first] in Hj. cbn [table idx].
  rewrite layout_first in Hj by (try rewrite map_length; lia).
  assert (M : off (map snd is) (length (kinds3 b n)) <= off (map snd is) i).
  { destruct (Nat.eq_dec (length (kinds3 b n)) i) as [<-|NE]; [lia|].
    pose proof (off_mono (map snd is) (length (kinds3 b n)) i ltac:(lia) ltac:(rewrite map_length; lia)). lia. }
  split.
  - apply at_pad. lia.
  - assert (ZD : map nv4 (map drop (zip3 is iv gr)) = map snd is) by (rewrite map_map; exact Z1).
    rewrite EI, ix3_g. intro IN. apply ixg_below in IN; [|rewrite map_length; exact LK]. rewrite ZD in IN. lia.
Qed.
(** More loops than columns: the reader runs out of its arrays. *)
Lemma overrun4 : forall b n f p, f_num f < length (kinds4 b n) -> read4 rd resc b n f <> Done p.
Proof.
  intros b n f p L H. unfold read4 in H.
  destruct (header (f_num f) (f_inv f)) as [iv| |] eqn:H1; try discriminate.
  destruct (header (f_num f) (f_grad f)) as [gr| |] eqn:H2; try discriminate. cbn [bind] in H.
  destruct (info4 (f_num f) (f_toks f)) as [[nv r]| |] eqn:H3; try discriminate. cbn [bind fst snd] in H.
  destruct (cols4 rd resc _ _ _ _ _) as [[[[[be t] x] ix] r']| |] eqn:H4; try discriminate.
  pose proof (header_length _ _ _ H1) as L1. pose proof (header_length _ _ _ H2) as L2.
  pose proof (info4_back _ _ _ _ H3) as L3.
  destruct (zip2_map nv iv gr) as [Z1 Z2]; [lia|lia|].
  destruct (cols4_part _ _ _ _ _ _ _ _ _ _ H4) as [LK _]. lia.
Qed.

(** Values of completely read files: free or not *)
Lemma free_values3 : forall b n f p i j, length (kinds3 b n) = f_num f -> read3 rd coord resc b n f = Done p ->
  i < ncols p -> nth i (first p) 0 <= j <= nth i (last_ p) 0 ->
  (In j (idx p) <-> nth i (invar p) 0%Z = 0%Z /\
     free3 (nth i (kinds3 b n) KPair) (nth i (last_ p) 0 + 1 - nth i (first p) 0) (j - nth i (first p) 0) = true).
Proof.
  intros b n f p i j K H L J.
  destruct (read3_is rd coord resc Hrd b n f p K H) as [is [I [C _]]].
  destruct I. rewrite i3_idx, ix3_g.
  assert (LI : i < length (map snd is)) by (rewrite map_length; lia).
  rewrite i3_first, i3_last in *. rewrite layout_first in * by lia.
  pose proof (layout_last (map snd is) 2 i ltac:(lia) LI) as LL. rewrite layout_first in LL by lia.
  rewrite LL.
  destruct (zip3_map is (invar p) (gradient p)) as [Z1 Z2]; [lia|lia|].
  set (cs := map drop (zip3 is (invar p) (gradient p))).
  assert (ZD : map nv4 cs = map snd is) by (unfold cs; rewrite map_map; exact Z1).
  assert (LC : length cs = length is) by (unfold cs; rewrite map_length; exact Z2).
  assert (NC : nth i cs (0, 0%Z, 0%Z) = (nth i (map snd is) 0, nth i (invar p) 0%Z, nth i (gradient p) 0%Z)).
  { unfold cs. assert (LIS : i < length is) by lia. clear - LIS i3_inv i3_grad. revert LIS i3_inv i3_grad.
    generalize (invar p) as iv. generalize (gradient p) as gr. revert i.
    induction is as [|[[b e] nv] is IH]; intros i gr iv L1 L2 L3; [cbn in L1; lia|].
    destruct iv as [|v iv]; [discriminate|]. destruct gr as [|g gr]; [discriminate|].
    destruct i as [|i]; [reflexivity|]. cbn [zip3 map nth snd]. apply IH; cbn in *; lia. }
  pose proof (ixg_value free3 (kinds3 b n) cs i (j - (2 + off (map snd is) i))) as V.
  rewrite NC in V. cbn [nv4 fst snd] in V. rewrite ZD in V.
  replace (off (map snd is) i + 2 + (j - (2 + off (map snd is) i))) with j in V by lia.
  apply V; try lia; unfold nv4; cbn [fst]; lia.
Qed.
Lemma free_values4 : forall b n f p i j, length (kinds4 b n) = f_num f -> read4 rd resc b n f = Done p ->
  i < ncols p -> nth i (first p) 0 <= j <= nth i (last_ p) 0 ->
  (In j (idx p) <-> nth i (invar p) 0%Z = 0%Z /\
     free4 (nth i (kinds4 b n) KPair) (nth i (last_ p) 0 + 1 - nth i (first p) 0) (j - nth i (first p) 0) = true).
Proof.
  intros b n f p i j K H L J.
  destruct (read4_is rd resc Hrd b n f p K H) as [nv [be [I [_ [C [EI _]]]]]].
  destruct I. rewrite EI, ix4_g.
  assert (LI : i < length nv) by lia.
  rewrite i4_first, i4_last in *. rewrite layout_first in * by lia.
  pose proof (layout_last nv 2 i ltac:(lia) LI) as LL. rewrite layout_first in LL by lia. rewrite LL.
  destruct (zip2_map nv (invar p) (gradient p)) as [Z1 Z2]; [lia|lia|].
  set (cs := zip2 nv (invar p) (gradient p)) in *.
  assert (NC : nth i cs (0, 0%Z, 0%Z) = (nth i nv 0, nth i (invar p) 0%Z, nth i (gradient p) 0%Z)).
  { unfold cs. clear - LI i4_inv i4_grad. revert LI i4_inv i4_grad.
    generalize (invar p) as iv. generalize (gradient p) as gr. revert i.
    induction nv as [|k nv IH]; intros i gr iv L1 L2 L3; [cbn in L1; lia|].
    destruct iv as [|v iv]; [discriminate|]. destruct gr as [|g gr]; [discriminate|].
    destruct i as [|i]; [reflexivity|]. cbn [zip2 nth]. apply IH; cbn in *; lia. }
  pose proof (ixg_value free4 (kinds4 b n) cs i (j - (2 + off nv i))) as V.
  rewrite NC in V. cbn [nv4 fst snd] in V. rewrite Z1 in V.
  replace (off nv i + 2 + (j - (2 + off nv i))) with j in V by lia.
  apply V; try lia; unfold nv4; cbn [fst]; lia.
Qed.
End Part.

(** ** Format 3 written as format 4 *)
Section Through.
Variables (pr rd : Qc -> Qc) (coord : Qc -> Qc -> nat -> nat -> Qc) (resc : bool).
Hypothesis Hpr : forall x : Qc, binary64 x -> prints_e 16 x (pr x).
Hypothesis Hrd : forall d : Qc, reads d (rd d).

(** The sampling points of column [i] increase from begin to end and are double precision
    numbers. *)
Definition proper (p : pot) (i : nat) : Prop :=
  let f := nth i (first p) 0 in let l := nth i (last_ p) 0 in
  f <= l /\ at_ (xcoord p) f = at_ (begin_ p) i /\ at_ (xcoord p) l = at_ (end_ p) i /\
  (forall j, f <= j < l -> ltq (at_ (xcoord p) j) (at_ (xcoord p) (S j)) = true) /\
  (forall j, f <= j <= l -> B (at_ (xcoord p) j)).

Definition okc (c : col) : Prop :=
  let b := fst (fst (fst (fst c))) in let e := snd (fst (fst (fst c))) in let nv := nvc c in
  1 <= nv /\ coord b e nv 0 = b /\ coord b e nv (nv - 1) = e /\
  (forall j, S j < nv -> ltq (coord b e nv j) (coord b e nv (S j)) = true) /\
  (forall j, j < nv -> B (coord b e nv j)).
Lemma increasing_map : forall f k s prev,
  (match prev with Some p => (0 < k -> ltq p (f s) = true) | None => True end) ->
  (forall j, s <= j -> S j < s + k -> ltq (f j) (f (S j)) = true) -> increasing prev (map f (seq s k)).
Proof.
  intros f k. induction k as [|k IH]; intros s prev P H; [exact I|]. cbn [seq map increasing]. split.
  - destruct prev as [p|]; [|reflexivity]. rewrite P by lia. reflexivity.
  - apply IH; [|intros j J1 J2; apply H; lia]. intro K. apply H; lia.
Qed.
Lemma last_map_seq : forall f k s, 1 <= k -> last (map f (seq s k)) q0 = f (s + (k - 1)).
Proof.
  intros f k. induction k as [|k IH]; intros s L; [lia|]. destruct k as [|k].
  - cbn. rewrite Nat.add_0_r. reflexivity.
  - change (last (map f (seq (S s) (S k))) q0 = f (s + (S (S k) - 1))). rewrite IH by lia. f_equal. lia.
Qed.
Lemma shape4_of3 : forall ks cs, length ks = length cs -> Forall okc cs -> gauge3 resc ks cs ->
  shape4 resc ks (map drop cs) (map (fun c => fst (fst (fst c))) cs) (xs_cols coord cs).
Proof.
  induction ks as [|k kr IH]; intros cs L F G; destruct cs as [|[[[[b e] nv] inv] g] cr]; try discriminate.
  - constructor.
  - inversion F as [|? ? [N [H0 [H1 [HI HB]]]] F']; subst. cbn [fst snd nvc] in *. unfold nvc in *. cbn [fst snd] in *.
    cbn [gauge3] in G. destruct G as [G G']. cbn [map xs_cols flat_map fst snd drop].
    unfold drop at 1, nvc at 1 2 3. cbn [fst snd].
    set (xs := map (coord b e nv) (seq 0 nv)).
    assert (EH : hd q0 xs = b). { unfold xs. destruct nv; [lia|]. exact H0. }
    assert (EL : last xs q0 = e) by (unfold xs; rewrite last_map_seq by lia; exact H1).
    replace ((b, e)) with (hd q0 xs, last xs q0) by (rewrite EH, EL; reflexivity).
    rewrite <- app_assoc. apply s_cons.
    + unfold xs. rewrite map_length, seq_length. reflexivity.
    + unfold xs. destruct nv; [lia|]. discriminate.
    + apply increasing_map; [exact I|]. intros j _ J. apply HI. lia.
    + unfold xs. apply Forall_forall. intros v Hv. apply in_map_iff in Hv. destruct Hv as [j [<- J]].
      apply in_seq in J. apply HB. lia.
    + rewrite EH, EL. exact G.
    + apply IH; [cbn in L; lia|exact F'|exact G'].
Qed.
Lemma zip23 : forall is iv gr, zip2 (map snd is) iv gr = map drop (zip3 is iv gr).
Proof.
  induction is as [|i is IH]; intros [|v iv] [|g gr]; try reflexivity.
  cbn [map zip2 zip3]. rewrite IH. destruct i as [[b e] k]. reflexivity.
Qed.
Lemma be_zip3 : forall is iv gr, length iv = length is -> length gr = length is ->
  map (fun c : col => fst (fst (fst c))) (zip3 is iv gr) = map fst is.
Proof.
  induction is as [|i is IH]; intros [|v iv] [|g gr] L1 L2; try discriminate; [reflexivity|].
  cbn [zip3 map]. rewrite IH by (cbn in *; lia). destruct i as [[b e] k]. reflexivity.
Qed.
Lemma xs_at : forall cs i j, i < length cs -> j < nvc (nth i cs (q0, q0, 0, 0%Z, 0%Z)) ->
  at_ (xs_cols coord cs) (off (map nvc cs) i + 2 + j) =
  coord (fst (fst (fst (fst (nth i cs (q0, q0, 0, 0%Z, 0%Z)))))) (snd (fst (fst (fst (nth i cs (q0, q0, 0, 0%Z, 0%Z))))))
        (nvc (nth i cs (q0, q0, 0, 0%Z, 0%Z))) j.
Proof.
  induction cs as [|c cs IH]; intros i j L J; [cbn in L; lia|].
  cbn [xs_cols flat_map map]. change (flat_map _ cs) with (xs_cols coord cs).
  destruct i as [|i].
  - cbn [off nth] in *. unfold at_. cbn [app plus nth]. rewrite app_nth1 by (rewrite map_length, seq_length; exact J).
    rewrite (nth_indep _ q0 (coord (fst (fst (fst (fst c)))) (snd (fst (fst (fst c)))) (nvc c) 0)) by (rewrite map_length, seq_length; exact J).
    rewrite map_nth, seq_nth by exact J. reflexivity.
  - cbn [off nth] in *. rewrite <- IH by (try exact J; cbn in L; lia).
    rewrite at_app_r; [f_equal|]; cbn [app length]; rewrite map_length, seq_length; lia.
Qed.
Lemma okc_of_proper : forall b n is p, is3 coord resc b n is p -> (forall i, i < ncols p -> proper p i) ->
  Forall okc (zip3 is (invar p) (gradient p)).
Proof.
  intros b n is p I P. destruct I.
  destruct (zip3_map is (invar p) (gradient p)) as [Z1 Z2]; [lia|lia|].
  set (cs := zip3 is (invar p) (gradient p)) in *.
  apply Forall_forall. intros c Hc. apply (In_nth _ _ (q0, q0, 0, 0%Z, 0%Z)) in Hc.
  destruct Hc as [i [Li Ec]].
  assert (LM : i < length (map snd is)) by (rewrite map_length, <- Z2; exact Li).
  assert (LN : i < ncols p) by (rewrite map_length in LM; lia).
  specialize (P i LN). unfold proper in P.
  rewrite i3_first, i3_last in P.
  pose proof (layout_last (map snd is) 2 i ltac:(lia) LM) as LL.
  rewrite layout_first in P, LL by lia.
  set (l := nth i (map snd (layout 2 (map snd is))) 0) in *. set (o := off (map snd is) i) in *.
  assert (NV : nth i (map snd is) 0 = nvc c).
  { rewrite <- Z1, <- Ec. change 0 with (nvc (q0, q0, 0, 0%Z, 0%Z)) at 1. apply map_nth. }
  rewrite NV in LL. destruct P as [P1 [P2 [P3 [P4 P5]]]].
  assert (AT : forall j, j < nvc c -> at_ (xcoord p) (2 + o + j) = coord (fst (fst (fst (fst c)))) (snd (fst (fst (fst c)))) (nvc c) j).
  { intros j J. rewrite i3_x. pose proof (xs_at cs i j Li) as X. rewrite Ec, Z1 in X. 
    replace (2 + o + j) with (off (map snd is) i + 2 + j) by (unfold o; lia). apply X. exact J. }
  assert (CC : fst (fst (fst (fst c))) = at_ (begin_ p) i /\ snd (fst (fst (fst c))) = at_ (end_ p) i).
  { rewrite i3_begin, i3_end. 
    assert (LX : i < length (map (fun c : col => fst (fst (fst c))) cs)) by (rewrite map_length; exact Li).
    pose proof (be_zip3 is (invar p) (gradient p) ltac:(lia) ltac:(lia)) as BZ.
    change (zip3 is (invar p) (gradient p)) with cs in BZ.
    assert (NB : nth i (map fst is) (q0, q0) = fst (fst (fst c))).
    { rewrite <- BZ. rewrite <- Ec. change (q0, q0) with ((fun c : col => fst (fst (fst c))) (q0, q0, 0, 0%Z, 0%Z)) at 1.
      apply map_nth. }
    rewrite <- NB. unfold at_.
    change (map (fun i0 : Qc * Qc * nat => fst (fst i0)) is) with (map (fun i0 => fst (fst i0)) is).
    rewrite <- (map_map fst fst), <- (map_map fst snd).
    split; [exact (eq_sym (map_nth fst (map fst is) (q0, q0) i))|exact (eq_sym (map_nth snd (map fst is) (q0, q0) i))]. }
  destruct CC as [C1 C2].
  unfold okc. rewrite <- C1 in P2. rewrite <- C2 in P3.
  repeat split.
  - lia.
  - rewrite <- AT by lia. rewrite Nat.add_0_r. exact P2.
  - rewrite <- AT by lia. rewrite <- P3. f_equal. lia.
  - intros j J. rewrite <- !AT by lia. replace (2 + o + S j) with (S (2 + o + j)) by lia. apply P4. lia.
  - intros j J. rewrite <- AT by lia. apply P5. lia.
Qed.

Definition same_data (p p' : pot) : Prop :=
  ncols p' = ncols p /\ invar p' = invar p /\ gradient p' = gradient p /\ begin_ p' = begin_ p /\
  end_ p' = end_ p /\ first p' = first p /\ last_ p' = last_ p /\ table p' = table p /\ xcoord p' = xcoord p.
Lemma through : forall b n f p t, b = Pairs \/ b = Eam \/ b = Adp ->
  read rd coord resc b n f = Done p -> f_fmt f = 3 -> binary_flags (invar p) ->
  length t = length (table p) -> Forall B t -> (forall i, i < ncols p -> proper p i) ->
  exists p', read rd coord resc b n (write4 pr (with_table p t)) = Done p' /\
    same_data (with_table p t) p' /\ (b <> Adp -> idx p' = idx p).
Proof.
  intros b n f p t Hb R E F L T P. unfold read in *.
  destruct (Nat.eqb_spec (f_num f) (npots b n)) as [N|N]; [cbn [negb] in R|discriminate].
  rewrite E in R. pose proof (kinds4_all b n Hb) as K4. pose proof (kinds34 b n Hb) as KK.
  assert (K3 : length (kinds3 b n) = f_num f) by (rewrite <- KK; lia).
  destruct (read3_is rd coord resc Hrd b n f p K3 R) as [is [I [C [H1 H2]]]].
  pose proof (okc_of_proper _ _ _ _ I P) as OK.
  pose proof (is3_with coord resc _ _ _ _ t I L T) as I'.
  assert (I4 : is4 resc (kinds4 b n) (map snd is) (map fst is) (with_table p t)).
  { destruct I'. split; rewrite ?map_length; try assumption.
    - rewrite i3_begin, map_map. reflexivity.
    - rewrite i3_end, map_map. reflexivity.
    - rewrite zip23, <- (be_zip3 is (invar (with_table p t)) (gradient (with_table p t))) by assumption.
      rewrite i3_x, KK. apply shape4_of3; [|exact OK|exact i3_gauge].
      destruct (zip3_map is (invar (with_table p t)) (gradient (with_table p t))) as [Z1 Z2]; [assumption|assumption|].
      assert (LQ : length (kinds3 b n) = length is) by (rewrite K3, <- C; exact i3_cols).
      exact (eq_trans LQ (eq_sym Z2)). }
  change (f_num (write4 pr (with_table p t))) with (ncols p). rewrite C, N, Nat.eqb_refl. cbn [negb].
  change (f_fmt (write4 pr (with_table p t))) with 4. cbv iota.
  rewrite (again4 pr rd resc Hpr Hrd b n _ _ _ I4 (f_inv f)); [|change (ncols (with_table p t)) with (ncols p); rewrite C; exact H1|exact H2|exact F].
  eexists. split; [reflexivity|]. split; [repeat split|].
  intro NA. unfold as4. cbn [idx]. destruct I. rewrite i3_idx, KK, zip23, ix4_g, ix3_g.
  cbn [with_table invar gradient]. generalize (map drop (zip3 is (invar p) (gradient p))) as cs.
  assert (KF : Forall (fun k => forall nv j, free4 k nv j = free3 k nv j) (kinds3 b n)).
  { destruct Hb as [->|[->| ->]]; [| |congruence]; unfold kinds3; rewrite ?app_nil_r;
      repeat (apply Forall_app; split); apply Forall_forall; intros k Hk; apply repeat_spec in Hk; subst k; reflexivity. }
  intro cs. generalize 0 as l. clear - KF. revert cs. induction KF as [|k kr Hk KF IH]; intros [|[[nv inv] g] cs] l; try reflexivity.
  cbn [ixg]. rewrite IH. unfold val_idx. f_equal. f_equal. apply flat_map_ext. intro j. rewrite Hk. reflexivity.
Qed.
End Through.
