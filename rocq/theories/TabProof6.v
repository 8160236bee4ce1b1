(** Fixed values, default gradients and free gradients in terms of column numbers. *)
From Coq Require Import List ZArith QArith Qcanon Bool Arith Lia.
From Verif Require Import TabModel TabSpec TabSpec2 TabProof TabProof2 TabProof3 TabProof4 TabProof5.
Import ListNotations.
Close Scope Q_scope.
Close Scope Qc_scope.
Open Scope nat_scope.

Ltac chunk := first [rewrite nth_repeat_in by lia; reflexivity | rewrite nth_repeat_app by lia].
Definition role (b : build) (n i : nat) : kind :=
  let pc := paircol n in
  if i <? pc then KPair else
  if i <? pc + n then KRho else
  if i <? pc + 2 * n then KEmb else
  match b with
  | Tbeam => if i <? pc + 3 * n then KRhoS else KEmbS
  | Adp => if i <? 2 * pc + 2 * n then KDip else KQuad
  | Meam => if i <? 2 * pc + 2 * n then KF (i =? pc + 2 * n) else KG
  | _ => KPair
  end.
Lemma nth_app_in : forall (A : Type) (l m : list A) i d, i < length l -> nth i (l ++ m) d = nth i l d.
Proof. intros. apply app_nth1. auto. Qed.
Lemma kind_role : forall b n i, b <> Ang -> i < npots b n -> nth i (kinds3 b n) KPair = role b n i.
Proof.
  intros b n i NA H. unfold kinds3, role. set (pc := paircol n).
  destruct (Nat.ltb_spec i pc). { rewrite nth_app_in by (rewrite repeat_length; auto). apply nth_repeat_in; auto. }
  rewrite nth_repeat_app by auto. unfold npots in H; fold pc in H.
  destruct b; try congruence; try (exfalso; lia).
  - destruct (Nat.ltb_spec i (pc + n)). { rewrite nth_app_in by (rewrite repeat_length; lia). apply nth_repeat_in; lia. }
    rewrite nth_repeat_app by lia. destruct (Nat.ltb_spec i (pc + 2 * n)); [apply nth_repeat_in; lia|lia].
  - destruct (Nat.ltb_spec i (pc + n)). { rewrite nth_app_in by (rewrite repeat_length; lia). apply nth_repeat_in; lia. }
    rewrite nth_repeat_app by lia. destruct (Nat.ltb_spec i (pc + 2 * n)). { rewrite nth_app_in by (rewrite repeat_length; lia). apply nth_repeat_in; lia. }
    rewrite nth_repeat_app by lia. destruct (Nat.ltb_spec i (pc + 3 * n)). { rewrite nth_app_in by (rewrite repeat_length; lia). apply nth_repeat_in; lia. }
    rewrite nth_repeat_app by lia. apply nth_repeat_in; lia.
  - destruct (Nat.ltb_spec i (pc + n)). { rewrite nth_app_in by (rewrite repeat_length; lia). apply nth_repeat_in; lia. }
    rewrite nth_repeat_app by lia. destruct (Nat.ltb_spec i (pc + 2 * n)). { rewrite nth_app_in by (rewrite repeat_length; lia). apply nth_repeat_in; lia. }
    rewrite nth_repeat_app by lia. destruct (Nat.ltb_spec i (2 * pc + 2 * n)). { rewrite nth_app_in by (rewrite repeat_length; lia). apply nth_repeat_in; lia. }
    rewrite nth_repeat_app by lia. apply nth_repeat_in; lia.
  - destruct (Nat.ltb_spec i (pc + n)). { rewrite nth_app_in by (rewrite repeat_length; lia). apply nth_repeat_in; lia. }
    rewrite nth_repeat_app by lia. destruct (Nat.ltb_spec i (pc + 2 * n)). { rewrite nth_app_in by (rewrite repeat_length; lia). apply nth_repeat_in; lia. }
    rewrite nth_repeat_app by lia. set (m := i - pc - n - n). destruct (Nat.ltb_spec i (2 * pc + 2 * n)).
    + rewrite nth_app_in by (rewrite map_length, seq_length; lia).
      rewrite (nth_indep _ KPair (KF (0 =? 0))) by (rewrite map_length, seq_length; lia).
      rewrite (map_nth (fun i => KF (i =? 0))). rewrite seq_nth by lia. f_equal.
      destruct (Nat.eqb_spec (0 + m) 0), (Nat.eqb_spec i (pc + 2 * n)); auto; lia.
    + rewrite app_nth2; rewrite map_length, seq_length; [|lia]. apply nth_repeat_in; lia.
Qed.
Lemma pairs_ge : forall n, n <= n * (n + 1) / 2.
Proof. intros [|n]; [lia|]. apply Nat.div_le_lower_bound; [lia|]. nia. Qed.
Ltac cmp := repeat match goal with
  | |- context [?a <? ?b] => destruct (Nat.ltb_spec a b)
  | |- context [?a <=? ?b] => destruct (Nat.leb_spec a b)
  | |- context [?a =? ?b] => destruct (Nat.eqb_spec a b)
  end; cbn [negb andb orb]; try reflexivity; try (exfalso; lia).
Lemma free3_role : forall b n i a z j, b <> Ang -> i < npots b n -> a <= j <= z ->
  free3 (role b n i) (z + 1 - a) (j - a) = negb (fixed3 b n i a z j).
Proof.
  intros b n i a z j NA H J. unfold role, fixed3, embedding, angular, first_f, between, pairs_of, npots, paircol in *.
  pose proof (pairs_ge n) as PG. set (pc := n * (n + 1) / 2) in *.
  destruct b; try congruence; cbn [negb andb orb]; rewrite ?andb_false_r, ?orb_false_r, ?andb_true_r.
  - destruct (Nat.ltb_spec i pc); [|lia]. cbn [free3]. cmp.
  - destruct (Nat.ltb_spec i pc), (Nat.ltb_spec i (pc + n)), (Nat.ltb_spec i (pc + 2 * n)); try lia; cbn [free3]; cmp.
  - destruct (Nat.ltb_spec i pc), (Nat.ltb_spec i (pc + n)), (Nat.ltb_spec i (pc + 2 * n)), (Nat.ltb_spec i (pc + 3 * n)); try lia; cbn [free3]; cmp.
  - destruct (Nat.ltb_spec i pc), (Nat.ltb_spec i (pc + n)), (Nat.ltb_spec i (pc + 2 * n)), (Nat.ltb_spec i (2 * pc + 2 * n)); try lia; cbn [free3]; cmp.
  - destruct (Nat.ltb_spec i pc), (Nat.ltb_spec i (pc + n)), (Nat.ltb_spec i (pc + 2 * n)), (Nat.ltb_spec i (2 * pc + 2 * n)), (Nat.eqb_spec i (pc + 2 * n)); try lia; cbn [free3]; cmp.
Qed.
Lemma free4_role : forall b n i a z j, b = Pairs \/ b = Eam \/ b = Adp -> i < npots b n -> a <= j <= z ->
  free4 (role b n i) (z + 1 - a) (j - a) = negb (fixed4 b n i z j).
Proof.
  intros b n i a z j NA H J. unfold role, fixed4, embedding, quadrupole, between, pairs_of, npots, paircol in *.
  pose proof (pairs_ge n) as PG. set (pc := n * (n + 1) / 2) in *.
  destruct NA as [-> | [-> | ->]]; cbn [negb andb orb]; rewrite ?andb_false_r, ?orb_false_r, ?andb_true_r.
  - destruct (Nat.ltb_spec i pc); [|lia]. cbn [free4]. cmp.
  - destruct (Nat.ltb_spec i pc), (Nat.ltb_spec i (pc + n)), (Nat.ltb_spec i (pc + 2 * n)); try lia; cbn [free4]; cmp.
  - destruct (Nat.ltb_spec i pc), (Nat.ltb_spec i (pc + n)), (Nat.ltb_spec i (pc + 2 * n)), (Nat.ltb_spec i (2 * pc + 2 * n)); try lia; cbn [free4]; cmp.
Qed.
Lemma def_grad_role : forall rd b n i, b <> Ang -> i < npots b n ->
  def_grad rd (role b n i) = [if natural_left b n i then e30 rd else q0; if natural_right b n i then e30 rd else q0].
Proof.
  intros rd b n i NA H. unfold role, natural_left, natural_right, embedding, angular, quadrupole, between, pairs_of, npots, paircol in *.
  pose proof (pairs_ge n) as PG. set (pc := n * (n + 1) / 2) in *.
  destruct b; try congruence; cbn [negb andb orb]; rewrite ?orb_false_r.
  - destruct (Nat.ltb_spec i pc); [|lia]. cmp.
  - destruct (Nat.ltb_spec i pc), (Nat.ltb_spec i (pc + n)), (Nat.ltb_spec i (pc + 2 * n)); try lia; cbn [def_grad]; cmp.
  - destruct (Nat.ltb_spec i pc), (Nat.ltb_spec i (pc + n)), (Nat.ltb_spec i (pc + 2 * n)), (Nat.ltb_spec i (pc + 3 * n)); try lia; cbn [def_grad]; cmp.
  - destruct (Nat.ltb_spec i pc), (Nat.ltb_spec i (pc + n)), (Nat.ltb_spec i (pc + 2 * n)), (Nat.ltb_spec i (2 * pc + 2 * n)); try lia; cbn [def_grad]; cmp.
  - destruct (Nat.ltb_spec i pc), (Nat.ltb_spec i (pc + n)), (Nat.ltb_spec i (pc + 2 * n)), (Nat.ltb_spec i (2 * pc + 2 * n)); try lia; cbn [def_grad]; cmp.
Qed.

Section Read.
Variables (rd : Qc -> Qc) (coord : Qc -> Qc -> nat -> nat -> Qc) (resc : bool).
Hypothesis Hrd : forall d : Qc, reads d (rd d).

Lemma free_by_role3 : forall b n f p i j, b <> Ang -> f_num f = npots b n -> read3 rd coord resc b n f = Done p ->
  i < ncols p -> nth i (first p) 0 <= j <= nth i (last_ p) 0 ->
  (In j (idx p) <-> nth i (invar p) 0%Z = 0%Z /\ fixed3 b n i (nth i (first p) 0) (nth i (last_ p) 0) j = false).
Proof.
  intros b n f p i j NA N H L J. pose proof (kinds3_all b n NA) as K. rewrite <- N in K.
  rewrite (free_values3 rd coord resc Hrd b n f p i j K H L J).
  destruct (read3_is rd coord resc Hrd b n f p K H) as [is [_ [C _]]].
  assert (L' : i < npots b n) by lia.
  rewrite kind_role, free3_role by auto. rewrite negb_true_iff. tauto.
Qed.
Lemma free_by_role4 : forall b n f p i j, b = Pairs \/ b = Eam \/ b = Adp -> f_num f = npots b n -> read4 rd resc b n f = Done p ->
  i < ncols p -> nth i (first p) 0 <= j <= nth i (last_ p) 0 ->
  (In j (idx p) <-> nth i (invar p) 0%Z = 0%Z /\ fixed4 b n i (nth i (last_ p) 0) j = false).
Proof.
  intros b n f p i j NA N H L J. pose proof (kinds4_all b n NA) as K. rewrite <- N in K.
  rewrite (free_values4 rd resc Hrd b n f p i j K H L J).
  destruct (read4_is rd resc Hrd b n f p K H) as [nv [be [_ [_ [C _]]]]].
  assert (L' : i < npots b n) by lia. rewrite (kinds34 b n NA).
  rewrite kind_role, (free4_role b n i) by (auto; intros ->; destruct NA as [E | [E | E]]; discriminate). rewrite negb_true_iff. tauto.
Qed.

(** gradients without a #G line *)
Lemma cols3_default : forall ks cs l ts t x ix r, length ks = length cs ->
  cols3 rd coord resc false ks cs l ts = Done (t, x, ix, r) ->
  forall i, i < length ks -> [at_ t (off (map nvc cs) i); at_ t (off (map nvc cs) i + 1)] = def_grad rd (nth i ks KPair).
Proof.
  induction ks as [|k kr IH]; intros cs l ts t x ix r L H i Hi; [cbn in Hi; lia|].
  destruct cs as [|[[[[b e] nv] inv] g] cr]; [discriminate|]. cbn [cols3] in H.
  destruct (match k with KEmb => _ | _ => _ end); [discriminate|]. cbn [take_grad bind fst snd] in H.
  destruct (take_nums rd nv ts) as [[vs r1]| |] eqn:E1; try discriminate. cbn [bind fst snd] in H.
  destruct (cols3 rd coord resc false kr cr (l + 2 + nv) r1) as [[[[t' x'] ix'] r']| |] eqn:E3; try discriminate.
  cbn [bind] in H. injection H as <- <- <- <-.
  destruct (take_nums_B rd Hrd _ _ _ _ E1) as [LV _].
  assert (LG : length (def_grad rd k) = 2) by (destruct k; reflexivity).
  destruct i as [|i].
  - cbn [map off nth]. unfold at_. rewrite !app_nth1 by lia. destruct k; reflexivity.
  - cbn [nth]. rewrite <- (IH _ _ _ _ _ _ _ (f_equal pred L) E3 i) by (cbn in Hi; lia). cbn [map off].
    change (nvc (b, e, nv, inv, g)) with nv.
    f_equal; [|f_equal]; unfold at_; (rewrite app_nth2 by lia); (rewrite app_nth2 by lia); f_equal; lia.
Qed.
Lemma cols4_default : forall ks cs l ts be t x ix r, length ks = length cs ->
  cols4 rd resc false ks cs l ts = Done (be, t, x, ix, r) ->
  forall i, i < length ks -> [at_ t (off (map nv4 cs) i); at_ t (off (map nv4 cs) i + 1)] = def_grad rd (nth i ks KPair).
Proof.
  induction ks as [|k kr IH]; intros cs l ts be t x ix r L H i Hi; [cbn in Hi; lia|].
  destruct cs as [|[[nv inv] g] cr]; [discriminate|]. cbn [cols4] in H. cbn [take_grad bind fst snd] in H.
  destruct (take_pairs rd (lax4 k) nv None ts) as [[ps r1]| |] eqn:E1; try discriminate. cbn [bind fst snd] in H.
  destruct ps as [|[b v0] ps'] eqn:EP; [discriminate|]. rewrite <- EP in *.
  destruct (match k with KEmb => _ | _ => _ end); [discriminate|].
  destruct (cols4 rd resc false kr cr (l + 2 + nv) r1) as [[[[[be' t'] x'] ix'] r']| |] eqn:E3; try discriminate.
  cbn [bind] in H. injection H as <- <- <- <- <-.
  destruct (take_pairs_back rd Hrd _ _ _ _ _ _ E1) as [LV _]. rewrite <- (map_length snd) in LV.
  assert (LG : length (def_grad rd k) = 2) by (destruct k; reflexivity).
  destruct i as [|i].
  - cbn [map off nth]. unfold at_. rewrite !app_nth1 by lia. destruct k; reflexivity.
  - cbn [nth]. rewrite <- (IH _ _ _ _ _ _ _ _ (f_equal pred L) E3 i) by (cbn in Hi; lia). cbn [map off].
    change (nv4 (nv, inv, g)) with nv.
    f_equal; [|f_equal]; unfold at_; (rewrite app_nth2 by lia); (rewrite app_nth2 by lia); f_equal; lia.
Qed.
Lemma at_pad_in : forall n l j, j < length l -> at_ (pad n l) j = at_ l j.
Proof. intros. unfold at_, pad. apply app_nth1. auto. Qed.
Lemma off_total : forall nv i, i < length nv -> off nv i + 2 <= total nv.
Proof.
  induction nv as [|k nv IH]; intros i H; [cbn in H; lia|]. destruct i as [|i]; cbn [off total]; [lia|].
  specialize (IH i ltac:(cbn in H; lia)). lia.
Qed.
Lemma defaults3 : forall b n f p i, b <> Ang -> f_num f = npots b n -> f_grad f = None -> read3 rd coord resc b n f = Done p -> i < npots b n ->
  at_ (table p) (nth i (first p) 0 - 2) = (if natural_left b n i then e30 rd else q0) /\
  at_ (table p) (nth i (first p) 0 - 1) = (if natural_right b n i then e30 rd else q0).
Proof.
  intros b n f p i NA N NG H L. pose proof (kinds3_all b n NA) as K. unfold read3 in H.
  destruct (header (f_num f) (f_inv f)) as [iv| |] eqn:H1; try discriminate.
  destruct (header (f_num f) (f_grad f)) as [gr| |] eqn:H2; try discriminate. cbn [bind] in H.
  destruct (info3 rd (f_num f) (f_toks f)) as [[is r]| |] eqn:H3; try discriminate. cbn [bind fst snd] in H.
  rewrite NG in H. cbn [is_some] in H.
  destruct (cols3 rd coord resc _ _ _ _ _) as [[[[t x] ix] r']| |] eqn:H4; try discriminate.
  cbn [bind] in H. injection H as <-. cbn [table first].
  pose proof (header_length _ _ _ H1) as L1. pose proof (header_length _ _ _ H2) as L2.
  destruct (info3_back rd Hrd _ _ _ _ H3) as [L3 _].
  destruct (zip3_map is iv gr) as [Z1 Z2]; [lia|lia|].
  assert (LK : length (kinds3 b n) = length (zip3 is iv gr)) by lia.
  destruct (cols3_back rd coord resc Hrd _ _ _ _ _ _ _ _ _ LK H4) as [_ [_ [_ [_ LT]]]]. rewrite Z1 in LT.
  pose proof (cols3_default _ _ _ _ _ _ _ _ LK H4 i ltac:(lia)) as D. rewrite kind_role, def_grad_role in D by auto. rewrite Z1 in D.
  rewrite layout_first by (rewrite ?map_length; lia).
  pose proof (off_total (map snd is) i ltac:(rewrite map_length; lia)) as OT.
  rewrite !at_pad_in by lia.
  replace (2 + off (map snd is) i - 2) with (off (map snd is) i) by lia. replace (2 + off (map snd is) i - 1) with (off (map snd is) i + 1) by lia.
  injection D as -> ->. auto.
Qed.
Lemma defaults4 : forall b n f p i, b = Pairs \/ b = Eam \/ b = Adp -> f_num f = npots b n -> f_grad f = None -> read4 rd resc b n f = Done p -> i < npots b n ->
  at_ (table p) (nth i (first p) 0 - 2) = (if natural_left b n i then e30 rd else q0) /\
  at_ (table p) (nth i (first p) 0 - 1) = (if natural_right b n i then e30 rd else q0).
Proof.
  intros b n f p i NA N NG H L. pose proof (kinds4_all b n NA) as K. unfold read4 in H.
  destruct (header (f_num f) (f_inv f)) as [iv| |] eqn:H1; try discriminate.
  destruct (header (f_num f) (f_grad f)) as [gr| |] eqn:H2; try discriminate. cbn [bind] in H.
  destruct (info4 (f_num f) (f_toks f)) as [[nv r]| |] eqn:H3; try discriminate. cbn [bind fst snd] in H.
  rewrite NG in H. cbn [is_some] in H.
  destruct (cols4 rd resc _ _ _ _ _) as [[[[[be t] x] ix] r']| |] eqn:H4; try discriminate.
  cbn [bind] in H. injection H as <-. cbn [table first].
  pose proof (header_length _ _ _ H1) as L1. pose proof (header_length _ _ _ H2) as L2.
  pose proof (info4_back _ _ _ _ H3) as L3.
  destruct (zip2_map nv iv gr) as [Z1 Z2]; [lia|lia|].
  assert (LK : length (kinds4 b n) = length (zip2 nv iv gr)) by lia.
  destruct (cols4_back rd resc Hrd _ _ _ _ _ _ _ _ _ _ LK H4) as [_ [_ [_ LT]]]. rewrite Z1 in LT.
  pose proof (cols4_default _ _ _ _ _ _ _ _ _ LK H4 i ltac:(lia)) as D. rewrite (kinds34 b n NA) in D.
  rewrite kind_role, def_grad_role in D by (auto; intros ->; destruct NA as [E | [E | E]]; discriminate). rewrite Z1 in D.
  rewrite layout_first by lia.
  pose proof (off_total nv i ltac:(lia)) as OT.
  rewrite !at_pad_in by lia.
  replace (2 + off nv i - 2) with (off nv i) by lia. replace (2 + off nv i - 1) with (off nv i + 1) by lia.
  injection D as -> ->. auto.
Qed.

(** free gradients *)
Lemma ixg_grad : forall free ks cs i e, i < length ks -> i < length cs -> e < 2 ->
  let c := nth i cs (0, 0%Z, 0%Z) in
  (In (off (map nv4 cs) i + e) (ixg free ks cs 0) <-> snd (fst c) = 0%Z /\ (if e =? 0 then Z.shiftr (snd c) 1 else Z.rem (snd c) 2) <> 0%Z).
Proof.
  intros free ks cs i e Lk Lc E2 c. rewrite ixg_spec.
  assert (NN : forall u, nth u (map nv4 cs) 0 = nv4 (nth u cs (0, 0%Z, 0%Z))).
  { intro u. change 0 with (nv4 (0, 0%Z, 0%Z)) at 1. apply map_nth. }
  split.
  - intros [i' [L1 [L2 [I H]]]].
    assert (K : exists j', j' < nth i' (map nv4 cs) 0 + 2 /\ off (map nv4 cs) i + e = off (map nv4 cs) i' + j' /\
              (j' = 0 -> Z.shiftr (snd (nth i' cs (0, 0%Z, 0%Z))) 1 <> 0%Z) /\ (j' = 1 -> Z.rem (snd (nth i' cs (0, 0%Z, 0%Z))) 2 <> 0%Z)).
    { rewrite NN. cbn [plus] in H. destruct H as [[E H]|[[E H]|[j' [Hj [E H]]]]].
      - exists 0. repeat split; auto; try lia.
      - exists 1. repeat split; auto; try lia.
      - exists (j' + 2). repeat split; try lia. }
    destruct K as [j' [J' [E [F0 F1]]]].
    apply off_unique in E; [|rewrite map_length; lia|rewrite map_length; lia|rewrite NN; lia|exact J'].
    destruct E as [<- E]. split; [exact I|]. subst j'. destruct (Nat.eqb_spec e 0); [auto|]. apply F1. lia.
  - intros [I F]. exists i. repeat split; auto. cbn [plus]. destruct (Nat.eqb_spec e 0); [left|right; left]; split; auto; lia.
Qed.
Lemma flag_bits : forall g, (0 <= g <= 3)%Z -> (Z.shiftr g 1 <> 0%Z <-> g = 2%Z \/ g = 3%Z) /\ (Z.rem g 2 <> 0%Z <-> g = 1%Z \/ g = 3%Z).
Proof. intros g H. assert (C : g = 0%Z \/ g = 1%Z \/ g = 2%Z \/ g = 3%Z) by lia. destruct C as [-> | [-> | [-> | ->]]]; cbn; lia. Qed.
Lemma free_grad3 : forall b n f p i, b <> Ang -> f_num f = npots b n -> read3 rd coord resc b n f = Done p -> i < npots b n ->
  (0 <= nth i (gradient p) 0 <= 3)%Z ->
  (In (nth i (first p) 0 - 2) (idx p) <-> nth i (invar p) 0%Z = 0%Z /\ (nth i (gradient p) 0%Z = 2%Z \/ nth i (gradient p) 0%Z = 3%Z)) /\
  (In (nth i (first p) 0 - 1) (idx p) <-> nth i (invar p) 0%Z = 0%Z /\ (nth i (gradient p) 0%Z = 1%Z \/ nth i (gradient p) 0%Z = 3%Z)).
Proof.
  intros b n f p i NA N H L G. pose proof (kinds3_all b n NA) as K. rewrite <- N in K.
  destruct (read3_is rd coord resc Hrd b n f p K H) as [is [I [C _]]].
  destruct I. rewrite i3_idx, ix3_g.
  assert (LI : i < length (map snd is)) by (rewrite map_length; lia).
  rewrite i3_first. rewrite layout_first by lia.
  destruct (zip3_map is (invar p) (gradient p)) as [Z1 Z2]; [lia|lia|].
  set (cs := map drop (zip3 is (invar p) (gradient p))).
  assert (ZD : map nv4 cs = map snd is) by (unfold cs; rewrite map_map; exact Z1).
  assert (LC : length cs = length is) by (unfold cs; rewrite map_length; exact Z2).
  assert (NC : nth i cs (0, 0%Z, 0%Z) = (nth i (map snd is) 0, nth i (invar p) 0%Z, nth i (gradient p) 0%Z)).
  { unfold cs. assert (LIS : i < length is) by lia. clear - LIS i3_inv i3_grad. revert LIS i3_inv i3_grad.
    generalize (invar p) as iv. generalize (gradient p) as gr. revert i.
    induction is as [|[[b e] nv] is IH]; intros i gr iv L1 L2 L3; [cbn in L1; lia|].
    destruct iv as [|v iv]; [discriminate|]. destruct gr as [|g gr]; [discriminate|].
    destruct i as [|i]; [reflexivity|]. cbn [zip3 map nth snd]. apply IH; cbn in *; lia. }
  destruct (flag_bits _ G) as [G0 G1].
  pose proof (ixg_grad free3 (kinds3 b n) cs i 0 ltac:(lia) ltac:(lia) ltac:(lia)) as V0.
  pose proof (ixg_grad free3 (kinds3 b n) cs i 1 ltac:(lia) ltac:(lia) ltac:(lia)) as V1.
  cbv zeta in V0, V1. rewrite NC in V0, V1. cbn [fst snd Nat.eqb] in V0, V1. rewrite ZD in V0, V1. rewrite G0 in V0. rewrite G1 in V1.
  replace (2 + off (map snd is) i - 2) with (off (map snd is) i + 0) by lia. replace (2 + off (map snd is) i - 1) with (off (map snd is) i + 1) by lia.
  split; assumption.
Qed.
Lemma free_grad4 : forall b n f p i, b = Pairs \/ b = Eam \/ b = Adp -> f_num f = npots b n -> read4 rd resc b n f = Done p -> i < npots b n ->
  (0 <= nth i (gradient p) 0 <= 3)%Z ->
  (In (nth i (first p) 0 - 2) (idx p) <-> nth i (invar p) 0%Z = 0%Z /\ (nth i (gradient p) 0%Z = 2%Z \/ nth i (gradient p) 0%Z = 3%Z)) /\
  (In (nth i (first p) 0 - 1) (idx p) <-> nth i (invar p) 0%Z = 0%Z /\ (nth i (gradient p) 0%Z = 1%Z \/ nth i (gradient p) 0%Z = 3%Z)).
Proof.
  intros b n f p i NA N H L G. pose proof (kinds4_all b n NA) as K. rewrite <- N in K.
  destruct (read4_is rd resc Hrd b n f p K H) as [nv [be [I [_ [C [EI _]]]]]].
  destruct I. rewrite EI, ix4_g.
  assert (LI : i < length nv) by lia.
  rewrite i4_first. rewrite layout_first by lia.
  destruct (zip2_map nv (invar p) (gradient p)) as [Z1 Z2]; [lia|lia|].
  set (cs := zip2 nv (invar p) (gradient p)) in *.
  assert (NC : nth i cs (0, 0%Z, 0%Z) = (nth i nv 0, nth i (invar p) 0%Z, nth i (gradient p) 0%Z)).
  { unfold cs. clear - LI i4_inv i4_grad. revert LI i4_inv i4_grad.
    generalize (invar p) as iv. generalize (gradient p) as gr. revert i.
    induction nv as [|k nv IH]; intros i gr iv L1 L2 L3; [cbn in L1; lia|].
    destruct iv as [|v iv]; [discriminate|]. destruct gr as [|g gr]; [discriminate|].
    destruct i as [|i]; [reflexivity|]. cbn [zip2 nth]. apply IH; cbn in *; lia. }
  destruct (flag_bits _ G) as [G0 G1].
  pose proof (ixg_grad free4 (kinds4 b n) cs i 0 ltac:(lia) ltac:(lia) ltac:(lia)) as V0.
  pose proof (ixg_grad free4 (kinds4 b n) cs i 1 ltac:(lia) ltac:(lia) ltac:(lia)) as V1.
  cbv zeta in V0, V1. rewrite NC in V0, V1. cbn [fst snd Nat.eqb] in V0, V1. rewrite Z1 in V0, V1. rewrite G0 in V0. rewrite G1 in V1.
  replace (2 + off nv i - 2) with (off nv i + 0) by lia. replace (2 + off nv i - 1) with (off nv i + 1) by lia.
  split; assumption.
Qed.
End Read.

Section Accepted.
Variables (rd : Qc -> Qc) (coord : Qc -> Qc -> nat -> nat -> Qc) (resc : bool).
Hypothesis Hrd : forall d : Qc, reads d (rd d).
Lemma accepted3 : forall b n f p, read rd coord resc b n f = Done p -> f_fmt f = 3 -> f_num f = npots b n /\ read3 rd coord resc b n f = Done p.
Proof. intros b n f p H F. unfold read in H. destruct (Nat.eqb_spec (f_num f) (npots b n)); cbn [negb] in H; [|discriminate]. rewrite F in H. auto. Qed.
Lemma accepted4 : forall b n f p, read rd coord resc b n f = Done p -> f_fmt f = 4 -> f_num f = npots b n /\ read4 rd resc b n f = Done p.
Proof. intros b n f p H F. unfold read in H. destruct (Nat.eqb_spec (f_num f) (npots b n)); cbn [negb] in H; [|discriminate]. rewrite F in H. auto. Qed.
Lemma ncols3 : forall b n f p, b <> Ang -> f_num f = npots b n -> read3 rd coord resc b n f = Done p -> ncols p = npots b n.
Proof. intros b n f p NA N H. pose proof (kinds3_all b n NA) as K. rewrite <- N in K. destruct (read3_is rd coord resc Hrd b n f p K H) as [is [_ [C _]]]. lia. Qed.
Lemma ncols4 : forall b n f p, b = Pairs \/ b = Eam \/ b = Adp -> f_num f = npots b n -> read4 rd resc b n f = Done p -> ncols p = npots b n.
Proof. intros b n f p NA N H. pose proof (kinds4_all b n NA) as K. rewrite <- N in K. destruct (read4_is rd resc Hrd b n f p K H) as [nv [be [_ [_ [C _]]]]]. lia. Qed.
Lemma all_free3 : forall b n f p i j, b <> Ang -> read rd coord resc b n f = Done p -> f_fmt f = 3 ->
  i < npots b n -> nth i (first p) 0 <= j <= nth i (last_ p) 0 ->
  (In j (idx p) <-> nth i (invar p) 0%Z = 0%Z /\ fixed3 b n i (nth i (first p) 0) (nth i (last_ p) 0) j = false).
Proof. intros b n f p i j NA H F L J. destruct (accepted3 _ _ _ _ H F) as [N R]. apply (free_by_role3 rd coord resc Hrd b n f p i j NA N R); auto. rewrite (ncols3 b n f p); auto. Qed.
Lemma all_free4 : forall b n f p i j, b = Pairs \/ b = Eam \/ b = Adp -> read rd coord resc b n f = Done p -> f_fmt f = 4 ->
  i < npots b n -> nth i (first p) 0 <= j <= nth i (last_ p) 0 ->
  (In j (idx p) <-> nth i (invar p) 0%Z = 0%Z /\ fixed4 b n i (nth i (last_ p) 0) j = false).
Proof. intros b n f p i j NA H F L J. destruct (accepted4 _ _ _ _ H F) as [N R]. apply (free_by_role4 rd resc Hrd b n f p i j NA N R); auto. rewrite (ncols4 b n f p); auto. Qed.
Lemma all_gradients : forall b n f p i, (f_fmt f = 3 /\ b <> Ang) \/ (f_fmt f = 4 /\ (b = Pairs \/ b = Eam \/ b = Adp)) -> read rd coord resc b n f = Done p ->
  i < npots b n -> (0 <= nth i (gradient p) 0 <= 3)%Z ->
  (In (nth i (first p) 0 - 2) (idx p) <-> nth i (invar p) 0%Z = 0%Z /\ (nth i (gradient p) 0%Z = 2%Z \/ nth i (gradient p) 0%Z = 3%Z)) /\
  (In (nth i (first p) 0 - 1) (idx p) <-> nth i (invar p) 0%Z = 0%Z /\ (nth i (gradient p) 0%Z = 1%Z \/ nth i (gradient p) 0%Z = 3%Z)).
Proof.
  intros b n f p i [[F NA]|[F NA]] H L G.
  - destruct (accepted3 _ _ _ _ H F) as [N R]. exact (free_grad3 rd coord resc Hrd b n f p i NA N R L G).
  - destruct (accepted4 _ _ _ _ H F) as [N R]. exact (free_grad4 rd resc Hrd b n f p i NA N R L G).
Qed.
Lemma all_defaults : forall b n f p i, (f_fmt f = 3 /\ b <> Ang) \/ (f_fmt f = 4 /\ (b = Pairs \/ b = Eam \/ b = Adp)) -> read rd coord resc b n f = Done p ->
  f_grad f = None -> i < npots b n ->
  at_ (table p) (nth i (first p) 0 - 2) = (if natural_left b n i then e30 rd else q0) /\
  at_ (table p) (nth i (first p) 0 - 1) = (if natural_right b n i then e30 rd else q0).
Proof.
  intros b n f p i [[F NA]|[F NA]] H G L.
  - destruct (accepted3 _ _ _ _ H F) as [N R]. exact (defaults3 rd coord resc Hrd b n f p i NA N G R L).
  - destruct (accepted4 _ _ _ _ H F) as [N R]. exact (defaults4 rd resc Hrd b n f p i NA N G R L).
Qed.
End Accepted.
(** A MEAM potential with one type: pair, density, embedding, f and g with two values each *)
Definition meam_file : file := File 3 5 None None
  (flat_map (fun _ => [TNum q0; TNum c1; TInt 2]) (seq 0 5) ++ repeat (TNum q0) 10).
Lemma meam_read : exists p, read (fun d => d) (fun b e nv j => q0) true Meam 1 meam_file = Done p /\
  first p = [2; 6; 10; 14; 18] /\ last_ p = [3; 7; 11; 15; 19] /\ idx p = [2; 6; 10; 11; 18; 19].
Proof. eexists. split; [vm_compute; reflexivity|]. vm_compute. auto. Qed.
