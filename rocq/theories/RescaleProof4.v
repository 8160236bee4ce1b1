(** What rescaling does to the three kinds of columns. *)
From Coq Require Import Reals ZArith List Bool Lia Lra.
From Verif Require Import LoopUtil SplineModel SplineProof SplineProof2 SplineProof3 SplineProof4 RescaleModel RescaleProof2 RescaleProof3.
Local Open Scope R_scope.

Lemma E29_NATURAL : 0 < E29 /\ E29 <= NATURAL /\ NATURAL < E30.
Proof.
  unfold E29, E30, NATURAL. assert (P : 0 < 10 ^ 28) by (apply pow_lt; lra).
  replace (10 ^ 29) with (10 * 10 ^ 28) by (simpl; ring). replace (10 ^ 30) with (100 * 10 ^ 28) by (simpl; ring). lra.
Qed.
Lemma endc_some : forall s, s <= NATURAL -> endc s = Some s.
Proof. intros s H. unfold endc. destruct (Rlt_dec NATURAL s); [lra|auto]. Qed.
Lemma endc_none : forall s, NATURAL < s -> endc s = None.
Proof. intros s H. unfold endc. destruct (Rlt_dec NATURAL s); [auto|lra]. Qed.
Lemma endc_0 : endc 0 = Some 0.
Proof. apply endc_some. destruct E29_NATURAL. lra. Qed.
Lemma same_refl : forall f, same_grid f f.
Proof. intros f. split; auto. Qed.
Lemma inside_true : forall f i, (i < npts f)%nat -> (first (col f) <= last (col f))%nat ->
  (Nat.leb (first (col f)) (first (col f) + i) && Nat.leb (first (col f) + i) (last (col f)))%bool = true.
Proof. intros f i H L. unfold npts in H. apply andb_true_iff. split; apply Nat.leb_le; lia. Qed.

Section Fmt.
Variable fmt3 : bool.
Notation ok := (ok fmt3).
Notation spl := (spl fmt3).
Lemma ok_fl : forall f, ok f -> (first (col f) <= last (col f))%nat.
Proof. intros f ((L & _) & _). lia. Qed.

(** a slope, or a number that every test takes as "natural" *)
Definition sane (s : R) : Prop := s < E29 \/ E30 <= s.

(** ** transfer functions *)
Section Tr.
Variables (a : R) (f0 : fn).
Hypothesis OK : ok f0.
Hypothesis SANE : sane (sl f0).
Hypothesis SMALL : sl f0 < E29 -> sl f0 * a <= NATURAL.
Let f := spl false f0.
Let g := scaled_tr a f.

Lemma scaled_vals : forall i, (i < npts f)%nat -> vals g i = vals f i * a.
Proof. intros i Hi. unfold vals, g, scaled_tr. cbn [val col]. rewrite (inside_true f i Hi (ok_fl f OK)). auto. Qed.
Lemma scaled_ok : ok g.
Proof. exact OK. Qed.
(** also if the splines are initialised more than once *)
Theorem scaled_eval : forall h, (h = spl false g \/ h = spl false (spl false g)) ->
  forall r, begin (col f0) <= r < endr (col f0) ->
  exists v d, ev fmt3 f r = Some v /\ evg fmt3 f r = Some d /\ ev fmt3 h r = Some (a * v) /\ evg fmt3 h r = Some (a * d).
Proof.
  intros h Hh r Hr. destruct E29_NATURAL as (E1 & E2 & E3).
  assert (FO : ok f) by exact OK. assert (HO : ok h) by (destruct Hh as [-> | ->]; exact OK).
  assert (SF : solved false f) by (apply spl_solved; auto).
  assert (SH : solved false h). { destruct Hh as [-> | ->]; apply spl_solved; [exact OK|apply spl_ok; exact OK]. }
  assert (HV : vals h = vals g) by (destruct Hh as [-> | ->]; auto).
  assert (HS : sl h = sl g) by (destruct Hh as [-> | ->]; auto).
  assert (HG : same_grid f h) by (destruct Hh as [-> | ->]; split; auto).
  assert (GS : (sl f <= NATURAL /\ endc (sl h) = Some (sl f * a)) \/ (NATURAL < sl f /\ endc (sl h) = None)).
  { rewrite HS. unfold g, scaled_tr. cbn [sl]. change (sl f) with (sl f0). destruct SANE.
    - left. destruct (Rlt_dec (sl f0) E30); [|lra]. split; [lra|]. apply endc_some. auto.
    - right. destruct (Rlt_dec (sl f0) E30); [lra|]. split; [lra|]. apply endc_none. lra. }
  assert (L : exists el e1 el', gsys (nodes f) (vals f) (npts f) el (Some 0) (curv f) /\ gsys (nodes h) (vals h) (npts h) el' (Some 0) (curv h) /\
    combine (a - 1) el el e1 /\ combine 0 e1 el el').
  { unfold solved in SF, SH. unfold right_slope in SF, SH. rewrite endc_0 in SF, SH. destruct GS as [(A & B)|(A & B)].
    - rewrite (endc_some _ A) in SF. rewrite B in SH. exists (Some (sl f)), (Some (sl f + (a - 1) * sl f)), (Some (sl f * a)).
      split; [exact SF|]. split; [exact SH|]. simpl. split; ring.
    - rewrite (endc_none _ A) in SF. rewrite B in SH. exists None, None, None. do 2 (split; [assumption|]). cbn [combine]. auto. }
  destruct L as (el & e1 & el' & L1 & L2 & C1 & C2).
  destruct (lin3 fmt3 f f f h (a - 1) 0 el el el el' (Some 0) (Some 0) (Some 0) (Some 0) e1 (Some 0)
    FO FO FO HO (same_refl f) (same_refl f) HG) with (r := r) as (v & d & v1 & d1 & v2 & d2 & V & D & V1 & D1 & V2 & D2 & V3 & D3); auto.
  - intros i Hi. rewrite HV, scaled_vals by auto. ring.
  - simpl. ring.
  - simpl. ring.
  - exists v, d. split; [auto|]. split; [auto|]. rewrite V in V1, V2. rewrite D in D1, D2. injection V1 as <-. injection V2 as <-. injection D1 as <-. injection D2 as <-.
    split; [rewrite V3|rewrite D3]; f_equal; ring.
Qed.
End Tr.

(** ** pair functions *)
Section Ph.
Variables (ls lt : R) (fs ft f0 : fn).
Let f := spl false f0.
Hypothesis OK : ok f0.
Hypothesis OS : ok fs.
Hypothesis OT : ok ft.
Hypothesis SS : solved false fs.
Hypothesis ST : solved false ft.
Hypothesis GS : same_grid f0 fs.
Hypothesis GT : same_grid f0 ft.
(** the transfer functions end with the value 0 *)
Hypothesis ZS : vals fs (npts fs - 1)%nat = 0.
Hypothesis ZT : vals ft (npts ft - 1)%nat = 0.
Let g := gauge_ph fmt3 ls lt fs ft f.
(** a slope is given; or both transfer functions are natural as well *)
Hypothesis ENDS : (sl f0 < E29 /\ sl g <= NATURAL) \/ (NATURAL < sl f0 /\ NATURAL < sl fs /\ NATURAL < sl ft).

Lemma part_node : forall l u, ok u -> same_grid f0 u -> vals u (npts u - 1)%nat = 0 -> forall i, (i < npts f0)%nat ->
  part l u (nodes f0 i) (splint_ne (col u) (val u) (nodes f0 i)) = l * vals u i.
Proof.
  intros l u OU (N & X) Z i Hi. unfold part. rewrite X by auto. rewrite N in Hi.
  destruct (Nat.eq_dec i (npts u - 1)) as [->|NE].
  - rewrite (ok_end fmt3 u OU), Z. destruct (Rlt_dec (endr (col u)) (endr (col u))); lra.
  - destruct (Rlt_dec (nodes u i) (endr (col u))) as [L|L].
    + f_equal. pose proof (ok_n2 fmt3 u OU). assert (B : begin (col u) <= nodes u i) by (rewrite <- (ok_begin fmt3 u OU); apply (inc_le fmt3 u OU); lia).
      destruct (eval_in fmt3 u OU (nodes u i) (conj B L)) as (k & K & I & _ & _ & -> & _).
      assert (k = i). { apply (slot_unique fmt3 u OU k i (nodes u i)); [exact K|lia|exact I|]. split; [lra|]. apply (inc_lt fmt3 u OU); lia. }
      subst k. apply pv_left. apply (inc_lt fmt3 u OU); lia.
    + exfalso. apply L. rewrite <- (ok_end fmt3 u OU). pose proof (ok_n2 fmt3 u OU). apply (inc_lt fmt3 u OU); lia.
Qed.
Lemma begin_slope : forall u, ok u -> evg fmt3 u (begin (col u)) = Some (pg (nodes u) (vals u) (curv u) 0 (nodes u 0%nat)).
Proof.
  intros u OU. pose proof (ok_n2 fmt3 u OU). destruct (eval_in fmt3 u OU (begin (col u))) as (k & K & I & _ & -> & _).
  { pose proof (begin_end fmt3 u OU). lra. }
  assert (k = 0%nat). { apply (slot_unique fmt3 u OU k 0 (begin (col u))); [exact K|simpl; lia|exact I|]. rewrite (ok_begin fmt3 u OU). split; [lra|]. rewrite <- (ok_begin fmt3 u OU). apply (inc_lt fmt3 u OU); simpl; lia. }
  subst k. rewrite <- (ok_begin fmt3 u OU). auto.
Qed.

Theorem gauge_eval : forall h, (h = spl false g \/ h = spl false (spl false g)) -> forall r, begin (col f0) <= r < endr (col f0) ->
  exists v d vs ds vt dt, ev fmt3 f r = Some v /\ evg fmt3 f r = Some d /\ ev fmt3 fs r = Some vs /\ evg fmt3 fs r = Some ds /\
  ev fmt3 ft r = Some vt /\ evg fmt3 ft r = Some dt /\
  ev fmt3 h r = Some (v + ls * vt + lt * vs) /\ evg fmt3 h r = Some (d + ls * dt + lt * ds).
Proof.
  intros h Hh r Hr. destruct E29_NATURAL as (E1 & E2 & E3).
  assert (FO : ok f) by exact OK. assert (HO : ok h) by (destruct Hh as [-> | ->]; exact OK).
  assert (SF : solved false f) by (apply spl_solved; auto).
  assert (SH : solved false h). { destruct Hh as [-> | ->]; apply spl_solved; [exact OK|apply spl_ok; exact OK]. }
  assert (HV : vals h = vals g) by (destruct Hh as [-> | ->]; auto).
  assert (HS : sl h = sl g) by (destruct Hh as [-> | ->]; auto).
  assert (HG : same_grid f h) by (destruct Hh as [-> | ->]; split; auto).
  assert (GV : forall i, (i < npts f)%nat -> vals g i = vals f i + ls * vals ft i + lt * vals fs i).
  { intros i Hi. unfold g, gauge_ph, vals at 1. cbn [val col]. rewrite (inside_true f i Hi (ok_fl f OK)).
    change (xcoord (col f) (first (col f) + i)%nat) with (nodes f0 i).
    rewrite (part_node ls ft OT GT ZT i Hi), (part_node lt fs OS GS ZS i Hi). unfold vals. ring. }
  destruct (same_begin fmt3 f0 fs OK OS GS) as [BS ES]. destruct (same_begin fmt3 f0 ft OK OT GT) as [BT ET]. pose proof (begin_end fmt3 f0 OK) as BE.
  assert (L : exists el el1 el2 e1 el', gsys (nodes f) (vals f) (npts f) el (Some 0) (curv f) /\
    gsys (nodes ft) (vals ft) (npts ft) el1 (Some 0) (curv ft) /\ gsys (nodes fs) (vals fs) (npts fs) el2 (Some 0) (curv fs) /\
    gsys (nodes h) (vals h) (npts h) el' (Some 0) (curv h) /\ combine ls el el1 e1 /\ combine lt e1 el2 el').
  { unfold solved in SF, SH, SS, ST. unfold right_slope in SF, SH, SS, ST. rewrite endc_0 in SF, SH, SS, ST. rewrite HS in SH. destruct ENDS as [(A & B)|(A & B & C)].
    - change (sl f0) with (sl f) in A. rewrite (endc_some (sl f)) in SF by lra. rewrite (endc_some _ B) in SH.
      exists (Some (sl f)), (Some (pg (nodes ft) (vals ft) (curv ft) 0 (nodes ft 0%nat))), (Some (pg (nodes fs) (vals fs) (curv fs) 0 (nodes fs 0%nat))),
        (Some (sl f + ls * pg (nodes ft) (vals ft) (curv ft) 0 (nodes ft 0%nat))), (Some (sl g)).
      split; [exact SF|]. split; [apply (gsys_own_slope _ _ (ok_n2 fmt3 ft OT) (ok_inc fmt3 ft OT) _ _ _ _ ST)|].
      split; [apply (gsys_own_slope _ _ (ok_n2 fmt3 fs OS) (ok_inc fmt3 fs OS) _ _ _ _ SS)|]. split; [exact SH|]. cbn [combine]. split; [ring|].
      unfold g, gauge_ph. cbn [sl]. destruct (Rlt_dec (sl f) E29); [|contradiction]. unfold part. change (begin (col f)) with (begin (col f0)).
      destruct (Rlt_dec (begin (col f0)) (endr (col ft))); [|lra]. destruct (Rlt_dec (begin (col f0)) (endr (col fs))); [|lra].
      assert (Q1 : evg fmt3 ft (begin (col f0)) = Some (pg (nodes ft) (vals ft) (curv ft) 0 (nodes ft 0%nat))) by (rewrite BT; apply begin_slope; auto).
      assert (Q2 : evg fmt3 fs (begin (col f0)) = Some (pg (nodes fs) (vals fs) (curv fs) 0 (nodes fs 0%nat))) by (rewrite BS; apply begin_slope; auto).
      rewrite Q1, Q2. cbn [or0]. ring.
    - rewrite (endc_none (sl f)) in SF by auto. rewrite (endc_none _ B) in SS. rewrite (endc_none _ C) in ST.
      assert (Q : endc (sl g) = None).
      { unfold g, gauge_ph. cbn [sl]. change (sl f) with (sl f0). destruct (Rlt_dec (sl f0) E29); [lra|]. apply endc_none. auto. }
      rewrite Q in SH. exists None, None, None, None, None. do 4 (split; [assumption|]). cbn [combine]. auto. }
  destruct L as (el & el1 & el2 & e1 & el' & L0 & L1 & L2 & L3 & C1 & C2).
  destruct (lin3 fmt3 f ft fs h ls lt el1 el2 el el' (Some 0) (Some 0) (Some 0) (Some 0) e1 (Some 0)
    FO OT OS HO GT GS HG) with (r := r) as (v & d & v1 & d1 & v2 & d2 & V & D & V1 & D1 & V2 & D2 & V3 & D3); auto.
  - intros i Hi. rewrite HV. auto.
  - simpl. ring.
  - simpl. ring.
  - exists v, d, v2, d2, v1, d1. auto 10.
Qed.
End Ph.

(** ** embedding functions: values at the new nodes *)
Section Em.
Variables (a lo hi : R) (f0 : fn).
Hypothesis OK : ok f0.
Hypothesis A : 0 < a.
Hypothesis LH : lo < hi.
Let f := spl true f0.
Let w := scaled_em true a lo hi (resampled f lo hi).
Let ns := (hi - lo) / INR (last (col f0) - first (col f0)).
Lemma ns_pos : 0 < ns /\ lo + INR (last (col f0) - first (col f0)) * ns = hi.
Proof.
  destruct OK as ((L & _) & _). assert (P : 0 < INR (last (col f0) - first (col f0))) by (apply lt_0_INR; lia).
  unfold ns. split; [apply Rdiv_lt_0_compat; lra|field; lra].
Qed.
Lemma w_nodes : forall i, (i < npts f0)%nat -> nodes w i = a * lo + INR i * (a * ns).
Proof.
  intros i Hi. unfold nodes, w, scaled_em, resampled. cbn [col xcoord first last].
  change (first (col f)) with (first (col f0)). change (last (col f)) with (last (col f0)). rewrite (inside_true f0 i Hi (ok_fl f0 OK)).
  replace (first (col f0) + i - first (col f0))%nat with i by lia. auto.
Qed.
Lemma w_ok : ok w.
Proof.
  destruct ns_pos as [N1 N2]. assert (AN : 0 < a * ns) by (apply Rmult_lt_0_compat; auto). pose proof OK as ((L & _) & _).
  assert (X0 : begin (col w) = nodes w 0%nat).
  { rewrite w_nodes by (unfold npts; lia). simpl. ring. }
  assert (X1 : endr (col w) = nodes w (npts f0 - 1)%nat).
  { rewrite w_nodes by (unfold npts; lia). unfold npts. replace (last (col f0) - first (col f0) + 1 - 1)%nat with (last (col f0) - first (col f0))%nat by lia.
    change (endr (col w)) with (a * hi). rewrite <- N2 at 1. ring. }
  split.
  - split; [exact L|]. split; [rewrite X0; unfold nodes; rewrite Nat.add_0_r; auto|]. split.
    + rewrite X1. unfold nodes, npts. change (first (col w)) with (first (col f0)). change (last (col w)) with (last (col f0)). f_equal. lia.
    + change (first (col w)) with (first (col f0)). change (last (col w)) with (last (col f0)). intros i Hi.
      replace i with (first (col f0) + (i - first (col f0)))%nat by lia. replace (S (first (col f0) + (i - first (col f0))))%nat with (first (col f0) + S (i - first (col f0)))%nat by lia.
      change (nodes w (i - first (col f0))%nat < nodes w (S (i - first (col f0)))). rewrite !w_nodes by (unfold npts; lia). rewrite S_INR. lra.
  - intros _. split.
    + split; [exact AN|]. split; [reflexivity|]. split; [exact L|]. change (a * hi = a * lo + INR (last (col f0) - first (col f0)) * (a * ns)). rewrite <- N2 at 1. ring.
    + intros i Hi. apply w_nodes. exact Hi.
Qed.
Lemma w_vals : forall i, (i < npts f0)%nat -> vals w i = splint_ne (col f) (val f) (nodes w i / a).
Proof.
  intros i Hi. rewrite w_nodes by auto. unfold vals, w, scaled_em, resampled. cbn [col val first last].
  change (first (col f)) with (first (col f0)). change (last (col f)) with (last (col f0)). rewrite (inside_true f0 i Hi (ok_fl f0 OK)).
  replace (first (col f0) + i - first (col f0))%nat with i by lia. f_equal. fold ns. field. lra.
Qed.
Definition gauged (l : R) : fn := spl true (gauge_em l (spl true w)).
Lemma gauged_ok : forall l, ok (gauged l).
Proof. intros l. exact w_ok. Qed.
(** whatever the embedding function: at the new nodes the value is that of the old function
    at the old density, minus the gauge *)
Theorem embed_nodes : forall l i, (i < npts f0)%nat ->
  nodes (gauged l) i = a * lo + INR i * (a * ns) /\
  splint_ne (col (gauged l)) (val (gauged l)) (nodes (gauged l) i) = splint_ne (col f) (val f) (nodes (gauged l) i / a) - l * nodes (gauged l) i.
Proof.
  intros l i Hi. split; [apply w_nodes; auto|].
  assert (V : vals (gauged l) i = vals w i - l * nodes w i).
  { unfold gauged. change (vals (spl true (gauge_em l (spl true w)))) with (vals (gauge_em l (spl true w))). unfold gauge_em, vals at 1. cbn [val col].
    rewrite (inside_true (spl true w) i Hi (ok_fl w w_ok)). unfold vals, nodes. cbn. ring. }
  change (nodes (gauged l) i) with (nodes w i) at 2 3. rewrite <- w_vals by auto.
  rewrite <- V. pose proof (gauged_ok l) as O. pose proof (ok_n2 fmt3 _ O) as N2. destruct O as (LI & _).
  exact (ne_interpolates (col (gauged l)) (val (gauged l)) LI (first (col f0) + i)%nat ltac:(change (first (col (gauged l))) with (first (col f0)); change (last (col (gauged l))) with (last (col f0)); unfold npts in Hi; destruct OK as ((L & _) & _); lia)).
Qed.

(** ** cubic embedding functions *)
Variables p0 p1 p2 p3 : R.
Hypothesis CUB : cubic_column f0 p0 p1 p2 p3.
Hypothesis SMALL : forall u, u = lo \/ u = (lo + hi) / 2 \/ u = hi -> Rabs (cub1 p1 p2 p3 u) < E29 / 2 /\ Rabs (cub1 p1 p2 p3 u / a) < E29 / 2.
Definition q0 := p0.
Definition q1 := p1 / a.
Definition q2 := p2 / (a * a).
Definition q3 := p3 / (a * a * a).
Lemma q_cub : forall u, cub q0 q1 q2 q3 u = cub p0 p1 p2 p3 (u / a).
Proof. intros. unfold cub, q0, q1, q2, q3. field. lra. Qed.
Lemma q_cub1 : forall u, cub1 q1 q2 q3 u = cub1 p1 p2 p3 (u / a) / a.
Proof. intros. unfold cub1, q1, q2, q3. field. lra. Qed.
Lemma abs_lt : forall x y, Rabs x < y -> - y < x < y.
Proof. intros x y H. unfold Rabs in H. destruct (Rcase_abs x); lra. Qed.
Lemma f_eval : (forall r, splint_ne (col f) (val f) r = cub p0 p1 p2 p3 r /\ splint_grad_ne (col f) (val f) r = cub1 p1 p2 p3 r) /\
  (forall r, begin (col f) <= r < endr (col f) -> ev fmt3 f r = Some (cub p0 p1 p2 p3 r) /\ evg fmt3 f r = Some (cub1 p1 p2 p3 r)).
Proof. apply cubic_eval; [exact OK|apply spl_solved; auto|exact CUB]. Qed.
Lemma w_slopes : sl w = cub1 p1 p2 p3 lo / a /\ sr w = cub1 p1 p2 p3 hi / a.
Proof.
  destruct E29_NATURAL as (E1 & E2 & E3). destruct f_eval as [G _]. destruct CUB as (_ & _ & _ & SL & SR).
  destruct (SMALL lo ltac:(auto)) as [S1 _]. destruct (SMALL hi ltac:(auto)) as [S2 _]. apply abs_lt in S1, S2.
  unfold w, scaled_em, resampled. cbn [sl sr]. change (sl f) with (sl f0). change (sr f) with (sr f0).
  destruct (Rlt_dec (sl f0) E30); [|lra]. destruct (Rlt_dec (sr f0) E30); [|lra].
  rewrite (proj2 (G lo)), (proj2 (G hi)). split.
  - destruct (Rlt_dec (cub1 p1 p2 p3 lo) E30); lra.
  - destruct (Rlt_dec (cub1 p1 p2 p3 hi) E30); lra.
Qed.
Lemma w_cubic : cubic_column w q0 q1 q2 q3.
Proof.
  destruct E29_NATURAL as (E1 & E2 & E3). destruct f_eval as [G _]. destruct w_slopes as [W1 W2].
  destruct (SMALL lo ltac:(auto)) as [_ S1]. destruct (SMALL hi ltac:(auto)) as [_ S2]. apply abs_lt in S1, S2.
  unfold cubic_column. rewrite W1, W2, !q_cub1. change (begin (col w)) with (a * lo). change (endr (col w)) with (a * hi).
  split; [|split; [|split; [|split]]].
  - intros i Hi. rewrite w_vals by auto. rewrite (proj1 (G _)), q_cub. auto.
  - do 2 f_equal. field. lra.
  - do 2 f_equal. field. lra.
  - lra.
  - lra.
Qed.
Definition lam : R := lambda fmt3 (spl true w).
Lemma lam_value : lam = cub1 p1 p2 p3 ((lo + hi) / 2) / a.
Proof.
  unfold lam, lambda. change (begin (col (spl true w))) with (a * lo). change (endr (col (spl true w))) with (a * hi).
  destruct (cubic_eval fmt3 (spl true w) q0 q1 q2 q3 w_ok (spl_solved fmt3 true w w_ok) w_cubic) as [_ G].
  assert (M1 : a * lo < a * hi) by (apply Rmult_lt_compat_l; lra).
  assert (M : begin (col (spl true w)) <= 1 / 2 * (a * lo + a * hi) < endr (col (spl true w))).
  { change (begin (col (spl true w))) with (a * lo). change (endr (col (spl true w))) with (a * hi). lra. }
  rewrite (proj2 (G _ M)). cbn [or0]. rewrite q_cub1. do 2 f_equal. field. lra.
Qed.
Theorem embed_cubic :
  let h := gauged lam in
  begin (col h) = a * lo /\ endr (col h) = a * hi /\
  (forall u, splint_ne (col h) (val h) (a * u) = cub p0 p1 p2 p3 u - lam * (a * u)) /\
  (forall u, lo <= u < hi -> ev fmt3 h (a * u) = Some (cub p0 p1 p2 p3 u - lam * (a * u)) /\ evg fmt3 h (a * u) = Some (cub1 p1 p2 p3 u / a - lam)).
Proof.
  cbv zeta. destruct E29_NATURAL as (E1 & E2 & E3). destruct w_slopes as [W1 W2].
  destruct (SMALL lo ltac:(auto)) as [_ S1]. destruct (SMALL hi ltac:(auto)) as [_ S2]. destruct (SMALL ((lo + hi) / 2) ltac:(auto)) as [_ S3].
  rewrite <- lam_value in S3. apply abs_lt in S1, S2, S3.
  assert (CH : cubic_column (gauge_em lam (spl true w)) q0 (q1 - lam) q2 q3).
  { destruct w_cubic as (V & B & C & _). unfold cubic_column. split; [|split; [|split; [|split]]].
    - intros i Hi. change (nodes (gauge_em lam (spl true w)) i) with (nodes w i). unfold gauge_em, vals at 1. cbn [val col]. rewrite (inside_true (spl true w) i Hi (ok_fl w w_ok)).
      change (val (spl true w) (first (col (spl true w)) + i)%nat) with (vals w i). change (xcoord (col (spl true w)) (first (col (spl true w)) + i)%nat) with (nodes w i).
      rewrite V by exact Hi. unfold cub. ring.
    - change (sl (gauge_em lam (spl true w)) = cub1 (q1 - lam) q2 q3 (begin (col w))). unfold gauge_em. cbn [sl col]. change (sl (spl true w)) with (sl w).
      destruct (Rlt_dec (sl w) E29); [|lra]. rewrite B. unfold cub1. ring.
    - change (sr (gauge_em lam (spl true w)) = cub1 (q1 - lam) q2 q3 (endr (col w))). unfold gauge_em. cbn [sr col]. change (sr (spl true w)) with (sr w).
      destruct (Rlt_dec (sr w) E29); [|lra]. rewrite C. unfold cub1. ring.
    - unfold gauge_em. cbn [sl]. change (sl (spl true w)) with (sl w). destruct (Rlt_dec (sl w) E29); lra.
    - unfold gauge_em. cbn [sr]. change (sr (spl true w)) with (sr w). destruct (Rlt_dec (sr w) E29); lra. }
  destruct (cubic_eval fmt3 (gauged lam) q0 (q1 - lam) q2 q3 w_ok (spl_solved fmt3 true (gauge_em lam (spl true w)) w_ok) CH) as [G1 G2].
  assert (C0 : forall u, cub q0 (q1 - lam) q2 q3 (a * u) = cub p0 p1 p2 p3 u - lam * (a * u)).
  { intros u. unfold cub, q0, q1, q2, q3. field. lra. }
  assert (C1 : forall u, cub1 (q1 - lam) q2 q3 (a * u) = cub1 p1 p2 p3 u / a - lam).
  { intros u. unfold cub1, q1, q2, q3. field. lra. }
  split; [reflexivity|]. split; [reflexivity|]. split.
  - intros u. rewrite (proj1 (G1 _)). apply C0.
  - intros u [U1 U2]. destruct (G2 (a * u)) as [V1 V2].
    + change (begin (col (gauged lam))) with (a * lo). change (endr (col (gauged lam))) with (a * hi). split; [apply Rmult_le_compat_l; lra|apply Rmult_lt_compat_l; lra].
    + rewrite V1, V2, C0, C1. auto.
Qed.
End Em.
End Fmt.
