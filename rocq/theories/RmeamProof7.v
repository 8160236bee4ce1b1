(** Rescaling of MEAM potentials: energies that change. *)
From Coq Require Import Reals ZArith List Bool Lia Lra.
From Verif Require Import Vec NbrModel NbrProof3 LoopUtil PairModel PairSpec PairProof3 ThreeSpec ThreeProof AngSpec MeamSpec SwProof4 SwProof5 AngProof2
  SplineModel SplineProof SplineProof2 SplineProof3 SplineProof4 SplineProof5
  RescaleModel RescaleProof2 RescaleProof3 RescaleProof4 RescaleProof6 RescaleProof9 RmeamModel RmeamSpec RmeamProof RmeamProof2 RmeamProof3 RmeamProof4 RmeamProof5 RmeamProof6.
Import ListNotations.
Local Open Scope R_scope.

(** ** negative densities *)
(** at the left end of the new range the derivative of F has the wrong sign *)
Theorem down_derivative : forall fmt3 a lo hi f0 p0 p1 p2 p3, ok true f0 -> a < 0 -> lo < hi -> cubic_column f0 p0 p1 p2 p3 ->
  (forall u, u = lo \/ u = hi -> Rabs (cub1 p1 p2 p3 u) < E29 /\ Rabs (cub1 p1 p2 p3 u / a) < E29) ->
  let h := spl true true (scaled_em false a lo hi (resampled (spl true true f0) lo hi)) in
  begin (col h) = a * hi /\ ev fmt3 h (a * hi) = Some (cub p0 p1 p2 p3 hi) /\ evg fmt3 h (a * hi) = Some (- (cub1 p1 p2 p3 hi / a)).
Proof.
  intros fmt3 a lo hi f0 p0 p1 p2 p3 OK A LH CUB SMALL. cbv zeta. split; [reflexivity|].
  assert (FL : (first (col (spl true true f0)) < last (col (spl true true f0)))%nat) by (destruct OK as ((F & _) & _); exact F).
  assert (SF : solved true (spl true true f0)) by (apply (spl_solved true true); exact OK).
  destruct (cubic_eval true (spl true true f0) p0 p1 p2 p3 OK SF CUB) as [G _].
  set (w := scaled_em false a lo hi (resampled (spl true true f0) lo hi)).
  assert (WO : ok true w) by (apply m_ok; auto).
  split.
  - pose proof (m_embed_nodes false a lo hi (spl true true f0) FL ltac:(auto) LH fmt3 (npts (spl true true f0) - 1)%nat) as H. cbv zeta in H. fold w in H.
    destruct (m_ns lo hi (spl true true f0) FL LH) as [_ E].
    replace (npts (spl true true f0) - 1)%nat with (last (col (spl true true f0)) - first (col (spl true true f0)))%nat in H by (unfold npts; lia). rewrite E, (proj1 (G hi)) in H.
    apply H. unfold npts. lia.
  - change (a * hi) with (begin (col (spl true true w))). rewrite begin_slope by (apply ok_any; exact WO).
    pose proof (spl_solved true true w WO) as SV. unfold solved in SV.
    destruct (down_slopes a lo hi f0 OK A p0 p1 p2 p3 CUB SMALL) as [S1 _]. fold w in S1.
    change (sl (spl true true w)) with (sl w) in SV. rewrite S1 in SV.
    destruct E29_NATURAL as (E1 & E2 & E3). destruct (SMALL hi ltac:(auto)) as [_ B]. apply Rabs_def2 in B. rewrite endc_some in SV by lra.
    destruct SV as [_ L _]. cbv beta iota in L.
    assert (N2 : nodes (spl true true w) 0%nat < nodes (spl true true w) 1%nat) by (apply (inc_lt true (spl true true w) WO); pose proof (ok_n2 true w WO); simpl; auto; change (npts (spl true true w)) with (npts w); lia).
    f_equal. unfold pg, splint_grad_dir. cbn [Nat.add]. revert L. 
    generalize (nodes (spl true true w) 0%nat) (nodes (spl true true w) 1%nat) (vals (spl true true w) 0%nat) (vals (spl true true w) 1%nat) (curv (spl true true w) 0%nat) (curv (spl true true w) 1%nat) N2.
    generalize (cub1 p1 p2 p3 hi / a). intros z x0 x1 y0 y1 d0 d1 X L.
    replace d1 with (6 / (x1 - x0) * ((y1 - y0) / (x1 - x0) - - z) - 2 * d0) by lra. field. lra.
Qed.

Section Neg.
Definition w_neg : fn := scaled_em false (-1) (-5) 2 (resampled (spl true true (two (-10) 0 100 0 (-20) 0)) (-5) 2).
Lemma thousand29 : 1000 < E29.
Proof. unfold E29. assert (K : 10 ^ 4 <= 10 ^ 29) by (apply Rle_pow; [lra|lia]). lra. Qed.
Lemma w_neg_ok : ok true w_neg.
Proof. apply m_ok; [simpl; lia|right; split; [auto|lra]|lra]. Qed.
Lemma w_neg_cubic : cubic_column w_neg (12 + 44 / 7 - 96 / 49) (4 + 44 / 7 - 144 / 49) (11 / 7 - 72 / 49) (- (12 / 49)).
Proof.
  assert (OK : ok true (two (-10) 0 100 0 (-20) 0)) by (apply two_ok; lra).
  assert (SF : solved true (spl true true (two (-10) 0 100 0 (-20) 0))) by (apply (spl_solved true true); exact OK).
  destruct (cubic_eval true (spl true true (two (-10) 0 100 0 (-20) 0)) 0 0 1 0 OK SF p_neg_cubic) as [G _].
  pose proof thousand29 as TH.
  destruct (down_slopes (-1) (-5) 2 (two (-10) 0 100 0 (-20) 0) OK ltac:(lra) 0 0 1 0 p_neg_cubic) as [S1 S2].
  { intros u [-> | ->]; unfold cub1; split; apply Rabs_def1; lra. }
  fold w_neg in S1, S2. unfold cub1 in S1, S2.
  split; [|split; [|split; [|split]]].
  - intros i Hi. change (i < 2)%nat in Hi. unfold w_neg at 1 2. rewrite m_nodes, m_vals by (first [exact Hi|right; split; [auto|lra]|simpl; lia|lra]).
    rewrite (proj1 (G _)). unfold m_index. change (npts (spl true true (two (-10) 0 100 0 (-20) 0))) with 2%nat. cbn [spl two col last first Nat.sub].
    assert (i = 0 \/ i = 1)%nat as [-> | ->] by lia; cbn [Nat.sub]; unfold cub; simpl; field.
  - rewrite S1. change (begin (col w_neg)) with (-1 * 2). unfold cub1. field.
  - rewrite S2. change (endr (col w_neg)) with (-1 * -5). unfold cub1. field.
  - rewrite S1. apply small_natural. lra.
  - rewrite S2. apply small_natural. lra.
Qed.
Theorem negative_energy : forall fmt3,
  let p := m_init p_neg in let r := m_rescale fmt3 true 1 bent 1 (fun _ => 0) p_neg 5 true in let q := m_init (snd r) in
  full_geometry (bent 0) elbow cube (fun _ _ => 12/100) /\ (forall a, (a < 3)%nat -> all_neighbors (bent 0) elbow cube (fun _ _ => 12/100) a (elbow_list a)) /\
  columns_ok fmt3 p_neg 1 (fst r) /\ ok true (mem p_neg 0%nat) /\ cubic_column (mem p_neg 0%nat) 0 0 1 0 /\ fst r = -1 /\
  (forall i, (i < 3)%nat -> begin (col (mem p_neg 0%nat)) < table_density fmt3 true p (bent 0) elbow cube elbow_list i < endr (col (mem p_neg 0%nat))) /\
  table_energy fmt3 true p (bent 0) elbow cube elbow_list = 6 /\ table_energy fmt3 true q (bent 0) elbow cube elbow_list = 3750 / 49.
Proof.
  intros fmt3. cbv zeta. pose proof thousand as TH. destruct (p_neg_density fmt3) as (D0 & D1 & D2). cbv zeta in D0, D1, D2.
  destruct (bent_scan fmt3 true p_neg (fun _ => 0) (-2) (-1)) as [MN MX]; try lra.
  { intros i Hi. destruct i as [|[|[|]]]; [rewrite D0|rewrite D1|rewrite D2|lia]; lra. }
  rewrite m_needed by reflexivity. cbn [fst snd].
  set (s := m_found fmt3 true (m_init p_neg) bent 1 (fun _ => 0)) in *.
  destruct (one_type (m_embed (m_init p_neg)) 5 s (-2) (-1) MN MX) as [_ O]; try lra. destruct (O ltac:(lra)) as [U F].
  assert (A : factor 1 (m_embed (m_init p_neg)) 5 s = -1) by (rewrite F; simpl; field). rewrite U, A.
  split; [exact bent_full|]. split; [intros; apply bent_ex; auto|]. split; [apply p_neg_ok|]. split; [apply two_ok; lra|]. split; [exact p_neg_cubic|]. split; [auto|].
  assert (LE : left_of (m_embed (m_init p_neg)) s 0 = -5) by (unfold left_of; rewrite MN; simpl; lra).
  assert (RI : right_of (m_embed (m_init p_neg)) s 0 = 2) by (unfold right_of; rewrite MX; simpl; lra).
  split; [intros i Hi; destruct i as [|[|[|]]]; [rewrite D0|rewrite D1|rewrite D2|lia]; simpl; lra|].
  rewrite !energy3.
  - cbv zeta. rewrite D0, D1, D2.
    assert (DS : forall i, (i < 3)%nat -> table_density fmt3 true (m_init (m_update (m_init p_neg) false (-1) (left_of (m_embed (m_init p_neg)) s) (right_of (m_embed (m_init p_neg)) s))) (bent 0) elbow cube elbow_list i =
      -1 * table_density fmt3 true (m_init p_neg) (bent 0) elbow cube elbow_list i).
    { intros i Hi. apply (density_scaled fmt3 p_neg 1); [apply p_neg_ok|change (0 < 1)%nat; lia|].
      intros v IN. split; [change (0 < 1)%nat; lia|]. intros E. pose proof (bent_dist i v Hi IN) as H. unfold dist in H. rewrite E in H. unfold norm, sprod in H; simpl in H.
      replace (0 * 0 + 0 * 0 + 0 * 0) with 0 in H by ring. rewrite sqrt_0 in H. lra. }
    rewrite !DS, D0, D1, D2 by lia. split.
    + unfold F_at. change (mem (m_init p_neg) 0) with (spl true true (two (-10) 0 100 0 (-20) 0)). rewrite !(two_ev fmt3 (-10) 0 100 0 (-20) 0 0 0 1 0 ltac:(lra) p_neg_cubic) by lra.
      cbn [or0]. unfold cub. ring.
    + unfold F_at. change (mem (m_init (m_update (m_init p_neg) false (-1) (left_of (m_embed (m_init p_neg)) s) (right_of (m_embed (m_init p_neg)) s))) 0) with
        (spl true true (scaled_em false (-1) (left_of (m_embed (m_init p_neg)) s 0) (right_of (m_embed (m_init p_neg)) s 0) (resampled (spl true true (two (-10) 0 100 0 (-20) 0)) (left_of (m_embed (m_init p_neg)) s 0) (right_of (m_embed (m_init p_neg)) s 0)))).
      rewrite LE, RI. fold w_neg.
      assert (EV : forall r, -2 <= r < 5 -> ev fmt3 (spl true true w_neg) r = Some (cub (12 + 44 / 7 - 96 / 49) (4 + 44 / 7 - 144 / 49) (11 / 7 - 72 / 49) (- (12 / 49)) r)).
      { intros r Hr. apply (cubic_eval fmt3 (spl true true w_neg)); [apply ok_any; exact w_neg_ok|apply (spl_solved true true); exact w_neg_ok|exact w_neg_cubic|].
        change (-1 * 2 <= r < -1 * -5). lra. }
      rewrite !EV by lra. cbn [or0]. unfold cub. field.
  - intros r Hr. unfold phi_at. cbn. rewrite spl_twice by (first [apply two_ok; lra|cbn; lra]). apply cst_at. auto.
  - intros r Hr. unfold phi_at. cbn. apply cst_at. auto.
Qed.
End Neg.

(** ** embedding functions that are not cubic: between the points *)
Definition p_mid : mpot := mk_mpot (fun _ _ => cst 0) (fun _ => cst 0) (fun _ => wf) (fun _ _ => cst 0) (fun _ => cst 0).
Lemma p_mid_ok : forall fmt3 a, columns_ok fmt3 p_mid 1 a.
Proof.
  intros fmt3 a t T. unfold p_mid, cst; cbn [mtr mgg mff mph].
  assert (S0 : scalable a 0) by (right; split; [apply small_natural; lra|rewrite Rmult_0_l; apply small_natural; lra]).
  do 3 (split; [first [apply two_ok; lra|exact S0]|]). do 3 (split; [first [apply two_ok; lra|exact S0]|]). split; [cbn; lra|]. intros u U. split; apply two_ok; lra.
Qed.
Lemma p_mid_density : forall fmt3, let rho := table_density fmt3 true (m_init p_mid) (bent 0) elbow cube elbow_list in rho 0%nat = 0 /\ rho 1%nat = 0 /\ rho 2%nat = 0.
Proof.
  intros fmt3. destruct (bent_const fmt3 true (m_init p_mid) 0 0 0) as (A & B & C).
  - unfold mdens, m_init, p_mid; cbn [mtr]. apply cst_at. lra.
  - unfold mreach, below_end; cbn. destruct (Rlt_dec (1 / 10) 1); [auto|lra].
  - unfold mfv, m_init, p_mid; cbn [mff]. apply cst_at. lra.
  - unfold min2, below_end; cbn. destruct (Rlt_dec (1 / 10) 1); [auto|lra].
  - unfold mgv, m_init, p_mid; cbn [mgg]. apply cst_at. lra.
  - cbv zeta. rewrite A, B, C. repeat split; ring.
Qed.
Lemma w6_mid : ev true (spl true true w6) 0 = Some (- (5 / 10000)).
Proof.
  destruct w6_vals as (_ & V1 & V2 & _ & _ & _).
  destruct (eval_in true (spl true true w6) w6_ok 0) as (k & K & I & -> & _).
  { change (1 * - (3 / 10) <= 0 < 1 * (3 / 10)). lra. }
  change (npts (spl true true w6)) with 4%nat in K. apply (slot1 k K) in I. subst k. f_equal. unfold pv, splint_dir. rewrite !w6_curv by lia.
  change (nodes (spl true true w6)) with (nodes w6). change (vals (spl true true w6)) with (vals w6). cbn [Nat.add]. rewrite !w6_nodes, V1, V2 by lia. simpl. field.
Qed.
Theorem between_energy :
  let p := m_init p_mid in let r := m_rescale true true 1 bent 1 (fun _ => 0) p_mid (3 / 10) true in let q := m_init (snd r) in
  full_geometry (bent 0) elbow cube (fun _ _ => 12/100) /\ (forall a, (a < 3)%nat -> all_neighbors (bent 0) elbow cube (fun _ _ => 12/100) a (elbow_list a)) /\
  columns_ok true p_mid 1 (fst r) /\ ok true (mem p_mid 0%nat) /\ fst r = 1 /\
  (forall i, (i < 3)%nat -> begin (col (mem p_mid 0%nat)) < table_density true true p (bent 0) elbow cube elbow_list i < endr (col (mem p_mid 0%nat))) /\
  table_energy true true p (bent 0) elbow cube elbow_list = 0 /\ table_energy true true q (bent 0) elbow cube elbow_list = - (15 / 10000).
Proof.
  cbv zeta. pose proof thousand as TH. destruct (p_mid_density true) as (D0 & D1 & D2). cbv zeta in D0, D1, D2.
  destruct (bent_scan true true p_mid (fun _ => 0) 0 0) as [MN MX]; try lra.
  { intros i Hi. destruct i as [|[|[|]]]; [rewrite D0|rewrite D1|rewrite D2|lia]; lra. }
  rewrite m_needed by reflexivity. cbn [fst snd].
  set (s := m_found true true (m_init p_mid) bent 1 (fun _ => 0)) in *.
  destruct (one_type (m_embed (m_init p_mid)) (3 / 10) s 0 0 MN MX) as [O _]; try lra. destruct (O ltac:(lra)) as [U F].
  assert (A : factor 1 (m_embed (m_init p_mid)) (3 / 10) s = 1) by (rewrite F; simpl; field). rewrite U, A.
  split; [exact bent_full|]. split; [intros; apply bent_ex; auto|]. split; [apply p_mid_ok|]. split; [apply wf_ok|]. split; [auto|].
  assert (LE : left_of (m_embed (m_init p_mid)) s 0 = - (3 / 10)) by (unfold left_of; rewrite MN; simpl; lra).
  assert (RI : right_of (m_embed (m_init p_mid)) s 0 = 3 / 10) by (unfold right_of; rewrite MX; simpl; lra).
  split; [intros i Hi; destruct i as [|[|[|]]]; [rewrite D0|rewrite D1|rewrite D2|lia]; simpl; lra|].
  rewrite !energy3.
  - cbv zeta. rewrite D0, D1, D2.
    assert (DS : forall i, (i < 3)%nat -> table_density true true (m_init (m_update (m_init p_mid) true 1 (left_of (m_embed (m_init p_mid)) s) (right_of (m_embed (m_init p_mid)) s))) (bent 0) elbow cube elbow_list i =
      1 * table_density true true (m_init p_mid) (bent 0) elbow cube elbow_list i).
    { intros i Hi. apply (density_scaled true p_mid 1); [apply p_mid_ok|change (0 < 1)%nat; lia|].
      intros v IN. split; [change (0 < 1)%nat; lia|]. intros E. pose proof (bent_dist i v Hi IN) as H. unfold dist in H. rewrite E in H. unfold norm, sprod in H; simpl in H.
      replace (0 * 0 + 0 * 0 + 0 * 0) with 0 in H by ring. rewrite sqrt_0 in H. lra. }
    rewrite !DS, D0, D1, D2 by lia. rewrite Rmult_0_r. split.
    + unfold F_at. change (mem (m_init p_mid) 0) with (spl true true wf). rewrite wf_at0. cbn [or0]. ring.
    + unfold F_at. change (mem (m_init (m_update (m_init p_mid) true 1 (left_of (m_embed (m_init p_mid)) s) (right_of (m_embed (m_init p_mid)) s))) 0) with
        (spl true true (scaled_em true 1 (left_of (m_embed (m_init p_mid)) s 0) (right_of (m_embed (m_init p_mid)) s 0) (resampled (spl true true wf) (left_of (m_embed (m_init p_mid)) s 0) (right_of (m_embed (m_init p_mid)) s 0)))).
      rewrite LE, RI. fold w6. rewrite w6_mid. cbn [or0]. field.
  - intros r Hr. unfold phi_at. cbn. rewrite spl_twice by (first [apply two_ok; lra|cbn; lra]). apply cst_at. auto.
  - intros r Hr. unfold phi_at. cbn. apply cst_at. auto.
Qed.

(** ** format 4: points that are not equidistant, with second derivatives for equidistant ones *)
Definition at4 (x : R) : nat -> R := fun k => match k with 2%nat => 0 | 3%nat => x | _ => 3 end.
Definition col4 (x : R) : fn := mk_fn (mk_col 0 3 (3 / 2) (1 / (3 / 2)) 2 4 (at4 x) (fun _ => 0)) (at4 1) (10 ^ 30) (10 ^ 30).
Lemma col4_ok : ok false (col4 1) /\ ok true (col4 (3 / 2)).
Proof.
  split.
  - split; [|discriminate]. split; [cbn; lia|]. split; [cbn; lra|]. split; [cbn; lra|]. intros i Hi. cbn in Hi. assert (i = 2 \/ i = 3)%nat as [-> | ->] by lia; cbn; lra.
  - split; [split; [cbn; lia|]; split; [cbn; lra|]; split; [cbn; lra|]; intros i Hi; cbn in Hi; assert (i = 2 \/ i = 3)%nat as [-> | ->] by lia; cbn; lra|].
    intros _. split; [split; [cbn; lra|]; split; [reflexivity|]; split; [cbn; lia|cbn; lra]|].
    intros i Hi. change (i < 3)%nat in Hi. destruct i as [|[|[|]]]; [cbn; lra|cbn; lra|cbn; lra|lia].
Qed.
Lemma col4_curv : curv (spl true true (col4 1)) 0%nat = 0 /\ curv (spl true true (col4 1)) 1%nat = 2 / 3 /\ curv (spl true true (col4 1)) 2%nat = 0.
Proof.
  change (curv (spl true true (col4 1))) with (curv (spl true true (col4 (3 / 2)))).
  pose proof (spl_solved true true (col4 (3 / 2)) (proj2 col4_ok)) as SV. unfold solved in SV. change (npts (spl true true (col4 (3 / 2)))) with 3%nat in SV.
  cbn [right_slope] in SV. change (sl (spl true true (col4 (3 / 2)))) with E30 in SV. change (sr (spl true true (col4 (3 / 2)))) with E30 in SV.
  rewrite endc_none in SV by apply E29_NATURAL. destruct SV as [M Le Ri]. cbv beta iota in Le, Ri. cbn [Nat.sub] in Ri. specialize (M 1%nat ltac:(lia)). cbn [Nat.sub Nat.add] in M.
  split; [exact Le|]. split; [|exact Ri]. rewrite Le, Ri in M.
  assert (RH : rhs (nodes (spl true true (col4 (3 / 2)))) (vals (spl true true (col4 (3 / 2)))) 1 = 4 / 3) by (unfold rhs, nodes, vals, spl, col4, at4; cbn [col first xcoord val Nat.add Nat.sub]; field).
  rewrite RH, !Rmult_0_r in M. lra.
Qed.
(** the points of a straight line: the value between them is off the line, and the derivative jumps *)
Theorem format4_line :
  (forall i, (i < npts (col4 1))%nat -> vals (col4 1) i = nodes (col4 1) i) /\
  ev false (spl true true (col4 1)) (1 / 2) = Some (1 / 2 - 1 / 24) /\
  (forall r, 0 <= r < 1 -> evg false (spl true true (col4 1)) r = Some (8 / 9 + r * r / 3)) /\
  (forall r, 1 <= r < 3 -> evg false (spl true true (col4 1)) r = Some (11 / 9 - (3 - r) * (3 - r) / 6)).
Proof.
  split; [|].
  { intros i Hi. change (i < 3)%nat in Hi. destruct i as [|[|[|]]]; [reflexivity|reflexivity|reflexivity|lia]. }
  assert (O : ok false (spl true true (col4 1))) by exact (proj1 col4_ok).
  destruct col4_curv as (C0 & C1 & C2).
  assert (N : nodes (spl true true (col4 1)) 0%nat = 0 /\ nodes (spl true true (col4 1)) 1%nat = 1 /\ nodes (spl true true (col4 1)) 2%nat = 3) by (repeat split).
  assert (V : vals (spl true true (col4 1)) 0%nat = 0 /\ vals (spl true true (col4 1)) 1%nat = 1 /\ vals (spl true true (col4 1)) 2%nat = 3) by (repeat split).
  destruct N as (N0 & N1 & N2). destruct V as (V0 & V1 & V2).
  split; [|split].
  - destruct (eval_in false (spl true true (col4 1)) O (1 / 2)) as (k & K & I & -> & _); [change (0 <= 1 / 2 < 3); lra|].
    change (npts (spl true true (col4 1))) with 3%nat in K. assert (k = 0 \/ k = 1)%nat as [-> | ->] by lia; cbn [Nat.add] in I; rewrite ?N0, ?N1, ?N2 in I; [|lra].
    f_equal. unfold pv, splint_dir. cbn [Nat.add]. rewrite C0, C1, N0, N1, V0, V1. field.
  - intros r Hr. destruct (eval_in false (spl true true (col4 1)) O r) as (k & K & I & _ & -> & _); [change (0 <= r < 3); lra|].
    change (npts (spl true true (col4 1))) with 3%nat in K. assert (k = 0 \/ k = 1)%nat as [-> | ->] by lia; cbn [Nat.add] in I; rewrite ?N0, ?N1, ?N2 in I; [|lra].
    f_equal. unfold pg, splint_grad_dir. cbn [Nat.add]. rewrite C0, C1, N0, N1, V0, V1. field.
  - intros r Hr. destruct (eval_in false (spl true true (col4 1)) O r) as (k & K & I & _ & -> & _); [change (0 <= r < 3); lra|].
    change (npts (spl true true (col4 1))) with 3%nat in K. assert (k = 0 \/ k = 1)%nat as [-> | ->] by lia; cbn [Nat.add] in I; rewrite ?N0, ?N1, ?N2 in I; [lra|].
    f_equal. unfold pg, splint_grad_dir. cbn [Nat.add]. rewrite C1, C2, N1, N2, V1, V2. field.
Qed.
