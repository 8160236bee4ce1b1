(** Rescaling of MEAM potentials: where densities or energies change. *)
From Coq Require Import Reals ZArith List Bool Lia Lra.
From Verif Require Import Vec NbrModel NbrProof3 LoopUtil PairModel PairSpec PairProof3 ThreeSpec ThreeProof AngSpec MeamSpec SwProof4 SwProof5 SwProof AngProof2 MeamProof5
  SplineModel SplineProof SplineProof2 SplineProof3 SplineProof4 SplineProof5
  RescaleModel RescaleProof2 RescaleProof3 RescaleProof4 RescaleProof6 RescaleProof9 RmeamModel RmeamSpec RmeamProof RmeamProof2 RmeamProof3 RmeamProof4 RmeamProof5.
Import ListNotations.
Local Open Scope R_scope.

(** ** columns with two points *)
Definition two (b e : R) (y0 y1 s0 s1 : R) : fn :=
  mk_fn (mk_col b e (e - b) (1 / (e - b)) 2 3 (fun k => b + (INR k - 2) * (e - b)) (fun _ => 0)) (fun k => if Nat.eqb k 2 then y0 else y1) s0 s1.
Lemma two_ok : forall fmt3 b e y0 y1 s0 s1, b < e -> ok fmt3 (two b e y0 y1 s0 s1).
Proof.
  intros fmt3 b e y0 y1 s0 s1 H. apply ok_any. unfold ok, listed, equidistant, npts, nodes, two; cbn [col begin endr step invstep first last xcoord]. split.
  - split; [lia|]. split; [simpl; lra|]. split; [simpl; lra|]. intros i _. rewrite S_INR. nra.
  - intros _. split; [split; [lra|]; split; [auto|]; split; [lia|simpl; lra]|]. intros i Hi. rewrite plus_INR. simpl. ring.
Qed.
Lemma small_natural : forall x, x <= 1000 -> x <= NATURAL.
Proof. intros x H. unfold NATURAL. assert (K : 10 ^ 3 <= 10 ^ 28) by (apply Rle_pow; [lra|lia]). lra. Qed.
Lemma two_cubic : forall b e y0 y1 s0 s1 p0 p1 p2 p3, y0 = cub p0 p1 p2 p3 b -> y1 = cub p0 p1 p2 p3 e -> s0 = cub1 p1 p2 p3 b -> s1 = cub1 p1 p2 p3 e -> s0 <= 1000 -> s1 <= 1000 ->
  cubic_column (two b e y0 y1 s0 s1) p0 p1 p2 p3.
Proof.
  intros b e y0 y1 s0 s1 p0 p1 p2 p3 Y0 Y1 S0 S1 N0 N1. split; [|split; [exact S0|split; [exact S1|split; apply small_natural; auto]]].
  intros i Hi. unfold npts, two in Hi; cbn [col first last] in Hi. assert (i = 0 \/ i = 1)%nat as [-> | ->] by lia; unfold vals, nodes, two; cbn [col first xcoord val Nat.add Nat.eqb].
  - rewrite Y0. f_equal. simpl. ring.
  - rewrite Y1. f_equal. simpl. ring.
Qed.
Lemma two_ev : forall fmt3 b e y0 y1 s0 s1 p0 p1 p2 p3, b < e -> cubic_column (two b e y0 y1 s0 s1) p0 p1 p2 p3 -> forall r, b <= r < e ->
  ev fmt3 (spl true true (two b e y0 y1 s0 s1)) r = Some (cub p0 p1 p2 p3 r).
Proof.
  intros fmt3 b e y0 y1 s0 s1 p0 p1 p2 p3 BE C r Hr.
  apply (cubic_eval fmt3 (spl true true (two b e y0 y1 s0 s1)) p0 p1 p2 p3); auto.
  - exact (two_ok fmt3 b e y0 y1 s0 s1 BE).
  - apply (spl_solved true true). apply two_ok. auto.
Qed.
(** constants *)
Definition cst (c : R) : fn := two (-1) 1 c c 0 0.
Lemma cst_at : forall fmt3 c r, -1 <= r < 1 -> at_slot fmt3 (spl true true (cst c)) r = c.
Proof.
  intros fmt3 c r Hr. assert (O : ok fmt3 (spl true true (cst c))) by exact (two_ok fmt3 (-1) 1 c c 0 0 ltac:(lra)).
  pose proof (at_slot_ev fmt3 _ r O Hr) as E.
  unfold cst in E at 1. rewrite (two_ev fmt3 (-1) 1 c c 0 0 c 0 0 0) in E; auto; [injection E as <-; unfold cub; ring|lra|].
  apply two_cubic; unfold cub, cub1; try ring; lra.
Qed.

(** ** three atoms at a right angle *)
Lemma bent_const : forall fmt3 slots p T V G, mdens fmt3 p 0 (1 / 10) = T -> mreach p 0 (1 / 10) = true -> mfv fmt3 p 0 0 (1 / 10) = V -> min2 p 0 0 (1 / 10) = true ->
  mgv fmt3 slots p 0 0 = G -> let rho := table_density fmt3 slots p (bent 0) elbow cube elbow_list in
  rho 0%nat = 2 * T + V * V * G /\ rho 1%nat = T /\ rho 2%nat = T.
Proof.
  intros fmt3 slots p T V G H1 H2 H3 H4 H5. cbv zeta.
  assert (D1 := bent_dist 0 (1%nat, O3) ltac:(lia) ltac:(simpl; auto)). assert (D2 := bent_dist 0 (2%nat, O3) ltac:(lia) ltac:(simpl; auto)).
  assert (D3 := bent_dist 1 (0%nat, O3) ltac:(lia) ltac:(simpl; auto)). assert (D4 := bent_dist 2 (0%nat, O3) ltac:(lia) ltac:(simpl; auto)).
  assert (C1 := elbow_cos). assert (C2 : cosine elbow cube 0 (2%nat, O3) (1%nat, O3) = 0) by (rewrite (cos_sym' elbow cube); exact C1).
  unfold table_density, meam_density, at_, ang, off, others, rsumf, Vec.rsum.
  cbn [elbow_list map fold_right filter same Nat.eqb Z.eqb andb negb fst]. cbn [map fold_right filter same Nat.eqb Z.eqb andb negb fst Pos.eqb].
  rewrite ?D1, ?D2, ?D3, ?D4, ?C1, ?C2. change (typ (bent 0) 0) with 0%nat. change (typ (bent 0) 1) with 0%nat. change (typ (bent 0) 2) with 0%nat.
  rewrite H1, H2, H3, H4, H5. repeat split; field.
Qed.
Lemma bent_atoms : forall ci x, atom_of bent 1 ci x -> ci = 0%nat /\ (x < 3)%nat.
Proof. intros ci x [H K]. assert (ci = 0%nat) by lia. subst. change (0 <= x < 0 + 3)%nat in K. lia. Qed.
Lemma bent_HL : forall ci a, atom_of bent 1 ci a -> all_neighbors (bent ci) elbow cube (fun _ _ => 12/100) a (elbow_list a).
Proof. intros ci a H. apply bent_atoms in H. destruct H as [-> H]. apply bent_ex. auto. Qed.
Lemma bent_FG : forall ci, (ci < 1)%nat -> full_geometry (bent ci) elbow cube (fun _ _ => 12/100).
Proof. intros ci H. assert (ci = 0%nat) by lia. subst. exact bent_full. Qed.
Lemma bent_atom : forall x, (x < 3)%nat -> atom_of bent 1 0 x.
Proof. intros x H. split; [lia|]. change (0 <= x < 0 + 3)%nat. lia. Qed.
(** extremes of the scan *)
Lemma bent_scan : forall fmt3 slots p0 r0, let p := m_init p0 in let rho := table_density fmt3 slots p (bent 0) elbow cube elbow_list in
  let s := m_found fmt3 slots p bent 1 r0 in forall mn mx, - 10 ^ 100 < mn -> mx < 10 ^ 100 ->
  (forall i, (i < 3)%nat -> mn <= rho i <= mx) -> rho 0%nat = mx /\ rho 1%nat = mn \/ rho 0%nat = mn /\ rho 1%nat = mx ->
  minrho s 0%nat = mn /\ maxrho s 0%nat = mx.
Proof.
  intros fmt3 slots p0 r0. cbv zeta. intros mn mx M1 M2 B AT.
  pose proof (found fmt3 slots bent 1 r0 p0 (proj1 bent_ex) elbow (fun _ => cube) (fun _ _ => 12/100) bent_FG (fun _ => elbow_list) bent_HL 0%nat) as F.
  destruct (extreme fmt3 slots 1 bent 1 r0 p0 (proj1 bent_ex) elbow (fun _ => cube) (fun _ _ => 12/100) bent_FG (fun _ => elbow_list) bent_HL) with (t := 0%nat)
    as (ci & x & cj & y & I & J & _ & _ & E1 & E2).
  - intros t T. exists 0%nat, 0%nat. split; [apply bent_atom; lia|]. change (0%nat = t). lia.
  - intros ck z Z. apply bent_atoms in Z. destruct Z as [-> Z]. specialize (B z Z). apply Rabs_def1; lra.
  - lia.
  - apply bent_atoms in I, J. destruct I as [-> I]. destruct J as [-> J].
    destruct (F 0%nat (bent_atom 0 ltac:(lia))) as (_ & F0). destruct (F 1%nat (bent_atom 1 ltac:(lia))) as (_ & F1).
    pose proof (B x I). pose proof (B y J).
    change (typ (bent 0) 0) with 0%nat in *. change (typ (bent 0) 1) with 0%nat in *.
    destruct AT as [[A1 A2]|[A1 A2]]; lra.
Qed.
(** one type: side and factor *)
Lemma one_type : forall p upper s mn mx, minrho s 0%nat = mn -> maxrho s 0%nat = mx -> - 10 ^ 100 < mx -> mn < 10 ^ 100 ->
  (- mn <= mx -> upwards 1 s = true /\ factor 1 p upper s = upper / (mx + 3 / 10 * step (col (em p 0%nat)))) /\
  (mx < - mn -> upwards 1 s = false /\ factor 1 p upper s = upper / (mn - 3 / 10 * step (col (em p 0%nat)))).
Proof.
  intros p upper s mn mx MN MX B1 B2.
  assert (T : top 1 (maxrho s) = (mx, 0%nat)).
  { unfold top, for_up; cbn [Nat.sub seq fold_left]. unfold find_max; cbn [fst]. rewrite MX. destruct (Rlt_dec (- 10 ^ 100) mx); [auto|lra]. }
  assert (Bo : bottom 1 (minrho s) = (mn, 0%nat)).
  { unfold bottom, for_up; cbn [Nat.sub seq fold_left]. unfold find_min; cbn [fst]. rewrite MN. destruct (Rlt_dec mn (10 ^ 100)); [auto|lra]. }
  unfold factor, upwards, right_of, left_of. rewrite T, Bo; cbn [fst snd]. rewrite MX, MN. split; intros H; destruct (Rle_dec (- mn) mx); try lra; auto.
Qed.
Lemma thousand : 1000 < 10 ^ 100.
Proof. assert (K : 10 ^ 4 <= 10 ^ 100) by (apply Rle_pow; [lra|lia]). lra. Qed.

(** ** 1. the angular part is not scaled in the builds that have the routine *)
Definition tilted : fn := two (-1) 1 0 0 1 0.
Definition p_tab : mpot := mk_mpot (fun _ _ => tilted) (fun _ => cst 1) (fun _ => two 0 10 0 100 0 20) (fun _ _ => cst 1) (fun _ => cst 1).
Lemma p_tab_density : forall fmt3 slots, let rho := table_density fmt3 slots (m_init p_tab) (bent 0) elbow cube elbow_list in rho 0%nat = 3 /\ rho 1%nat = 1 /\ rho 2%nat = 1.
Proof.
  intros fmt3 slots. destruct (bent_const fmt3 slots (m_init p_tab) 1 1 1) as (A & B & C).
  - unfold mdens, m_init, p_tab; cbn [mtr]. apply cst_at. lra.
  - unfold mreach, below_end; cbn. destruct (Rlt_dec (1 / 10) 1); [auto|lra].
  - unfold mfv, m_init, p_tab; cbn [mff]. apply cst_at. lra.
  - unfold min2, below_end; cbn. destruct (Rlt_dec (1 / 10) 1); [auto|lra].
  - unfold mgv. destruct slots; [|reflexivity]. unfold m_init, p_tab; cbn [mgg]. apply cst_at. lra.
  - cbv zeta. rewrite A, B, C. repeat split; ring.
Qed.
Lemma p_tab_ok : forall fmt3 a, Rabs a <= 1 -> columns_ok fmt3 p_tab 1 a.
Proof.
  intros fmt3 a A t T. unfold p_tab, cst, tilted; cbn [mtr mgg mff mph].
  assert (S0 : scalable a 0) by (right; split; [apply small_natural; lra|rewrite Rmult_0_l; apply small_natural; lra]).
  do 3 (split; [first [apply two_ok; lra|exact S0]|]). do 3 (split; [first [apply two_ok; lra|exact S0]|]). split; [cbn; lra|]. intros u U. split; apply two_ok; lra.
Qed.
Theorem density_not_scaled : forall fmt3,
  let p := m_init p_tab in let r := m_rescale fmt3 false 1 bent 1 (fun _ => 0) p_tab (6 / 10) true in let q := m_init (snd r) in
  let rho p := table_density fmt3 false p (bent 0) elbow cube elbow_list in
  full_geometry (bent 0) elbow cube (fun _ _ => 12/100) /\ (forall a, (a < 3)%nat -> all_neighbors (bent 0) elbow cube (fun _ _ => 12/100) a (elbow_list a)) /\
  columns_ok fmt3 p_tab 1 (fst r) /\ ok true (mem p_tab 0%nat) /\
  fst r = 1 / 10 /\ rho p 0%nat = 3 /\ rho q 0%nat = 12 / 10 /\ endr (col (mem q 0%nat)) = 6 / 10.
Proof.
  intros fmt3. cbv zeta. pose proof thousand as TH. destruct (p_tab_density fmt3 false) as (D0 & D1 & D2). cbv zeta in D0, D1, D2.
  destruct (bent_scan fmt3 false p_tab (fun _ => 0) 1 3) as [MN MX]; try lra.
  { intros i Hi. destruct i as [|[|[|]]]; [rewrite D0|rewrite D1|rewrite D2|lia]; lra. }
  rewrite m_needed by reflexivity. cbn [fst snd].
  set (s := m_found fmt3 false (m_init p_tab) bent 1 (fun _ => 0)) in *.
  destruct (one_type (m_embed (m_init p_tab)) (6 / 10) s 1 3 MN MX) as [O _]; try lra. destruct (O ltac:(lra)) as [U F].
  assert (A : factor 1 (m_embed (m_init p_tab)) (6 / 10) s = 1 / 10) by (rewrite F; simpl; field). rewrite U, A.
  split; [exact bent_full|]. split; [intros; apply bent_ex; auto|]. split; [apply p_tab_ok; rewrite Rabs_right; lra|]. split; [apply two_ok; lra|]. split; [auto|]. split; [auto|]. split.
  - rewrite (density_parts fmt3 p_tab 1 true (1 / 10) (left_of (m_embed (m_init p_tab)) s) (right_of (m_embed (m_init p_tab)) s)).
    + destruct (bent_const fmt3 false (m_init p_tab) 1 1 1) as (E0 & _).
      { unfold mdens, m_init, p_tab; cbn [mtr]. apply cst_at. lra. }
      { unfold mreach, below_end; cbn. destruct (Rlt_dec (1 / 10) 1); [auto|lra]. }
      { unfold mfv, m_init, p_tab; cbn [mff]. apply cst_at. lra. }
      { unfold min2, below_end; cbn. destruct (Rlt_dec (1 / 10) 1); [auto|lra]. }
      { reflexivity. }
      unfold table_density, meam_density in E0. 
      assert (P : rsumf (fun v => if mreach (m_init p_tab) (typ (bent 0) (fst v)) (dist elbow cube 0 v) then mdens fmt3 (m_init p_tab) (typ (bent 0) (fst v)) (dist elbow cube 0 v) else 0) (elbow_list 0) = 2).
      { assert (H1 := bent_dist 0 (1%nat, O3) ltac:(lia) ltac:(simpl; auto)). assert (H2 := bent_dist 0 (2%nat, O3) ltac:(lia) ltac:(simpl; auto)).
        unfold rsumf, Vec.rsum. cbn [elbow_list map fold_right fst]. rewrite H1, H2. change (typ (bent 0) 1) with 0%nat. change (typ (bent 0) 2) with 0%nat.
        assert (Q : mreach (m_init p_tab) 0 (1 / 10) = true) by (unfold mreach, below_end; cbn; destruct (Rlt_dec (1 / 10) 1); [auto|lra]). rewrite Q.
        unfold mdens, m_init, p_tab; cbn [mtr]. rewrite cst_at by lra. ring. }
      rewrite P in *. lra.
    + apply p_tab_ok. rewrite Rabs_right; lra.
    + change (0 < 1)%nat. lia.
    + intros v IN. split; [change (0 < 1)%nat; lia|]. intros E. pose proof (bent_dist 0 v ltac:(lia) IN) as H. unfold dist in H. rewrite E in H. unfold norm, sprod in H; simpl in H.
      replace (0 * 0 + 0 * 0 + 0 * 0) with 0 in H by ring. rewrite sqrt_0 in H. lra.
  - change (1 / 10 * right_of (m_embed (m_init p_tab)) s 0 = 6 / 10). unfold right_of. rewrite MX. simpl. field.
Qed.

(** ** 2. negative densities *)
Definition p_neg : mpot := mk_mpot (fun _ _ => cst 0) (fun _ => cst (-1)) (fun _ => two (-10) 0 100 0 (-20) 0) (fun _ _ => cst 0) (fun _ => cst 0).
Lemma p_neg_ok : forall fmt3 a, columns_ok fmt3 p_neg 1 a.
Proof.
  intros fmt3 a t T. unfold p_neg, cst; cbn [mtr mgg mff mph].
  assert (S0 : scalable a 0) by (right; split; [apply small_natural; lra|rewrite Rmult_0_l; apply small_natural; lra]).
  do 3 (split; [first [apply two_ok; lra|exact S0]|]). do 3 (split; [first [apply two_ok; lra|exact S0]|]). split; [cbn; lra|]. intros u U. split; apply two_ok; lra.
Qed.
Lemma p_neg_cubic : cubic_column (mem p_neg 0%nat) 0 0 1 0.
Proof. apply two_cubic; unfold cub, cub1; lra. Qed.
Lemma p_neg_density : forall fmt3, let rho := table_density fmt3 true (m_init p_neg) (bent 0) elbow cube elbow_list in rho 0%nat = -2 /\ rho 1%nat = -1 /\ rho 2%nat = -1.
Proof.
  intros fmt3. destruct (bent_const fmt3 true (m_init p_neg) (-1) 0 0) as (A & B & C).
  - unfold mdens, m_init, p_neg; cbn [mtr]. apply cst_at. lra.
  - unfold mreach, below_end; cbn. destruct (Rlt_dec (1 / 10) 1); [auto|lra].
  - unfold mfv, m_init, p_neg; cbn [mff]. apply cst_at. lra.
  - unfold min2, below_end; cbn. destruct (Rlt_dec (1 / 10) 1); [auto|lra].
  - unfold mgv, m_init, p_neg; cbn [mgg]. apply cst_at. lra.
  - cbv zeta. rewrite A, B, C. repeat split; ring.
Qed.
Lemma cst0_pairs : forall fmt3 p, (forall r, -1 <= r < 1 -> phi_at fmt3 p 0 0 r = 0) -> pair_energy (bent 0) elbow cube (phi_at fmt3 p) (phi_in p) elbow_list = 0.
Proof.
  intros fmt3 p H. unfold pair_energy. rewrite (rsumf_ext _ (fun _ => 0)).
  - unfold rsumf, Vec.rsum; cbn. ring.
  - intros x Hx. apply in_seq in Hx. change (cnfstart (bent 0)) with 0%nat in Hx. change (inconf (bent 0)) with 3%nat in Hx.
    rewrite (rsumf_ext _ (fun _ => 0)).
    + destruct x; unfold rsumf, Vec.rsum; cbn; ring.
    + intros v IN. unfold bond_energy. change (typ (bent 0) x) with 0%nat. change (typ (bent 0) (fst v)) with 0%nat. rewrite (bent_dist x v ltac:(lia) IN), H by lra. destruct (active _ _ _ _ _ _); auto.
Qed.
Lemma energy3 : forall fmt3 slots p, (forall r, -1 <= r < 1 -> phi_at fmt3 p 0 0 r = 0) ->
  table_energy fmt3 slots p (bent 0) elbow cube elbow_list = let rho := table_density fmt3 slots p (bent 0) elbow cube elbow_list in
  F_at fmt3 p 0 (rho 0%nat) + (F_at fmt3 p 0 (rho 1%nat) + F_at fmt3 p 0 (rho 2%nat)).
Proof.
  intros fmt3 slots p H. unfold table_energy. rewrite cst0_pairs by auto. change (cnfstart (bent 0)) with 0%nat. change (inconf (bent 0)) with 3%nat.
  unfold rsumf, Vec.rsum; cbn [seq map fold_right]. change (typ (bent 0)) with (fun _ : nat => 0%nat). cbv beta zeta. ring.
Qed.
