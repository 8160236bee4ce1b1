(** Rescaling of MEAM potentials: types without atoms; an example. *)
From Coq Require Import Reals ZArith List Bool Lia Lra.
From Verif Require Import Vec NbrModel NbrProof3 LoopUtil PairModel PairSpec PairProof3 ThreeSpec ThreeProof AngSpec MeamSpec SwProof4 SwProof5 AngProof2
  SplineModel SplineProof SplineProof2 RescaleModel RescaleProof2 RescaleProof3 RescaleProof4 RmeamModel RmeamSpec RmeamProof RmeamProof2 RmeamProof3 RmeamProof4 RmeamProof5 RmeamProof6 RmeamProof7.
Import ListNotations.
Local Open Scope R_scope.

(** a type without atoms gets an interval that is the wrong way round *)
Theorem absent_reversed : forall fmt3 slots nt cs nconf r0 p0 upper flag t,
  (forall ci, cnfstart (cs (S ci)) = (cnfstart (cs ci) + inconf (cs ci))%nat) ->
  (forall ci a, (ci < nconf)%nat -> (cnfstart (cs ci) <= a < cnfstart (cs ci) + inconf (cs ci))%nat -> typ (cs ci) a <> t) ->
  0 < step (col (mem p0 t)) < 10 ^ 100 -> (first (col (mem p0 t)) < last (col (mem p0 t)))%nat ->
  let s := m_found fmt3 slots (m_init p0) cs nconf r0 in
  let r := m_rescale fmt3 slots nt cs nconf r0 p0 upper flag in
  needed nt (m_embed (m_init p0)) upper s flag = true ->
  upwards nt s = true /\ 0 < fst r \/ upwards nt s = false /\ fst r < 0 ->
  endr (col (mem (snd r) t)) < begin (col (mem (snd r) t)) /\ step (col (mem (snd r) t)) < 0.
Proof.
  intros fmt3 slots nt cs nconf r0 p0 upper flag t CONT AB ST LT. cbv zeta. intros NEED SG. revert SG. rewrite m_needed by auto. cbn [fst snd]. intros SG.
  set (s := m_found fmt3 slots (m_init p0) cs nconf r0) in *. set (a := factor nt (m_embed (m_init p0)) upper s) in *.
  destruct (m_scan_absent (mdens fmt3 (m_init p0)) (mreach (m_init p0)) (mfv fmt3 (m_init p0)) (min2 (m_init p0)) (mgv fmt3 slots (m_init p0)) cs nconf CONT r0 t AB) as [MX MN].
  change (maxrho s t = - 10 ^ 100) in MX. change (minrho s t = 10 ^ 100) in MN.
  assert (LR : right_of (m_embed (m_init p0)) s t < left_of (m_embed (m_init p0)) s t).
  { unfold left_of, right_of. rewrite MX, MN. change (step (col (em (m_embed (m_init p0)) t))) with (step (col (mem p0 t))). lra. }
  cbn [m_update mem]. unfold scaled_em, resampled. change (first (col (mem (m_init p0) t))) with (first (col (mem p0 t))). change (last (col (mem (m_init p0) t))) with (last (col (mem p0 t))).
  assert (D : (right_of (m_embed (m_init p0)) s t - left_of (m_embed (m_init p0)) s t) / INR (last (col (mem p0 t)) - first (col (mem p0 t))) < 0).
  { assert (P : 0 < / INR (last (col (mem p0 t)) - first (col (mem p0 t)))) by (apply Rinv_0_lt_compat, lt_0_INR; lia). unfold Rdiv. nra. }
  destruct SG as [[-> A]|[-> A]]; cbn [col begin endr step first last];
    change (first (col (mem (m_init p0) t))) with (first (col (mem p0 t))); change (last (col (mem (m_init p0) t))) with (last (col (mem p0 t))); split; nra.
Qed.

(** ** an example with positive densities *)
Definition p_pos : mpot := mk_mpot (fun _ _ => cst 0) (fun _ => cst 1) (fun _ => two 0 10 0 100 0 20) (fun _ _ => cst 0) (fun _ => cst 0).
Lemma p_pos_ok : forall fmt3 a, columns_ok fmt3 p_pos 1 a.
Proof.
  intros fmt3 a t T. unfold p_pos, cst; cbn [mtr mgg mff mph].
  assert (S0 : scalable a 0) by (right; split; [apply small_natural; lra|rewrite Rmult_0_l; apply small_natural; lra]).
  do 3 (split; [first [apply two_ok; lra|exact S0]|]). do 3 (split; [first [apply two_ok; lra|exact S0]|]). split; [cbn; lra|]. intros u U. split; apply two_ok; lra.
Qed.
Lemma p_pos_cubic : cubic_column (mem p_pos 0%nat) 0 0 1 0.
Proof. apply two_cubic; unfold cub, cub1; lra. Qed.
Lemma p_pos_density : forall fmt3, let rho := table_density fmt3 true (m_init p_pos) (bent 0) elbow cube elbow_list in rho 0%nat = 2 /\ rho 1%nat = 1 /\ rho 2%nat = 1.
Proof.
  intros fmt3. destruct (bent_const fmt3 true (m_init p_pos) 1 0 0) as (A & B & C).
  - unfold mdens, m_init, p_pos; cbn [mtr]. apply cst_at. lra.
  - unfold mreach, below_end; cbn. destruct (Rlt_dec (1 / 10) 1); [auto|lra].
  - unfold mfv, m_init, p_pos; cbn [mff]. apply cst_at. lra.
  - unfold min2, below_end; cbn. destruct (Rlt_dec (1 / 10) 1); [auto|lra].
  - unfold mgv, m_init, p_pos; cbn [mgg]. apply cst_at. lra.
  - cbv zeta. rewrite A, B, C. repeat split; ring.
Qed.
Theorem p_pos_ex : forall fmt3, let p := m_init p_pos in let s := m_found fmt3 true p bent 1 (fun _ => 0) in let a := factor 1 (m_embed p) 10 s in
  (forall ci, cnfstart (bent (S ci)) = (cnfstart (bent ci) + inconf (bent ci))%nat) /\
  (forall ci, (ci < 1)%nat -> full_geometry (bent ci) elbow cube (fun _ _ => 12/100)) /\
  (forall ci x, atom_of bent 1 ci x -> all_neighbors (bent ci) elbow cube (fun _ _ => 12/100) x (elbow_list x)) /\
  (forall ci x, atom_of bent 1 ci x -> (typ (bent ci) x < 1)%nat) /\
  (forall t, (t < 1)%nat -> exists ci x, atom_of bent 1 ci x /\ typ (bent ci) x = t) /\
  (forall ci x, atom_of bent 1 ci x -> Rabs (table_density fmt3 true p (bent ci) elbow cube elbow_list x) < 10 ^ 100) /\
  (forall t, (t < 1)%nat -> 0 < step (col (mem p_pos t))) /\ 0 < 10 /\ (0 < 1)%nat /\
  needed 1 (m_embed p) 10 s true = true /\ columns_ok fmt3 p_pos 1 a /\
  (forall t, (t < 1)%nat -> ok true (mem p_pos t) /\ cubic_column (mem p_pos t) 0 0 1 0 /\
    forall u, u = left_of (m_embed p) s t \/ u = (left_of (m_embed p) s t + right_of (m_embed p) s t) / 2 \/ u = right_of (m_embed p) s t ->
    Rabs (cub1 0 1 0 u) < E29 / 2 /\ Rabs (cub1 0 1 0 u / a) < E29 / 2) /\
  (forall ci x, atom_of bent 1 ci x -> let u := table_density fmt3 true p (bent ci) elbow cube elbow_list x in
    begin (col (mem p_pos (typ (bent ci) x))) <= u < endr (col (mem p_pos (typ (bent ci) x)))) /\
  upwards 1 s = true /\ a = 2 /\ table_density fmt3 true p (bent 0) elbow cube elbow_list 0 = 2.
Proof.
  intros fmt3. cbv zeta. pose proof thousand as TH. pose proof thousand29 as TH2. destruct (p_pos_density fmt3) as (D0 & D1 & D2). cbv zeta in D0, D1, D2.
  destruct (bent_scan fmt3 true p_pos (fun _ => 0) 1 2) as [MN MX]; try lra.
  { intros i Hi. destruct i as [|[|[|]]]; [rewrite D0|rewrite D1|rewrite D2|lia]; lra. }
  set (s := m_found fmt3 true (m_init p_pos) bent 1 (fun _ => 0)) in *.
  destruct (one_type (m_embed (m_init p_pos)) 10 s 1 2 MN MX) as [O _]; try lra. destruct (O ltac:(lra)) as [U F].
  assert (A : factor 1 (m_embed (m_init p_pos)) 10 s = 2) by (rewrite F; simpl; field). rewrite A.
  split; [exact (proj1 bent_ex)|]. split; [exact bent_FG|]. split; [exact bent_HL|]. split; [intros ci x X; apply bent_atoms in X; destruct X as [-> _]; change (0 < 1)%nat; lia|].
  split; [intros t T; exists 0%nat, 0%nat; split; [apply bent_atom; lia|change (0%nat = t); lia]|].
  split. { intros ci x X. apply bent_atoms in X. destruct X as [-> X]. destruct x as [|[|[|]]]; [rewrite D0|rewrite D1|rewrite D2|lia]; apply Rabs_def1; lra. }
  split; [intros; cbn; lra|]. split; [lra|]. split; [lia|]. split; [reflexivity|]. split; [apply p_pos_ok|].
  assert (LE : left_of (m_embed (m_init p_pos)) s 0 = -2) by (unfold left_of; rewrite MN; simpl; lra).
  assert (RI : right_of (m_embed (m_init p_pos)) s 0 = 5) by (unfold right_of; rewrite MX; simpl; lra).
  split. { intros t T. assert (t = 0%nat) by lia. subst. split; [apply two_ok; lra|]. split; [exact p_pos_cubic|]. rewrite LE, RI. intros u [-> |[-> | ->]]; unfold cub1; split; apply Rabs_def1; lra. }
  split. { intros ci x X. apply bent_atoms in X. destruct X as [-> X]. change (typ (bent 0) x) with 0%nat. destruct x as [|[|[|]]]; [rewrite D0|rewrite D1|rewrite D2|lia]; simpl; lra. }
  auto.
Qed.
Theorem format4_refuted : exists f, ok false f /\ step (col f) = (endr (col f) - begin (col f)) / INR (npts f - 1) /\ NATURAL < sl f /\ NATURAL < sr f /\
  (forall i, (i < npts f)%nat -> vals f i = nodes f i) /\
  ev false (spl true true f) (1 / 2) = Some (1 / 2 - 1 / 24) /\
  (forall r, 0 <= r < 1 -> evg false (spl true true f) r = Some (8 / 9 + r * r / 3)) /\
  (forall r, 1 <= r < 3 -> evg false (spl true true f) r = Some (11 / 9 - (3 - r) * (3 - r) / 6)).
Proof.
  exists (col4 1). split; [exact (proj1 col4_ok)|]. split; [cbn; field|]. destruct E29_NATURAL as (_ & _ & E3). split; [exact E3|]. split; [exact E3|]. exact format4_line.
Qed.
(** two types, atoms of the first only *)
Theorem absent_ex : forall fmt3, let s := m_found fmt3 true (m_init p_pos) bent 1 (fun _ => 0) in let r := m_rescale fmt3 true 2 bent 1 (fun _ => 0) p_pos 10 true in
  (forall ci a, (ci < 1)%nat -> (cnfstart (bent ci) <= a < cnfstart (bent ci) + inconf (bent ci))%nat -> typ (bent ci) a <> 1%nat) /\
  0 < step (col (mem p_pos 1%nat)) < 10 ^ 100 /\ (first (col (mem p_pos 1%nat)) < last (col (mem p_pos 1%nat)))%nat /\
  needed 2 (m_embed (m_init p_pos)) 10 s true = true /\ upwards 2 s = true /\ 0 < fst r.
Proof.
  intros fmt3. cbv zeta. pose proof thousand as TH. destruct (p_pos_density fmt3) as (D0 & D1 & D2). cbv zeta in D0, D1, D2.
  destruct (bent_scan fmt3 true p_pos (fun _ => 0) 1 2) as [MN MX]; try lra.
  { intros i Hi. destruct i as [|[|[|]]]; [rewrite D0|rewrite D1|rewrite D2|lia]; lra. }
  rewrite m_needed by reflexivity. cbn [fst].
  set (s := m_found fmt3 true (m_init p_pos) bent 1 (fun _ => 0)) in *.
  assert (AB : forall ci a, (ci < 1)%nat -> (cnfstart (bent ci) <= a < cnfstart (bent ci) + inconf (bent ci))%nat -> typ (bent ci) a <> 1%nat).
  { intros ci a H _. assert (ci = 0%nat) by lia. subst. change (0 <> 1)%nat. lia. }
  destruct (m_scan_absent (mdens fmt3 (m_init p_pos)) (mreach (m_init p_pos)) (mfv fmt3 (m_init p_pos)) (min2 (m_init p_pos)) (mgv fmt3 true (m_init p_pos)) bent 1 (proj1 bent_ex) (fun _ => 0) 1%nat AB) as [MX1 MN1].
  change (maxrho s 1%nat = - 10 ^ 100) in MX1. change (minrho s 1%nat = 10 ^ 100) in MN1.
  assert (T : top 2 (maxrho s) = (2, 0%nat)).
  { unfold top, for_up; cbn [Nat.sub seq fold_left]. unfold find_max; cbn [fst]. rewrite MX, MX1. destruct (Rlt_dec (- 10 ^ 100) 2); [|lra]. cbn [fst]. destruct (Rlt_dec 2 (- 10 ^ 100)); [lra|auto]. }
  assert (Bo : bottom 2 (minrho s) = (1, 0%nat)).
  { unfold bottom, for_up; cbn [Nat.sub seq fold_left]. unfold find_min; cbn [fst]. rewrite MN, MN1. destruct (Rlt_dec 1 (10 ^ 100)); [|lra]. cbn [fst]. destruct (Rlt_dec (10 ^ 100) 1); [lra|auto]. }
  assert (U : upwards 2 s = true) by (unfold upwards; rewrite T, Bo; cbn [fst]; destruct (Rle_dec (- (1)) 2); [auto|lra]).
  split; [auto|]. split; [cbn [p_pos mem two col step]; lra|]. split; [cbn; lia|]. split; [reflexivity|]. split; [auto|].
  unfold factor. rewrite U, T. cbn [snd]. unfold right_of. rewrite MX. cbn. lra.
Qed.
