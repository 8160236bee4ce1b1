(** What the dipoles of the electrostatic routine are not. *)
From Coq Require Import Reals ZArith List Bool Lia Lra Permutation.
From Verif Require Import Vec NbrModel NbrProof NbrProof2 NbrProof3 LoopUtil PairModel PairProof PairSpec PairProof2 PairProof3 BondProof BoProof GradProof
  SwProof3 SwProof4 FuncModel ElSpec ElModel ElProof ElProof2 ElProof3 ElProof5 ElProof6 ElProof7 ElProof8 ElProof9.
Import ListNotations.
Local Open Scope R_scope.

Definition kinds (i : nat) : nat := i.
Definition pm1 (i : nat) : R := if Nat.eqb i 0 then 1 else -1.
Definition all_one (_ : nat) : R := 1.
Notation z2 := (fun _ _ : nat => 0).
Notation DC f := (duo kinds f).
Notation C0 f := (duo kinds f 0).
Lemma one_nz : forall i, all_one i <> 0.
Proof. intros. unfold all_one. lra. Qed.
Lemma zero_one : forall i, zero (all_one i) = false.
Proof. intros. unfold zero. destruct (Req_EM_T (all_one i) 0) as [Z|]; auto. destruct (one_nz _ Z). Qed.
Definition start (x y : R) : dip := mk_dip (fun _ => v0) (fun _ => v0) (along x y) (fun _ => v0) (fun _ => v0).

Lemma sqrt_less : forall x y, 0 < y -> x < y * y -> sqrt x < y.
Proof.
  intros x y Hy H. destruct (Rle_lt_dec x 0) as [N|P].
  - rewrite sqrt_neg_0 by auto. auto.
  - rewrite <- (sqrt_square y) by lra. apply sqrt_lt_1; lra.
Qed.
Lemma sqrt_more : forall x y, 0 <= y -> y * y <= x -> y <= sqrt x.
Proof. intros x y Hy H. rewrite <- (sqrt_square y) by lra. apply sqrt_le_1; nra. Qed.

Section Run.
Variables (bld : build) (phi dphi : nat -> nat -> R -> R) (in_range : nat -> nat -> R -> bool) (fel gel ggel : R -> R).
Variables (tol mix sc ew sw pu : R).
Variable ff : bool.
Variables (charge : nat -> R).
Notation calc := (calc_forces bld true phi dphi in_range charge all_one z2 z2 fel gel ggel 1 tol mix sc ew sw pu (DC ff) 1).
Notation ST := (stops (C0 ff) elbow cube charge gel 1 duo_list all_one z2 z2 tol mix).
Notation SM := (step_moment (C0 ff) elbow cube charge gel 1 duo_list all_one z2 z2 mix).
Notation DF := (dipole_field (C0 ff) elbow cube gel 1 duo_list all_one).
Notation q0 := (charge 0%nat).
Notation q1 := (charge 1%nat).
Notation G := (gel (1/10)).
(** the loop stops in step n without giving up *)
Lemma duo_run : forall s n, (forall j, (j < n)%nat -> ~ ST (E_ind (edp s)) j) -> ST (E_ind (edp s)) n ->
  ~ given_up (C0 ff) elbow cube charge gel 1 duo_list all_one z2 z2 mix (E_ind (edp s)) n -> forall a, (a < 2)%nat ->
  p_ind (edp (calc s)) a = SM (E_ind (edp s)) n a /\ E_ind (edp (calc s)) a = DF (p_ind (edp (calc s))) a.
Proof.
  intros s n N1 N2 N3 a Ha.
  destruct (el_dipoles bld true phi dphi in_range charge all_one z2 z2 fel gel ggel 1 tol mix sc ew sw pu (DC ff) 1 (duo_cont kinds ff)
    (fun _ _ => eq_refl) (fun _ _ => eq_refl) elbow (fun _ => cube) (fun _ _ => 12/100) (duo_geos kinds ff) (fun _ => duo_list) (duo_nbs kinds ff) eq_refl s 0%nat ltac:(lia)) as (k & _ & K1 & K2 & K3).
  assert (E : k = n).
  { destruct (Nat.lt_trichotomy k n) as [H|[H|H]]; auto; exfalso; [exact (N1 k H K2)|exact (K1 n H N2)]. }
  subst k. apply K3; auto. cbn [duo Nat.eqb cnfstart inconf]. lia. apply one_nz.
Qed.
Lemma duo_first : forall s x y, E_ind (edp s) 0%nat = V3 x 0 0 -> E_ind (edp s) 1%nat = V3 y 0 0 -> 0 < tol ->
  let p0 := x + q1 * G / 10 in let p1 := y - q0 * G / 10 in
  (sq (x - 2 * G * p1) + sq (y - 2 * G * p0)) / 6 < tol * tol ->
  p_ind (edp (calc s)) 0%nat = V3 p0 0 0 /\ p_ind (edp (calc s)) 1%nat = V3 p1 0 0 /\
  E_ind (edp (calc s)) 0%nat = V3 (2 * G * p1) 0 0 /\ E_ind (edp (calc s)) 1%nat = V3 (2 * G * p0) 0 0.
Proof.
  intros s x y X Y T p0 p1 SMALL.
  assert (ST0 : ST (E_ind (edp s)) 0).
  { right. rewrite (duo_change kinds ff charge all_one gel (one_nz _) (one_nz _) mix x y _ X Y 0). cbn [itx fst snd]. change (kinds 0%nat) with 0%nat. change (kinds 1%nat) with 1%nat. unfold all_one.
    apply sqrt_less; auto. eapply Rle_lt_trans; [|exact SMALL]. unfold p0, p1, sq. apply Req_le. field. }
  assert (NG : ~ given_up (C0 ff) elbow cube charge gel 1 duo_list all_one z2 z2 mix (E_ind (edp s)) 0) by (intros [H _]; lia).
  pose proof (duo_run s 0 ltac:(intros; lia) ST0 NG) as R.
  destruct (duo_step_moment kinds ff charge all_one gel (one_nz _) (one_nz _) mix x y _ X Y 0) as [S0 S1].
  assert (P0 : p_ind (edp (calc s)) 0%nat = V3 p0 0 0).
  { rewrite (proj1 (R 0%nat ltac:(lia))), S0. cbn [mixx itx fst snd]. unfold all_one, p0, kinds. f_equal. ring. }
  assert (P1 : p_ind (edp (calc s)) 1%nat = V3 p1 0 0).
  { rewrite (proj1 (R 1%nat ltac:(lia))), S1. cbn [mixx itx fst snd]. unfold all_one, p1, kinds. f_equal. ring. }
  split; [auto|]. split; [auto|]. rewrite (proj2 (R 0%nat ltac:(lia))), (proj2 (R 1%nat ltac:(lia))).
  destruct (duo_field kinds ff all_one gel (one_nz _) (one_nz _) (p_ind (edp (calc s)))) as [-> ->]. rewrite P0, P1. split; apply vec_eq; simpl; ring.
Qed.
End Run.

(** ** self-consistent dipoles are not those of least energy *)
Theorem not_stationary : forall bld phi dphi in_range fel gel ggel tol mix sc ew sw pu, gel (1/10) < 0 -> 0 < tol ->
  exists s, let p := p_ind (edp (calc_forces bld true phi dphi in_range pm1 all_one z2 z2 fel gel ggel 1 tol mix sc ew sw pu (DC true) 1 s)) in
  (forall a, (a < 2)%nat -> p a = moment_of (C0 true) elbow cube pm1 gel 1 duo_list all_one z2 z2 (dipole_field (C0 true) elbow cube gel 1 duo_list all_one p) a) /\
  exists slope, slope < 0 /\
  derivable_pt_lim (fun t => dip_energy (C0 true) elbow cube pm1 gel 1 duo_list all_one z2 z2 (turned p 0 (V3 1 0 0) t) + dip_self (C0 true) all_one (turned p 0 (V3 1 0 0) t)) 0 slope.
Proof.
  intros bld phi dphi in_range fel gel ggel tol mix sc ew sw pu NEG T. set (G := gel (1/10)) in *. set (pp := - G / (10 * (1 - 2 * G))).
  exists (mk_elst (mk_dev (fun _ => v0) (fun _ => 0) (fun _ _ => 0) 0) (start (2 * G * pp) (2 * G * pp))). intros p.
  assert (NZ : 1 - 2 * G <> 0) by lra.
  assert (FIX : 2 * G * pp - G / 10 = pp) by (unfold pp; field; auto).
  destruct (duo_first bld phi dphi in_range fel gel ggel tol mix sc ew sw pu true pm1 (mk_elst (mk_dev (fun _ => v0) (fun _ => 0) (fun _ _ => 0) 0) (start (2 * G * pp) (2 * G * pp))) (2 * G * pp) (2 * G * pp) eq_refl eq_refl T) as (P0 & P1 & E0 & E1).
  { fold G. unfold pm1. cbn [Nat.eqb]. replace (2 * G * pp + -1 * G / 10) with pp by (rewrite <- FIX at 1; field). replace (2 * G * pp - 1 * G / 10) with pp by (rewrite <- FIX at 1; field).
    unfold sq. replace (((2 * G * pp - 2 * G * pp) * (2 * G * pp - 2 * G * pp) + (2 * G * pp - 2 * G * pp) * (2 * G * pp - 2 * G * pp)) / 6) with 0 by field. apply Rmult_lt_0_compat; auto. }
  fold p in P0, P1. fold G in P0, P1. unfold pm1 in P0, P1. cbn [Nat.eqb] in P0, P1.
  replace (2 * G * pp + -1 * G / 10) with pp in P0 by (rewrite <- FIX at 1; field). replace (2 * G * pp - 1 * G / 10) with pp in P1 by (rewrite <- FIX at 1; field).
  destruct (duo_field kinds true all_one gel (one_nz _) (one_nz _) p) as [F0 F1]. rewrite P1 in F0. rewrite P0 in F1. fold G in F0, F1. cbn [vx vy vz] in F0, F1.
  assert (F0' : dipole_field (C0 true) elbow cube gel 1 duo_list all_one p 0 = V3 (2 * G * pp) 0 0) by (rewrite F0; f_equal; ring).
  assert (F1' : dipole_field (C0 true) elbow cube gel 1 duo_list all_one p 1 = V3 (2 * G * pp) 0 0) by (rewrite F1; f_equal; ring).
  destruct (duo_moment kinds true pm1 all_one gel _ _ _ F0' F1') as [M0 M1].
  assert (FP : forall a, (a < 2)%nat -> p a = moment_of (C0 true) elbow cube pm1 gel 1 duo_list all_one z2 z2 (dipole_field (C0 true) elbow cube gel 1 duo_list all_one p) a).
  { intros a Ha. destruct a as [|[|]]; try lia; rewrite ?M0, ?M1, ?P0, ?P1; fold G; unfold all_one, pm1, kinds; cbn [Nat.eqb]; f_equal; rewrite <- FIX at 1; field. }
  split; [exact FP|].
  exists (2 * sprod (V3 1 0 0) (dipole_field (C0 true) elbow cube gel 1 duo_list all_one p 0)). split.
  - rewrite F0'. unfold sprod. cbn [vx vy vz].
    assert (0 < pp) by (unfold pp; apply Rdiv_lt_0_compat; lra). nra.
  - apply (dip_slope_fixed (C0 true) elbow cube (fun _ _ => 12/100) (duo_geo kinds true) duo_list (fun a Ha => duo_neighbors kinds true a (proj2 Ha)) pm1 1 gel all_one z2 z2); auto; try apply one_nz; cbn [duo Nat.eqb cnfstart inconf]; lia.
Qed.

(** ** with mixing, the tolerance does not bound the inconsistency *)
Theorem not_consistent : forall bld phi dphi in_range fel ggel sc ew sw pu, exists gel s tol mix,
  let e := E_ind (edp s) in
  let p := p_ind (edp (calc_forces bld true phi dphi in_range pm1 all_one z2 z2 fel gel ggel 1 tol mix sc ew sw pu (DC true) 1 s)) in
  0 < tol /\ 0 <= mix < 1 /\ gel (1/10) < 0 /\
  step_change (C0 true) elbow cube pm1 gel 1 duo_list all_one z2 z2 mix e 1 < tol /\
  (forall a, (a < 2)%nat -> p a = step_moment (C0 true) elbow cube pm1 gel 1 duo_list all_one z2 z2 mix e 1 a) /\
  2 * tol < inconsistency (C0 true) elbow cube pm1 gel 1 duo_list all_one z2 z2 p.
Proof.
  intros bld phi dphi in_range fel ggel sc ew sw pu.
  set (gel := fun _ : R => -1/8). set (s := mk_elst (mk_dev (fun _ => v0) (fun _ => 0) (fun _ _ => 0) 0) (start (399/400) (399/400))).
  exists gel, s, (1/8), (1/2). intros e p.
  assert (CH0 : step_change (C0 true) elbow cube pm1 gel 1 duo_list all_one z2 z2 (1/2) e 0 = sqrt (25/48)).
  { rewrite (duo_change kinds true pm1 all_one gel (one_nz _) (one_nz _) (1/2) (399/400) (399/400) e eq_refl eq_refl 0). f_equal. cbn [itx fst snd]. unfold pm1, all_one, kinds, gel, sq. cbn [Nat.eqb]. field. }
  assert (CH1 : step_change (C0 true) elbow cube pm1 gel 1 duo_list all_one z2 z2 (1/2) e 1 = sqrt (25/3072)).
  { rewrite (duo_change kinds true pm1 all_one gel (one_nz _) (one_nz _) (1/2) (399/400) (399/400) e eq_refl eq_refl 1). f_equal. cbn [itx fst snd]. unfold pm1, all_one, kinds, gel, sq. cbn [Nat.eqb]. field. }
  assert (C1 : sqrt (25/3072) < 1/8) by (apply sqrt_less; lra).
  assert (ST1 : stops (C0 true) elbow cube pm1 gel 1 duo_list all_one z2 z2 (1/8) (1/2) e 1) by (right; rewrite CH1; auto).
  assert (ST0 : forall j, (j < 1)%nat -> ~ stops (C0 true) elbow cube pm1 gel 1 duo_list all_one z2 z2 (1/8) (1/2) e j).
  { intros j J. replace j with 0%nat by lia. intros [[H _]|H]; [lia|]. rewrite CH0 in H. assert (1/8 <= sqrt (25/48)) by (apply sqrt_more; lra). lra. }
  assert (NG : ~ given_up (C0 true) elbow cube pm1 gel 1 duo_list all_one z2 z2 (1/2) e 1).
  { intros [_ [H|H]]; [|lia]. rewrite CH1 in H. lra. }
  assert (P : forall a, (a < 2)%nat -> p a = step_moment (C0 true) elbow cube pm1 gel 1 duo_list all_one z2 z2 (1/2) e 1 a).
  { intros a Ha. exact (proj1 (duo_run bld phi dphi in_range fel gel ggel (1/8) (1/2) sc ew sw pu true pm1 s 1 ST0 ST1 NG a Ha)). }
  split; [lra|]. split; [lra|]. split; [unfold gel; lra|]. split; [rewrite CH1; auto|]. split; [exact P|].
  destruct (duo_step_moment kinds true pm1 all_one gel (one_nz _) (one_nz _) (1/2) (399/400) (399/400) e eq_refl eq_refl 1) as [S0 S1].
  assert (P0 : p 0%nat = V3 (77/200) 0 0) by (rewrite P, S0 by lia; cbn [mixx itx fst snd]; unfold pm1, all_one, kinds, gel; cbn [Nat.eqb]; f_equal; field).
  assert (P1 : p 1%nat = V3 (77/200) 0 0) by (rewrite P, S1 by lia; cbn [mixx itx fst snd]; unfold pm1, all_one, kinds, gel; cbn [Nat.eqb]; f_equal; field).
  destruct (duo_field kinds true all_one gel (one_nz _) (one_nz _) p) as [F0 F1]. rewrite P1 in F0. rewrite P0 in F1. cbn [vx vy vz] in F0, F1.
  assert (F0' : dipole_field (C0 true) elbow cube gel 1 duo_list all_one p 0 = V3 (-77/800) 0 0) by (rewrite F0; unfold gel; f_equal; field).
  assert (F1' : dipole_field (C0 true) elbow cube gel 1 duo_list all_one p 1 = V3 (-77/800) 0 0) by (rewrite F1; unfold gel; f_equal; field).
  destruct (duo_moment kinds true pm1 all_one gel _ _ _ F0' F1') as [M0 M1].
  assert (IC : inconsistency (C0 true) elbow cube pm1 gel 1 duo_list all_one z2 z2 p = sqrt (225/3072)).
  { unfold inconsistency. f_equal. change (seq (cnfstart (C0 true)) (inconf (C0 true))) with [0%nat; 1%nat]. change (INR (inconf (C0 true))) with (INR 2).
    unfold rsumf; cbn [map]; unfold Vec.rsum; cbn [fold_right]. rewrite M0, M1, P0, P1. rewrite !zero_one.
    unfold sqv, sprod, pm1, all_one, kinds, gel. cbn [Nat.eqb vsub vx vy vz INR]. unfold sq. field. }
  rewrite IC. assert (27/100 <= sqrt (225/3072)) by (apply sqrt_more; lra). lra.
Qed.

(** ** energy of the two atoms *)
Lemma duo_energy : forall ff charge gel p x y, p 0%nat = V3 x 0 0 -> p 1%nat = V3 y 0 0 ->
  dip_energy (C0 ff) elbow cube charge gel 1 duo_list all_one z2 z2 p = gel (1/10) * ((charge 0%nat * y - charge 1%nat * x) / 10 + 2 * x * y) /\
  dip_self (C0 ff) all_one p = x * x / 2 + y * y / 2.
Proof.
  intros ff charge gel p x y P0 P1. split.
  - unfold dip_energy, dip_pair, mixed_pair, dipole_pair, lever. change (seq (cnfstart (C0 ff)) (inconf (C0 ff))) with [0%nat; 1%nat].
    unfold rsumf; cbn [map duo_list]; unfold Vec.rsum; cbn [fold_right]. rewrite duo_within0, duo_within1, duo_r0, duo_r1, duo_d0, duo_d1. cbn [fst].
    rewrite !(duo_mom kinds ff all_one (one_nz _) (one_nz _)) by lia. rewrite P0, P1. unfold damp, damped, zero. destruct (Req_EM_T 0 0) as [_|N]; [|lra]. cbn [negb andb].
    change (typ (C0 ff) 0%nat) with 0%nat. change (typ (C0 ff) 1%nat) with 1%nat. unfold sprod. cbn [vsub vscale vx vy vz]. field.
  - unfold dip_self. change (seq (cnfstart (C0 ff)) (inconf (C0 ff))) with [0%nat; 1%nat]. unfold rsumf; cbn [map]; unfold Vec.rsum; cbn [fold_right].
    rewrite !zero_one.
    rewrite P0, P1. unfold sprod, all_one. cbn [vx vy vz]. field.
Qed.
(** ** the same parameters give another energy when the routine is called again *)
Theorem not_repeatable : forall bld phi dphi in_range fel ggel mix sc ew sw pu,
  (forall s t r, phi s t r = phi t s r) -> (forall s t r, dphi s t r = dphi t s r) -> (forall s t r, in_range s t r = in_range t s r) ->
  exists gel s tol, let calc := calc_forces bld true phi dphi in_range pm1 all_one z2 z2 fel gel ggel 1 tol mix sc ew sw pu (DC true) 1 in
  0 < tol /\ gel (1/10) < 0 /\ (forall a, E_ind (edp s) a = v0) /\ en (edv (calc (calc s))) 0 <> en (edv (calc s)) 0.
Proof.
  intros bld phi dphi in_range fel ggel mix sc ew sw pu PS DS IS.
  set (gel := fun _ : R => -1/8). set (s := mk_elst (mk_dev (fun _ => v0) (fun _ => 0) (fun _ _ => 0) 0) (start 0 0)).
  exists gel, s, (1/8). intros calc. split; [lra|]. split; [unfold gel; lra|]. split; [intros a; unfold s, start, along; cbn [edp E_ind]; destruct a as [|[|]]; auto|].
  destruct (duo_first bld phi dphi in_range fel gel ggel (1/8) mix sc ew sw pu true pm1 s 0 0 eq_refl eq_refl ltac:(lra)) as (P0 & P1 & E0 & E1).
  { unfold gel, pm1, sq. cbn [Nat.eqb]. lra. }
  fold calc in P0, P1, E0, E1.
  destruct (duo_first bld phi dphi in_range fel gel ggel (1/8) mix sc ew sw pu true pm1 (calc s) _ _ E0 E1 ltac:(lra)) as (Q0 & Q1 & _ & _).
  { unfold gel, pm1, sq. cbn [Nat.eqb]. lra. }
  fold calc in Q0, Q1.
  pose proof (fun t => proj1 (proj2 (proj2 (el_values bld true phi dphi in_range pm1 all_one z2 z2 fel gel ggel 1 (1/8) mix sc ew sw pu (DC true) 1 (duo_cont kinds true)
    PS DS IS (fun _ _ => eq_refl) (fun _ _ => eq_refl) elbow (fun _ => cube) (fun _ _ => 12/100) (duo_geos kinds true) (fun _ => duo_list) (duo_nbs kinds true)
    (fun ci H _ a Ha _ => ltac:(unfold pm1; destruct (Nat.eqb _ 0); lra)) t 0%nat ltac:(lia))))) as EN. fold calc in EN.
  rewrite (EN (calc s)), (EN s). unfold eenergy.
  destruct (duo_energy true pm1 gel _ _ _ P0 P1) as [D1 S1]. destruct (duo_energy true pm1 gel _ _ _ Q0 Q1) as [D2 S2]. rewrite D1, S1, D2, S2.
  set (X := pair_energy _ _ _ _ _ _ + _ - _). clearbody X. change (INR (inconf (DC true 0))) with (INR 2). unfold gel, pm1. cbn [Nat.eqb INR]. intros H. lra.
Qed.
