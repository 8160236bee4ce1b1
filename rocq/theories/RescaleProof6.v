(** Rescaling: the whole routine; where energies or densities change. *)
From Coq Require Import Reals ZArith List Bool Lia Lra.
From Verif Require Import Vec NbrModel NbrProof NbrProof2 NbrProof3 LoopUtil PairModel PairProof PairSpec PairProof2 PairProof3 ForceLoop BondProof
  EamModel EamProof EamSpec EamProof2 EamProof3 SplineModel SplineProof SplineProof2 RescaleModel RescaleSpec RescaleProof RescaleProof2 RescaleProof3 RescaleProof4 RescaleProof5.
Import ListNotations.
Local Open Scope R_scope.

(** ** the whole routine *)
Section Whole.
Variables (fmt3 : bool) (nt : nat) (cs : nat -> conf) (nconf : nat) (rho : nat -> R) (p0 : pot) (upper : R) (flag : bool).
Let p := init fmt3 p0.
Definition scanned : scan := scan_all (fun t r => or0 (ev fmt3 (tr p t) r)) (fun t r => below_end (tr p t) r) cs nconf rho.
Notation s := scanned.
Theorem rescale_not_needed : needed nt p upper s flag = false -> rescale fmt3 nt cs nconf rho p0 upper flag = (0, p).
Proof. intros H. unfold rescale. fold p. fold s. rewrite H. auto. Qed.
Theorem rescale_needed : needed nt p upper s flag = true ->
  rescale fmt3 nt cs nconf rho p0 upper flag = (factor nt p upper s, update fmt3 p (upwards nt s) (factor nt p upper s) (left_of p s) (right_of p s)).
Proof. intros H. unfold rescale. fold p. fold s. rewrite H. auto. Qed.

Hypothesis CONT : forall ci, cnfstart (cs (S ci)) = (cnfstart (cs ci) + inconf (cs ci))%nat.
Variables (pos : nat -> vec) (bx : nat -> box) (rcut : nat -> nat -> R).
Hypothesis GEO : forall ci, (ci < nconf)%nat -> geometry (cs ci) pos (bx ci) rcut.
Variable L : nat -> nat -> list (nat * image).
Hypothesis HL : forall ci x, (ci < nconf)%nat -> (cnfstart (cs ci) <= x < cnfstart (cs ci) + inconf (cs ci))%nat -> all_neighbors (cs ci) pos (bx ci) rcut x (L ci x).
Hypothesis NOSELF : forall ci x n, (ci < nconf)%nat -> ~ In (x, n) (L ci x).

Theorem scan_density : forall ci x, (ci < nconf)%nat -> (cnfstart (cs ci) <= x < cnfstart (cs ci) + inconf (cs ci))%nat ->
  let u := density (cs ci) pos (bx ci) (dens_of fmt3 p) (reach_of p) (L ci) 0 x in
  srho s x = u /\ minrho s (typ (cs ci) x) <= u <= maxrho s (typ (cs ci) x).
Proof.
  intros ci x Hci Hx. pose proof (scan_textbook (fun t r => or0 (ev fmt3 (tr p t) r)) (fun t r => below_end (tr p t) r) cs nconf CONT pos bx rcut GEO L HL rho ci Hci x Hx) as H.
  cbv zeta in H. unfold density in *. rewrite (others_all (L ci) x (fun n => NOSELF ci x n Hci)) in H. exact H.
Qed.

Theorem rescale_energy : forall c0 c1 c2 c3,
  let a := factor nt p upper s in
  needed nt p upper s flag = true -> upwards nt s = true -> 0 < a ->
  nice fmt3 p0 nt a (left_of p s) (right_of p s) c0 c1 c2 c3 ->
  (forall t, (t < nt)%nat -> 0 < step (col (em p0 t))) ->
  (forall ci x, (ci < nconf)%nat -> (cnfstart (cs ci) <= x < cnfstart (cs ci) + inconf (cs ci))%nat -> (typ (cs ci) x < nt)%nat) ->
  (forall ci x v t, (ci < nconf)%nat -> (cnfstart (cs ci) <= x < cnfstart (cs ci) + inconf (cs ci))%nat -> In v (L ci x) -> (t < nt)%nat ->
     begin (col (tr p0 t)) <= dist pos (bx ci) x v) ->
  (forall ci x, (ci < nconf)%nat -> (cnfstart (cs ci) <= x < cnfstart (cs ci) + inconf (cs ci))%nat ->
     let u := density (cs ci) pos (bx ci) (dens_of fmt3 p) (reach_of p) (L ci) 0 x in
     begin (col (em p0 (typ (cs ci) x))) <= u < endr (col (em p0 (typ (cs ci) x)))) ->
  forall ci, (ci < nconf)%nat ->
  total_energy fmt3 (init fmt3 (snd (rescale fmt3 nt cs nconf rho p0 upper flag))) (cs ci) pos (bx ci) (L ci) =
  total_energy fmt3 p (cs ci) pos (bx ci) (L ci).
Proof.
  intros c0 c1 c2 c3 a NEED UP A NICE STEP TYPES FAR TAB ci Hci. rewrite rescale_needed, UP by auto. cbn [snd].
  apply (energy_unchanged fmt3 p0 nt (factor nt p upper s) (left_of p s) (right_of p s) c0 c1 c2 c3 NICE A (cs ci) pos (bx ci) rcut (GEO ci Hci) (L ci)).
  - intros x Hx. apply HL; auto.
  - intros x Hx. apply TYPES; auto.
  - intros x v t Hx. apply FAR; auto.
  - intros x Hx. split; [|apply TAB; auto]. destruct (scan_density ci x Hci Hx) as [_ B]. unfold left_of, right_of.
    pose proof (STEP _ (TYPES ci x Hci Hx)) as S0. change (step (col (em p (typ (cs ci) x)))) with (step (col (em p0 (typ (cs ci) x)))). fold p. fold p in B. lra.
Qed.
End Whole.

(** ** one atom without neighbours *)
Lemma alone_bonds : forall j n, ~ bond origin (fun _ => 0%nat) cube (fun _ _ => 1 / 2) 0 j n \/ j <> 0%nat.
Proof.
  intros j n. destruct (Nat.eq_dec j 0) as [->|]; [left|right; auto]. intros [NS B]. rewrite cube_displacement in B. destruct n as [[x y] z].
  assert (K : IZR x * IZR x + IZR y * IZR y + IZR z * IZR z < 1).
  { apply Rnot_le_lt. intros K. unfold norm, sprod in B; cbn [vx vy vz] in B. pose proof (sqrt_le_1_alt _ _ K) as Q. rewrite sqrt_1 in Q. lra. }
  rewrite <- !mult_IZR, <- !plus_IZR in K. change 1 with (IZR 1) in K. apply lt_IZR in K. apply NS.
  assert (x = 0 /\ y = 0 /\ z = 0)%Z as (-> & -> & ->) by (repeat split; nia). auto.
Qed.
Lemma alone_geometry : geometry (cube_conf []) origin cube (fun _ _ => 1 / 2).
Proof.
  constructor.
  - exists cube, 1, (1, 1, 1)%Z. split; [exact cube_box|]. split; [lra|]. split; [exact cube_scale|]. split; [intros; lra|].
    intros i Hi. simpl in Hi. assert (i = 0%nat) by lia. subst.
    pose proof (init_neighbors_spec 0 1 origin (fun _ => 0%nat) cube (fun _ _ => 1 / 2) (1, 1, 1)%Z false 0) as H. cbv zeta in H.
    change (cnfstart (cube_conf [])) with 0%nat. change (inconf (cube_conf [])) with 1%nat. change (typ (cube_conf [])) with (fun _ : nat => 0%nat). change (nb (cube_conf []) 0) with (@nil neigh).
    destruct (init_neighbors _ _ _ _ _ _ _ _ _) as [| | |l]; [|destruct H|destruct H|].
    + exfalso. destruct H as (j & n & J & W & (NS & O)). rewrite cube_displacement in O. destruct n as [[x y] z]. injection O as X Y Z.
      apply NS. change (j_start 0 false 0) with 0%nat in J. split; [lia|]. apply eq_IZR in X, Y, Z. subst. auto.
    + destruct H as [-> _]. f_equal. destruct (filter _ _) as [|[j n] q] eqn:E; auto. exfalso.
      assert (I : In (j, n) ((j, n) :: q)) by (left; auto). rewrite <- E in I. apply filter_In in I. destruct I as [V B]. apply bondb_true in B.
      apply visits_in in V. change (j_start 0 false 0) with 0%nat in V. destruct (alone_bonds j n) as [K|K]; [|lia]. apply K. auto.
  - intros i Hi. simpl in Hi. assert (i = 0%nat) by lia. subst. exists v0. split; [unfold origin, comb; vring|]. simpl. lra.
  - auto.
Qed.
Lemma alone_neighbors : all_neighbors (cube_conf []) origin cube (fun _ _ => 1 / 2) 0 [].
Proof.
  split; [constructor|]. intros j n. split; [intros []|]. intros [J B]. simpl in J. destruct (alone_bonds j n) as [K|K]; [|lia]. destruct (K B).
Qed.

(** ** energies change: the embedding function max(x,0)^3, sampled on new points *)
Definition wx (k : nat) : R := INR k - 3.
Definition wy (k : nat) : R := if Nat.leb k 3 then 0 else if Nat.eqb k 4 then 1 else 8.
Definition wf : fn := mk_fn (mk_col (-1) 2 1 1 2 5 wx (fun _ => 0)) wy 0 12.
Definition wp : pot := mk_pot (fun _ _ => wf) (fun _ => wf) (fun _ => wf).
Lemma wf_ok : forall fmt3, ok fmt3 wf.
Proof.
  intros fmt3. unfold ok, listed, equidistant, npts, nodes, wf, wx; cbn [col begin endr step invstep first last xcoord]. split.
  - split; [lia|]. split; [simpl; lra|]. split; [simpl; lra|]. intros i _. rewrite S_INR. lra.
  - intros _. split; [split; [lra|]; split; [lra|]; split; [lia|simpl; lra]|]. intros i _. rewrite plus_INR. simpl. lra.
Qed.
Ltac four i := destruct i as [|[|[|[|?]]]]; [| | | |lia].
Lemma wf_curv : forall i, (i < 4)%nat -> curv (spl true true wf) i = if Nat.leb i 1 then 0 else if Nat.eqb i 2 then 6 else 12.
Proof.
  pose proof (spl_solved true true wf (wf_ok true)) as SV. unfold solved in SV. change (npts (spl true true wf)) with 4%nat in SV.
  apply (gsys_unique (nodes wf) 4 ltac:(lia) (ok_inc true wf (wf_ok true)) (vals wf) _ _ _ _ SV).
  destruct E29_NATURAL as (E1 & E2 & E3).
  assert (N : 12 <= NATURAL) by (unfold NATURAL; assert (H : 1 <= 10 ^ 28) by (apply pow_R1_Rle; lra); lra).
  cbn [right_slope]. change (sl (spl true true wf)) with 0. change (sr (spl true true wf)) with 12. rewrite !endc_some by lra.
  constructor.
  - intros i Hi. unfold sig, rhs, nodes, vals, wf, wx, wy; cbn [col first xcoord val]. assert (i = 1 \/ i = 2)%nat as [-> | ->] by lia; simpl; field.
  - unfold nodes, vals, wf, wx, wy; simpl. field.
  - unfold nodes, vals, wf, wx, wy; simpl. field.
Qed.
Lemma wf_at0 : ev true (spl true true wf) 0 = Some 0.
Proof.
  destruct (eval_in true (spl true true wf) (wf_ok true) 0) as (k & K & I & -> & _); [simpl; lra|].
  change (npts (spl true true wf)) with 4%nat in K. f_equal.
  assert (k = 1%nat). { unfold nodes in I; cbn [spl wf col first xcoord] in I; unfold wx in I. rewrite !plus_INR in I. four k; simpl in I, K; auto; try lra; lia. }
  subst k. unfold pv, splint_dir. rewrite !wf_curv by lia. unfold nodes, vals, wf, wx, wy; simpl. field.
Qed.
Definition w6 : fn := scaled_em true 1 (- (3 / 10)) (3 / 10) (resampled (spl true true wf) (- (3 / 10)) (3 / 10)).
Lemma w6_ok : ok true w6.
Proof. apply (w_ok true 1 (- (3 / 10)) (3 / 10) wf (wf_ok true)); lra. Qed.
Lemma w6_nodes : forall i, (i < 4)%nat -> nodes w6 i = - (3 / 10) + INR i * (2 / 10).
Proof.
  intros i Hi. unfold w6. rewrite (w_nodes true 1 (- (3 / 10)) (3 / 10) wf (wf_ok true)) by exact Hi.
  change (last (col wf) - first (col wf))%nat with 3%nat. simpl (INR 3). field.
Qed.
(** the old function at a place *)
Lemma wf_eval : forall r, -1 <= r < 2 -> splint_ne (col (spl true true wf)) (val (spl true true wf)) r = (if Rlt_dec r 0 then 0 else r * r * r) /\
  splint_grad_ne (col (spl true true wf)) (val (spl true true wf)) r = (if Rlt_dec r 0 then 0 else 3 * (r * r)).
Proof.
  intros r Hr. destruct (eval_in true (spl true true wf) (wf_ok true) r) as (k & K & I & _ & _ & -> & ->); [exact Hr|].
  change (npts (spl true true wf)) with 4%nat in K. unfold pv, pg, splint_dir, splint_grad_dir.
  rewrite !wf_curv by lia. unfold nodes in I. cbn [spl wf col first xcoord] in I. unfold wx in I. rewrite !plus_INR in I.
  unfold nodes, vals, wf, wx, wy; cbn [spl col first xcoord val].
  destruct k as [|[|[|k]]]; [| | |lia]; simpl in *; destruct (Rlt_dec r 0); try lra; split; field; lra.
Qed.
Lemma w6_vals : vals w6 0%nat = 0 /\ vals w6 1%nat = 0 /\ vals w6 2%nat = 1 / 1000 /\ vals w6 3%nat = 27 / 1000 /\ sl w6 = 0 /\ sr w6 = 27 / 100.
Proof.
  assert (V : forall i, (i < 4)%nat -> vals w6 i = splint_ne (col (spl true true wf)) (val (spl true true wf)) (- (3 / 10) + INR i * (2 / 10))).
  { intros i Hi. unfold w6. rewrite (w_vals true 1 (- (3 / 10)) (3 / 10) wf (wf_ok true)) by (auto; lra). fold w6. rewrite w6_nodes by auto. f_equal. field. }
  assert (E : E30 > 100) by (destruct E29_NATURAL as (E1 & E2 & E3); unfold NATURAL in *; assert (H : 1 <= 10 ^ 28) by (apply pow_R1_Rle; lra); lra).
  rewrite !V by lia. simpl INR. repeat match goal with |- context [splint_ne _ _ ?r] => rewrite (proj1 (wf_eval r ltac:(lra))) end.
  repeat match goal with |- context [Rlt_dec ?x 0] => destruct (Rlt_dec x 0); try (exfalso; lra) end.
  do 4 (split; [field|]). unfold w6, scaled_em, resampled. cbn [sl sr]. change (sl (spl true true wf)) with 0. change (sr (spl true true wf)) with 12.
  destruct (Rlt_dec 0 E30); [|lra]. destruct (Rlt_dec 12 E30); [|lra]. repeat match goal with |- context [splint_grad_ne _ _ ?r] => rewrite (proj2 (wf_eval r ltac:(lra))) end.
  destruct (Rlt_dec (- (3 / 10)) 0); [|lra]. destruct (Rlt_dec (3 / 10) 0); [lra|].
  destruct (Rlt_dec 0 E30); [|lra]. destruct (Rlt_dec (3 * (3 / 10 * (3 / 10))) E30); [|lra]. split; field.
Qed.
Definition w6_d (i : nat) : R := match i with 0%nat => 5 / 100 | 1%nat => - (1 / 10) | 2%nat => 1 / 2 | _ => 185 / 100 end.
Lemma w6_sys : forall y, (forall i, (i < 4)%nat -> y i = vals w6 i) -> gsys (nodes w6) y 4 (Some 0) (Some (27 / 100)) w6_d.
Proof.
  intros y Y. destruct w6_vals as (V0 & V1 & V2 & V3 & _). constructor.
  - intros i Hi. unfold sig, rhs. assert (i = 1 \/ i = 2)%nat as [-> | ->] by lia; cbn [Nat.sub Nat.add]; rewrite !w6_nodes, !Y by lia; rewrite ?V0, ?V1, ?V2, ?V3; simpl; field.
  - rewrite !w6_nodes, !Y by lia. rewrite ?V0, ?V1, ?V2, ?V3; simpl; field.
  - cbn [Nat.sub]. rewrite !w6_nodes, !Y by lia. rewrite ?V0, ?V1, ?V2, ?V3; simpl; field.
Qed.
Lemma w6_slope_end : endc (27 / 100) = Some (27 / 100) /\ 1 < E29.
Proof.
  assert (E : E29 > 1) by (unfold E29; replace (10 ^ 29) with (10 * 10 ^ 28) by (simpl; ring); assert (H : 1 <= 10 ^ 28) by (apply pow_R1_Rle; lra); lra).
  destruct E29_NATURAL as (E1 & E2 & E3). split; [apply endc_some; lra|lra].
Qed.
Lemma slot1 : forall k, (k + 1 < 4)%nat -> nodes w6 k <= 0 < nodes w6 (k + 1)%nat -> k = 1%nat.
Proof. intros k K I. rewrite !w6_nodes, plus_INR in I by lia. destruct k as [|[|[|k]]]; simpl in I; auto; try lra; lia. Qed.
Lemma w6_curv : forall i, (i < 4)%nat -> curv (spl true true w6) i = w6_d i.
Proof.
  pose proof (spl_solved true true w6 w6_ok) as SV. unfold solved in SV. change (npts (spl true true w6)) with 4%nat in SV. cbn [right_slope] in SV.
  change (sl (spl true true w6)) with (sl w6) in SV. change (sr (spl true true w6)) with (sr w6) in SV. destruct w6_vals as (_ & _ & _ & _ & S1 & S2).
  rewrite S1, S2, (proj1 w6_slope_end), endc_0 in SV.
  apply (gsys_unique (nodes w6) 4 ltac:(lia) (ok_inc true w6 w6_ok) (vals w6) _ _ _ _ SV). apply w6_sys. auto.
Qed.
Lemma w6_lam : lambda true (spl true true w6) = 0.
Proof.
  unfold lambda. change (begin (col (spl true true w6))) with (1 * - (3 / 10)). change (endr (col (spl true true w6))) with (1 * (3 / 10)).
  replace (1 / 2 * (1 * - (3 / 10) + 1 * (3 / 10))) with 0 by field.
  destruct (eval_in true (spl true true w6) w6_ok 0) as (k & K & I & _ & -> & _).
  { change (1 * - (3 / 10) <= 0 < 1 * (3 / 10)). lra. }
  change (npts (spl true true w6)) with 4%nat in K. apply (slot1 k K) in I. subst k. cbn [or0]. unfold pg, splint_grad_dir. rewrite !w6_curv by lia.
  change (nodes (spl true true w6)) with (nodes w6). change (vals (spl true true w6)) with (vals w6). cbn [Nat.add]. rewrite !w6_nodes by lia.
  destruct w6_vals as (_ & -> & -> & _). simpl. field.
Qed.
Lemma w6_at0 : ev true (spl true true (gauge_em 0 (spl true true w6))) 0 = Some (- (5 / 10000)).
Proof.
  set (g := gauge_em 0 (spl true true w6)). assert (OG : ok true g) by exact w6_ok.
  assert (GV : forall i, (i < 4)%nat -> vals g i = vals w6 i).
  { intros i Hi. unfold g, gauge_em, vals at 1. cbn [val col]. rewrite (inside_true (spl true true w6) i Hi ltac:(simpl; lia)). unfold vals. change (val (spl true true w6)) with (val w6).
    change (first (col (spl true true w6))) with (first (col w6)). ring. }
  destruct w6_slope_end as [SE E29p]. destruct w6_vals as (_ & V1 & V2 & _ & S1 & S2).
  assert (C : forall i, (i < 4)%nat -> curv (spl true true g) i = w6_d i).
  { pose proof (spl_solved true true g OG) as SV. unfold solved in SV. change (npts (spl true true g)) with 4%nat in SV. cbn [right_slope] in SV.
    assert (G1 : sl (spl true true g) = 0).
    { change (sl (spl true true g)) with (if Rlt_dec (sl w6) E29 then sl w6 - 0 else sl w6). rewrite S1. destruct (Rlt_dec 0 E29); lra. }
    assert (G2 : sr (spl true true g) = 27 / 100).
    { change (sr (spl true true g)) with (if Rlt_dec (sr w6) E29 then sr w6 - 0 else sr w6). rewrite S2. destruct (Rlt_dec (27 / 100) E29); lra. }
    rewrite G1, G2, SE, endc_0 in SV.
    apply (gsys_unique (nodes w6) 4 ltac:(lia) (ok_inc true w6 w6_ok) (vals g) _ _ _ _ SV). apply w6_sys. auto. }
  destruct (eval_in true (spl true true g) OG 0) as (k & K & I & -> & _).
  { change (1 * - (3 / 10) <= 0 < 1 * (3 / 10)). lra. }
  change (npts (spl true true g)) with 4%nat in K. apply (slot1 k K) in I. subst k. f_equal. unfold pv, splint_dir. rewrite !C by lia.
  change (nodes (spl true true g)) with (nodes w6). change (vals (spl true true g)) with (vals g). cbn [Nat.add]. rewrite !w6_nodes, !GV, V1, V2 by lia.
  simpl. field.
Qed.

Definition alone (_ : nat) : conf := cube_conf [].
Lemma big : 0 < 10 ^ 100.
Proof. apply pow_lt. lra. Qed.
Lemma alone_scan : forall dens reach f, let s := scan_all dens reach alone 1 f in minrho s 0%nat = 0 /\ maxrho s 0%nat = 0.
Proof.
  intros dens reach f. pose proof big. cbv zeta. unfold scan_all, for_up; cbn [Nat.sub].
  unfold scan_config, for_up, alone, cube_conf; cbn [cnfstart inconf Nat.add Nat.sub]. unfold scan_atom, zero_atom; cbn [nb fold_left srho minrho maxrho typ].
  unfold setf; cbn [seq fold_left srho minrho maxrho Nat.eqb]. split; [apply Rmin_right; lra|apply Rmax_right; lra].
Qed.
Theorem energy_refuted : let p := init true wp in let p' := snd (rescale true 1 alone 1 (fun _ => 0) wp (3 / 10) true) in
  geometry (alone 0) origin cube (fun _ _ => 1 / 2) /\ all_neighbors (alone 0) origin cube (fun _ _ => 1 / 2) 0 [] /\
  (forall t, ok true (em wp t)) /\
  total_energy true p (alone 0) origin cube (fun _ => []) = 0 /\
  total_energy true (init true p') (alone 0) origin cube (fun _ => []) = - (5 / 10000).
Proof.
  cbv zeta. split; [exact alone_geometry|]. split; [exact alone_neighbors|]. split; [intros; apply wf_ok|].
  assert (TE : forall p, total_energy true p (alone 0) origin cube (fun _ => []) = or0 (ev true (em p 0%nat) 0)).
  { intros p. unfold total_energy, pair_energy, embed_energy, density, F_of, alone, cube_conf; cbn [cnfstart inconf typ seq]. unfold rsumf; cbn [map]. unfold Vec.rsum; cbn [fold_right]. ring. }
  rewrite !TE. split; [change (em (init true wp) 0%nat) with (spl true true wf); rewrite wf_at0; auto|].
  pose proof big as B.
  destruct (alone_scan (fun t r => or0 (ev true (tr (init true wp) t) r)) (fun t r => below_end (tr (init true wp) t) r) (fun _ => 0)) as [MN MX].
  rewrite rescale_needed by reflexivity. cbn [snd].
  set (s := scanned true alone 1 (fun _ => 0) wp) in *. change (minrho s 0%nat = 0) in MN. change (maxrho s 0%nat = 0) in MX.
  assert (T : top 1 (maxrho s) = (0, 0%nat)).
  { unfold top, for_up; cbn [Nat.sub seq fold_left]. unfold find_max; cbn [fst]. rewrite MX. destruct (Rlt_dec (- 10 ^ 100) 0); [auto|lra]. }
  assert (Bo : bottom 1 (minrho s) = (0, 0%nat)).
  { unfold bottom, for_up; cbn [Nat.sub seq fold_left]. unfold find_min; cbn [fst]. rewrite MN. destruct (Rlt_dec 0 (10 ^ 100)); [auto|lra]. }
  assert (UP : upwards 1 s = true) by (unfold upwards; rewrite T, Bo; cbn [fst]; destruct (Rle_dec (- 0) 0); [auto|lra]).
  assert (LE : left_of (init true wp) s 0 = - (3 / 10)) by (unfold left_of; rewrite MN; simpl; lra).
  assert (RI : right_of (init true wp) s 0 = 3 / 10) by (unfold right_of; rewrite MX; simpl; lra).
  assert (A : factor 1 (init true wp) (3 / 10) s = 1) by (unfold factor; rewrite UP, T; cbn [snd]; rewrite RI; field).
  rewrite UP, A.
  change (em (init true (update true (init true wp) true 1 (left_of (init true wp) s) (right_of (init true wp) s))) 0%nat) with
    (let e := spl true true (scaled_em true 1 (left_of (init true wp) s 0) (right_of (init true wp) s 0) (resampled (spl true true wf) (left_of (init true wp) s 0) (right_of (init true wp) s 0))) in
     spl true true (gauge_em (lambda true e) e)).
  rewrite LE, RI. fold w6. cbv zeta. rewrite w6_lam, w6_at0. auto.
Qed.

