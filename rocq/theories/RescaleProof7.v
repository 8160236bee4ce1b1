(** Rescaling: densities with images of the atom itself, types without atoms, what the
    workers hold afterwards. *)
From Coq Require Import Reals ZArith List Bool Lia Lra.
From Verif Require Import Vec NbrModel NbrProof NbrProof2 NbrProof3 LoopUtil PairModel PairProof PairSpec PairProof2 PairProof3 ForceLoop BondProof
  EamModel EamProof EamSpec EamProof2 EamProof3 EamProof5 SplineModel SplineProof SplineProof2 RescaleModel RescaleSpec RescaleProof RescaleProof2 RescaleProof3 RescaleProof4 RescaleProof6.
Import ListNotations.
Local Open Scope R_scope.

Theorem density_refuted : exists l L, let c := one_conf l 0 in
  geometry c origin cube (fun _ _ => 1) /\ all_neighbors c origin cube (fun _ _ => 1) 0 (L 0%nat) /\
  forall f, srho (scan_all (fun _ _ => 1) (fun _ _ => true) (one_conf l) 1 f) 0%nat = 0 /\
  1 <= density c origin cube (fun _ _ _ => 1) (fun _ _ _ => true) L 0 0.
Proof.
  destruct cube_geometry as (l & NE & G). exists l. destruct (all_neighbors_exist _ _ _ _ G) as (L & HL). exists L. cbv zeta.
  change (cube_conf l) with (one_conf l 0) in *. assert (HL0 := HL 0%nat ltac:(simpl; lia)). split; [auto|]. split; [auto|]. intros f. split.
  - destruct (scan_textbook (fun _ _ => 1) (fun _ _ => true) (one_conf l) 1 (one_cont l) origin (fun _ => cube) (fun _ _ => 1)) with (L := fun _ : nat => L) (f := f) (ci := 0%nat) (a := 0%nat) as [E _];
      try (intros ci H; assert (ci = 0)%nat as -> by lia; auto); try lia; try (simpl; lia).
    { intros ci a H Ha. assert (ci = 0)%nat as -> by lia. auto. }
    rewrite E. unfold density. assert (O : others_of L 0 = []); [|rewrite O; reflexivity].
    unfold others_of. assert (Z : forall v, In v (L 0%nat) -> fst v = 0%nat).
    { intros [j n] V. apply (proj2 HL0) in V. simpl in *. lia. }
    revert Z. clear. generalize (L 0%nat). intros q0 Z. induction q0 as [|v q IH]; auto. simpl. rewrite (Z v) by (left; auto). simpl. apply IH. intros w W. apply Z. right. auto.
  - unfold density. assert (B : In (0%nat, (1, 0, 0)%Z) (L 0%nat)).
    { apply (proj2 HL0). split; [simpl; lia|]. unfold bond. split; [intros [_ E]; discriminate|].
      rewrite cube_displacement. unfold norm, sprod; simpl. replace (1 * 1 + 0 * 0 + 0 * 0) with 1 by ring. rewrite sqrt_1. lra. }
    destruct (L 0%nat) as [|v q]; [destruct B|]. rewrite rsumf_cons. cbv iota. assert (0 <= rsumf (fun _ : nat * image => 1) q) by (apply rsumf_nonneg; intros; lra). lra.
Qed.

Lemma scan_extrema_geo : forall dens reach cs nconf, (forall ci, cnfstart (cs (S ci)) = (cnfstart (cs ci) + inconf (cs ci))%nat) ->
  forall pos bx rcut, (forall ci, (ci < nconf)%nat -> geometry (cs ci) pos (bx ci) rcut) ->
  forall f t, let s := scan_all dens reach cs nconf f in
  (maxrho s t = - 10 ^ 100 \/ exists ci a, (ci < nconf)%nat /\ (cnfstart (cs ci) <= a < cnfstart (cs ci) + inconf (cs ci))%nat /\ typ (cs ci) a = t /\ maxrho s t = sfull dens reach (cs ci) a) /\
  (minrho s t = 10 ^ 100 \/ exists ci a, (ci < nconf)%nat /\ (cnfstart (cs ci) <= a < cnfstart (cs ci) + inconf (cs ci))%nat /\ typ (cs ci) a = t /\ minrho s t = sfull dens reach (cs ci) a) /\
  - 10 ^ 100 <= maxrho s t /\ minrho s t <= 10 ^ 100.
Proof.
  intros dens reach cs nconf CONT pos bx rcut GEO f t. apply (scan_all_extrema dens reach cs nconf).
  - intros ci H. destruct (all_neighbors_exist _ _ _ _ (GEO ci H)) as (L & HL). intros i e Hi He.
    destruct (nb_entry (cs ci) pos (bx ci) rcut (GEO ci H) L HL i e Hi He) as (v & V & _ & -> & _).
    change (n_nr (entry pos (typ (cs ci)) (bx ci) i (fst v) (snd v))) with (fst v). lia.
  - intros ci i e H. destruct (all_neighbors_exist _ _ _ _ (GEO ci H)) as (L & HL). apply (geo_typ (cs ci) pos (bx ci) rcut (GEO ci H) L HL).
Qed.

(** ** types without atoms *)
Theorem absent_type : forall dens reach cs nconf, (forall ci, cnfstart (cs (S ci)) = (cnfstart (cs ci) + inconf (cs ci))%nat) ->
  forall pos bx rcut, (forall ci, (ci < nconf)%nat -> geometry (cs ci) pos (bx ci) rcut) ->
  forall f p t, let s := scan_all dens reach cs nconf f in
  0 < step (col (em p t)) < 10 ^ 100 ->
  (forall ci a, (ci < nconf)%nat -> (cnfstart (cs ci) <= a < cnfstart (cs ci) + inconf (cs ci))%nat -> typ (cs ci) a <> t) ->
  right_of p s t < left_of p s t.
Proof.
  intros dens reach cs nconf CONT pos bx rcut GEO f p t s ST ABS. destruct (scan_extrema_geo dens reach cs nconf CONT pos bx rcut GEO f t) as (A & B & _ & _).
  fold s in A, B. unfold right_of, left_of.
  destruct A as [-> |(ci & a & P & Q & T & _)]; [|exfalso; exact (ABS ci a P Q T)]. destruct B as [-> |(ci & a & P & Q & T & _)]; [|exfalso; exact (ABS ci a P Q T)]. lra.
Qed.
(** ** the workers *)
Definition same_layout (w m : fn) : Prop := first (col w) = first (col m) /\ last (col w) = last (col m).
Theorem workers_eq : forall w m, ok true m -> same_layout w m -> forall r, begin (col m) <= r < endr (col m) ->
  ev true (spl true true (synced w m)) r = ev true (spl true true m) r /\ evg true (spl true true (synced w m)) r = evg true (spl true true m) r.
Proof.
  intros w m OK (LF & LL) r Hr.
  set (x := mk_fn (mk_col (begin (col m)) (endr (col m)) (step (col m)) (invstep (col m)) (first (col m)) (last (col w)) (xcoord (col m)) (d2tab (col w))) (val m) (sl m) (sr m)).
  change (ev true (spl true true (synced w m)) r) with (ev true (spl true true x) r). change (evg true (spl true true (synced w m)) r) with (evg true (spl true true x) r).
  assert (OX : ok true x). { unfold ok, listed, equidistant, npts, nodes, x in *. cbn [col first last begin endr step invstep xcoord] in *. rewrite LL. exact OK. }
  assert (NP : npts x = npts m) by (unfold npts, x; cbn [col first last]; rewrite LL; auto).
  pose proof (ok_n2 true m OK) as N2.
  assert (C : forall i, (i < npts m)%nat -> curv (spl true true x) i = curv (spl true true m) i).
  { apply (gsys_unique (nodes m) (npts m) N2 (ok_inc true m OK) (vals m) (endc (sl m)) (endc (sr m))).
    - rewrite <- NP. exact (spl_solved true true x OX).
    - exact (spl_solved true true m OK). }
  destruct (eval_in true (spl true true x) OX r Hr) as (k & K & I & V & D & _). destruct (eval_in true (spl true true m) OK r Hr) as (k' & K' & I' & V' & D' & _).
  change (npts (spl true true x)) with (npts x) in K. rewrite NP in K. change (npts (spl true true m)) with (npts m) in K'.
  assert (k = k') by (apply (slot_unique true m OK k k' r); auto). subst k'. rewrite V, D, V', D'.
  destruct (pv_ext (nodes m) (nodes m) (vals m) (vals m) (curv (spl true true x)) (curv (spl true true m)) (npts m) k r K ltac:(auto) ltac:(auto) C) as [P1 P2].
  split; f_equal; auto.
Qed.

(** format 4: density scale 2, embedding function u^2 on 0, 1 *)
Definition sq_fn : fn := mk_fn (mk_col 0 1 1 1 2 3 (fun k => INR k - 2) (fun _ => 0)) (fun k => INR k - 2) 0 2.
Definition sq_pot : pot := mk_pot (fun _ _ => sq_fn) (fun _ => sq_fn) (fun _ => sq_fn).
Lemma sq_ok : ok false sq_fn.
Proof.
  unfold ok, listed, sq_fn; cbn [col begin endr step invstep first last xcoord]. split; [|discriminate].
  split; [lia|]. split; [simpl; lra|]. split; [simpl; lra|]. intros i _. rewrite S_INR. lra.
Qed.
Lemma sq_cubic : cubic_column sq_fn 0 0 1 0.
Proof.
  assert (E : 2 <= NATURAL) by (unfold NATURAL; assert (H : 1 <= 10 ^ 28) by (apply pow_R1_Rle; lra); lra).
  split; [|unfold cub1, sq_fn; simpl; lra]. intros i Hi. unfold npts, sq_fn in Hi; simpl in Hi. unfold vals, nodes, cub, sq_fn; cbn [val col first xcoord].
  assert (i = 0 \/ i = 1)%nat as [-> | ->] by lia; simpl; ring.
Qed.
Lemma ne_two : forall c y r, last c = S (first c) -> xcoord c (last c) - xcoord c (first c) <> 0 -> r = xcoord c (last c) -> splint_ne c y r = y (last c).
Proof.
  intros c y r L N ->. unfold splint_ne, ne_find. rewrite L in *. replace (S (first c) - first c)%nat with 1%nat by lia. cbn [bisect].
  replace (S (first c) - first c)%nat with 1%nat by lia. cbn [Nat.ltb Nat.leb]. field. auto.
Qed.
Lemma em_update : forall fmt3 p0 a lo hi t, spl fmt3 true (em (update fmt3 (init fmt3 p0) true a lo hi) t) =
  gauged fmt3 a (lo t) (hi t) (em p0 t) (lam fmt3 a (lo t) (hi t) (em p0 t)).
Proof. reflexivity. Qed.
Lemma em_update_col : forall fmt3 p0 a lo hi t, let m := em (update fmt3 (init fmt3 p0) true a lo hi) t in
  begin (col m) = a * lo t /\ endr (col m) = a * hi t /\ first (col m) = first (col (em p0 t)) /\ last (col m) = last (col (em p0 t)).
Proof. intros. repeat split; reflexivity. Qed.
Lemma sq_small : forall u, u = 0 \/ u = (0 + 1) / 2 \/ u = 1 -> Rabs (cub1 0 1 0 u) < E29 / 2 /\ Rabs (cub1 0 1 0 u / 2) < E29 / 2.
Proof.
  assert (EL : 4 < E29 / 2) by (unfold E29; replace (10 ^ 29) with (10 * 10 ^ 28) by (simpl; ring); assert (H : 1 <= 10 ^ 28) by (apply pow_R1_Rle; lra); lra).
  intros u U. unfold cub1. assert (0 <= u <= 1) by lra. rewrite !Rabs_pos_eq by lra. lra.
Qed.
Lemma sq_lam : lam false 2 0 1 sq_fn = 1 / 2.
Proof.
  rewrite (lam_value false 2 0 1 sq_fn sq_ok ltac:(lra) ltac:(lra) 0 0 1 0 sq_cubic sq_small). unfold cub1. field.
Qed.
Lemma sq_half : ev false (gauged false 2 0 1 sq_fn (lam false 2 0 1 sq_fn)) 1 = Some (- (1 / 4)).
Proof.
  destruct (embed_cubic false 2 0 1 sq_fn sq_ok ltac:(lra) ltac:(lra) 0 0 1 0 sq_cubic sq_small) as (_ & _ & _ & G).
  destruct (G (1 / 2) ltac:(lra)) as [G1 _]. replace (2 * (1 / 2)) with 1 in G1 by field. rewrite G1. f_equal. unfold cub. rewrite sq_lam. field.
Qed.
Lemma gauged_fl : forall l, first (col (gauged false 2 0 1 sq_fn l)) = 2%nat /\ last (col (gauged false 2 0 1 sq_fn l)) = 3%nat.
Proof. intros. split; reflexivity. Qed.
Lemma sq_last : val (gauged false 2 0 1 sq_fn (lam false 2 0 1 sq_fn)) 3%nat = 0.
Proof.
  rewrite sq_lam. assert (LT01 : 0 < 1) by lra. assert (LT02 : 0 < 2) by lra.
  assert (H1 : (1 < npts sq_fn)%nat) by (unfold npts; simpl; lia).
  destruct (embed_nodes false 2 0 1 sq_fn sq_ok LT02 LT01 (1 / 2) 1 H1) as (N1 & N2).
  pose proof (gauged_ok false 2 0 1 sq_fn sq_ok LT02 LT01 (1 / 2)) as GO. pose proof (gauged_fl (1 / 2)) as [F1 F2].
  generalize dependent (gauged false 2 0 1 sq_fn (1 / 2)). intros g N1 N2 GO F1 F2.
  assert (X : splint_ne (col g) (val g) (nodes g 1%nat) = val g 3%nat).
  { rewrite <- F2. apply ne_two; [lia| |unfold nodes; f_equal; lia]. pose proof (inc_lt false _ GO 0 1 ltac:(lia) ltac:(unfold npts; lia)) as I.
    rewrite F2, F1. unfold nodes in I. rewrite F1 in I. simpl in I. lra. }
  rewrite <- X, N2, N1. change (last (col sq_fn) - first (col sq_fn))%nat with 1%nat.
  replace ((2 * 0 + INR 1 * (2 * ((1 - 0) / INR 1))) / 2) with 1 by (simpl; field). replace (2 * 0 + INR 1 * (2 * ((1 - 0) / INR 1))) with 2 by (simpl; field).
  destruct (f_eval false sq_fn sq_ok 0 0 1 0 sq_cubic) as [F _]. rewrite (proj1 (F 1)). unfold cub. field.
Qed.
Lemma workers_core : forall w m, spl false true m = gauged false 2 0 1 sq_fn (lam false 2 0 1 sq_fn) ->
  begin (col m) = 2 * 0 -> endr (col m) = 2 * 1 -> first (col m) = 2%nat -> last (col m) = 3%nat ->
  last (col w) = 3%nat -> first (col w) = 2%nat -> xcoord (col w) 3%nat = 1 -> xcoord (col w) 2%nat = 0 ->
  same_layout w m /\ begin (col m) <= 1 < endr (col m) /\
  ev false (spl false true m) 1 = Some (- (1 / 4)) /\ ev false (spl false true (synced w m)) 1 = Some 0.
Proof.
  intros w m EM MB ME MF ML WL WF W3 W2. split; [split; lia|]. split; [lra|]. split; [rewrite EM; exact sq_half|].
  assert (V : val m 3%nat = 0). { pose proof sq_last as Q. rewrite <- EM in Q. exact Q. }
  unfold ev. f_equal. rewrite ne_two; unfold spl, synced; cbn [col val first last xcoord].
  + rewrite WL. exact V.
  + lia.
  + rewrite WL, MF, W3, W2. lra.
  + rewrite WL, W3. auto.
Qed.
Theorem workers_refuted : exists (p : pot) a lo hi, let w := em (init false p) 0 in let m := em (update false (init false p) true a lo hi) 0 in
  same_layout w m /\ ok false (em p 0) /\ 0 < a /\ lo 0%nat < hi 0%nat /\ begin (col m) <= 1 < endr (col m) /\
  ev false (spl false true m) 1 = Some (- (1 / 4)) /\ ev false (spl false true (synced w m)) 1 = Some 0.
Proof.
  exists sq_pot, 2, (fun _ => 0), (fun _ => 1). cbv zeta.
  destruct (workers_core (em (init false sq_pot) 0) (em (update false (init false sq_pot) true 2 (fun _ => 0) (fun _ => 1)) 0)) as (A & B & C).
  1: exact (em_update false sq_pot 2 (fun _ => 0) (fun _ => 1) 0).
  1, 2, 3, 4: apply (em_update_col false sq_pot 2 (fun _ => 0) (fun _ => 1) 0).
  1, 2: reflexivity.
  1, 2: cbn [em init]; unfold spl; cbn [col xcoord em sq_pot sq_fn]; simpl; lra.
  split; [exact A|]. split; [exact sq_ok|]. split; [lra|]. split; [lra|]. split; [exact B|exact C].
Qed.
