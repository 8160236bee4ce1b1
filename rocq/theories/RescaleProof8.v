(** Rescaling: a case that meets the hypotheses. *)
From Coq Require Import Reals ZArith List Bool Lia Lra.
From Verif Require Import Vec NbrModel NbrProof NbrProof2 NbrProof3 LoopUtil PairModel PairProof PairSpec PairProof2 PairProof3 ForceLoop BondProof
  EamModel EamProof EamSpec EamProof2 EamProof3 SplineModel SplineProof SplineProof2 RescaleModel RescaleSpec RescaleProof RescaleProof2 RescaleProof3 RescaleProof4 RescaleProof5 RescaleProof6.
Import ListNotations.
Local Open Scope R_scope.

Definition short_fn : fn := mk_fn (mk_col 1 2 1 1 2 3 (fun k => INR k - 1) (fun _ => 0)) (fun k => 3 - INR k) (- 1) 0.
Definition par_fn : fn := mk_fn (mk_col (-1) 2 1 1 2 5 wx (fun _ => 0)) (fun k => wx k * wx k) (- 2) 4.
Definition ex_pot : pot := mk_pot (fun _ _ => short_fn) (fun _ => short_fn) (fun _ => par_fn).
Lemma short_ok : ok true short_fn.
Proof.
  unfold ok, listed, equidistant, npts, nodes, short_fn; cbn [col begin endr step invstep first last xcoord]. split.
  - split; [lia|]. split; [simpl; lra|]. split; [simpl; lra|]. intros i _. rewrite S_INR. lra.
  - intros _. split; [split; [lra|]; split; [lra|]; split; [lia|simpl; lra]|]. intros i _. rewrite plus_INR. simpl. lra.
Qed.
Lemma par_ok : ok true par_fn.
Proof. exact (wf_ok true). Qed.
Lemma e29_big : 100 < E29.
Proof. unfold E29. replace (10 ^ 29) with (1000 * 10 ^ 26) by (simpl; ring). assert (H : 1 <= 10 ^ 26) by (apply pow_R1_Rle; lra). lra. Qed.
Lemma par_cubic : cubic_column par_fn 0 0 1 0.
Proof.
  destruct E29_NATURAL as (E1 & E2 & E3). pose proof e29_big.
  split; [|unfold cub1, par_fn; simpl; lra]. intros i Hi. unfold vals, nodes, cub, par_fn; cbn [val col first xcoord]. ring.
Qed.
Lemma ex_small : forall u, u = - (3 / 10) \/ u = (- (3 / 10) + 3 / 10) / 2 \/ u = 3 / 10 -> Rabs (cub1 0 1 0 u) < E29 / 2 /\ Rabs (cub1 0 1 0 u / 2) < E29 / 2.
Proof.
  intros u U. pose proof e29_big. unfold cub1. assert (- (3 / 10) <= u <= 3 / 10) by lra. split; apply Rabs_def1; lra.
Qed.
Lemma ex_lamt : lamt true ex_pot 2 (fun _ => - (3 / 10)) (fun _ => 3 / 10) 0 = 0.
Proof.
  change (lam true 2 (- (3 / 10)) (3 / 10) par_fn = 0). rewrite (lam_value true 2 (- (3 / 10)) (3 / 10) par_fn par_ok ltac:(lra) ltac:(lra) 0 0 1 0 par_cubic ex_small).
  unfold cub1. field.
Qed.
Lemma ex_nice : forall lo hi, lo 0%nat = - (3 / 10) -> hi 0%nat = 3 / 10 -> nice true ex_pot 1 2 lo hi (fun _ => 0) (fun _ => 0) (fun _ => 1) (fun _ => 0).
Proof.
  intros lo hi LO HI. destruct E29_NATURAL as (E1 & E2 & E3). pose proof e29_big as EB. constructor.
  - intros t _. change (tr ex_pot t) with short_fn. split; [exact short_ok|]. change (sl short_fn) with (-1). split; [left; lra|]. split; [intros; lra|].
    unfold vals, npts, short_fn; simpl. lra.
  - intros s t ST. change (ph ex_pot s t) with short_fn. change (tr ex_pot s) with short_fn. change (tr ex_pot t) with short_fn.
    split; [exact short_ok|]. split; [apply same_refl|]. split; [apply same_refl|]. left. change (sl short_fn) with (-1). split; [lra|].
    assert (s = 0 /\ t = 0)%nat as [-> ->] by lia.
    set (F := spl true false (scaled_tr 2 (spl true false short_fn))).
    set (l := lamt true ex_pot 2 lo hi 0).
    assert (LZ : l = 0). { unfold l, lamt. rewrite LO, HI. exact ex_lamt. }
    change (sl (ph (update true (init true ex_pot) true 2 lo hi) 0 0)) with
      (if Rlt_dec (-1) E29 then -1 + (part l F 1 (or0 (evg true F 1)) + part l F 1 (or0 (evg true F 1))) else -1).
    clearbody l F. subst l. unfold part. destruct (Rlt_dec (-1) E29); destruct (Rlt_dec 1 (endr (col F))); lra.
  - intros t T. assert (t = 0)%nat as -> by lia. change (em ex_pot 0) with par_fn. rewrite LO, HI. split; [exact par_ok|]. split; [exact par_cubic|]. split; [lra|exact ex_small].
Qed.
Theorem ex_rescale : let p := init true ex_pot in let s := scanned true alone 1 (fun _ => 0) ex_pot in let a := factor 1 p (6 / 10) s in
  geometry (alone 0) origin cube (fun _ _ => 1 / 2) /\ all_neighbors (alone 0) origin cube (fun _ _ => 1 / 2) 0 [] /\
  a = 2 /\ needed 1 p (6 / 10) s false = true /\ upwards 1 s = true /\
  nice true ex_pot 1 a (left_of p s) (right_of p s) (fun _ => 0) (fun _ => 0) (fun _ => 1) (fun _ => 0).
Proof.
  cbv zeta. split; [exact alone_geometry|]. split; [exact alone_neighbors|]. pose proof big as B.
  destruct (alone_scan (fun t r => or0 (ev true (tr (init true ex_pot) t) r)) (fun t r => below_end (tr (init true ex_pot) t) r) (fun _ => 0)) as [MN MX].
  set (s := scanned true alone 1 (fun _ => 0) ex_pot) in *. change (minrho s 0%nat = 0) in MN. change (maxrho s 0%nat = 0) in MX. clearbody s.
  assert (T : top 1 (maxrho s) = (0, 0%nat)).
  { unfold top, for_up; cbn [Nat.sub seq fold_left]. unfold find_max; cbn [fst]. rewrite MX. destruct (Rlt_dec (- 10 ^ 100) 0); [auto|lra]. }
  assert (Bo : bottom 1 (minrho s) = (0, 0%nat)).
  { unfold bottom, for_up; cbn [Nat.sub seq fold_left]. unfold find_min; cbn [fst]. rewrite MN. destruct (Rlt_dec 0 (10 ^ 100)); [auto|lra]. }
  assert (UP : upwards 1 s = true) by (unfold upwards; rewrite T, Bo; cbn [fst]; destruct (Rle_dec (- 0) 0); [auto|lra]).
  assert (LE : left_of (init true ex_pot) s 0 = - (3 / 10)) by (unfold left_of; rewrite MN; simpl; lra).
  assert (RI : right_of (init true ex_pot) s 0 = 3 / 10) by (unfold right_of; rewrite MX; simpl; lra).
  assert (A : factor 1 (init true ex_pot) (6 / 10) s = 2) by (unfold factor; rewrite UP, T; cbn [snd]; rewrite RI; field).
  split; [exact A|]. split; [|split; [exact UP|rewrite A; apply ex_nice; auto]].
  unfold needed. rewrite A. destruct (for_up _ _ _ _); auto. rewrite Rabs_pos_eq by lra. destruct (Rlt_dec (105 / 100) 2); [auto|lra].
Qed.

(** ** the new ranges *)
Section Range.
Variables (dens : nat -> R -> R) (reach : nat -> R -> bool) (cs : nat -> conf) (nconf : nat).
Hypothesis CONT : forall ci, cnfstart (cs (S ci)) = (cnfstart (cs ci) + inconf (cs ci))%nat.
Variables (pos : nat -> vec) (bx : nat -> box) (rcut : nat -> nat -> R).
Hypothesis GEO : forall ci, (ci < nconf)%nat -> geometry (cs ci) pos (bx ci) rcut.
Theorem range_contains : forall f p, let s := scan_all dens reach cs nconf f in
  forall ci, (ci < nconf)%nat -> forall a, (cnfstart (cs ci) <= a < cnfstart (cs ci) + inconf (cs ci))%nat -> 0 < step (col (em p (typ (cs ci) a))) ->
  left_of p s (typ (cs ci) a) < srho s a < right_of p s (typ (cs ci) a).
Proof.
  intros f p s ci Hci a Ha ST.
  destruct (scan_all_spec dens reach cs nconf) with (f := f) (ci := ci) (a := a) as [E B]; auto.
  - intros cj H. destruct (all_neighbors_exist _ _ _ _ (GEO cj H)) as (L & HL). intros i e Hi He.
    destruct (nb_entry (cs cj) pos (bx cj) rcut (GEO cj H) L HL i e Hi He) as (v & V & _ & -> & _).
    change (n_nr (entry pos (typ (cs cj)) (bx cj) i (fst v) (snd v))) with (fst v). lia.
  - intros cj i e H. destruct (all_neighbors_exist _ _ _ _ (GEO cj H)) as (L & HL). apply (geo_typ (cs cj) pos (bx cj) rcut (GEO cj H) L HL).
  - fold s in E, B. unfold left_of, right_of. lra.
Qed.
End Range.

(** ** the embedding function at the new nodes *)
Theorem update_nodes : forall fmt3 p a lo hi t, ok fmt3 (em p t) -> 0 < a -> lo t < hi t ->
  let f := em (init fmt3 p) t in let h := em (init fmt3 (update fmt3 (init fmt3 p) true a lo hi)) t in
  exists l, forall i, (i < npts f)%nat -> let u := lo t + INR i * ((hi t - lo t) / INR (npts f - 1)) in
  nodes h i = a * u /\ splint_ne (col h) (val h) (a * u) = splint_ne (col f) (val f) u - l * (a * u).
Proof.
  intros fmt3 p a lo hi t OK A LH f h. exists (lam fmt3 a (lo t) (hi t) (em p t)). intros i Hi u.
  destruct (embed_nodes fmt3 a (lo t) (hi t) (em p t) OK A LH (lam fmt3 a (lo t) (hi t) (em p t)) i Hi) as [N V].
  assert (U : nodes h i = a * u).
  { change (nodes h i) with (nodes (gauged fmt3 a (lo t) (hi t) (em p t) (lam fmt3 a (lo t) (hi t) (em p t))) i). rewrite N. unfold u.
    replace (npts f - 1)%nat with (last (col (em p t)) - first (col (em p t)))%nat by (unfold npts; change (col f) with (col (spl fmt3 true (em p t))); cbn [spl col first last]; lia). ring. }
  split; [exact U|]. rewrite <- U.
  change (splint_ne (col h) (val h) (nodes h i)) with
    (let g := gauged fmt3 a (lo t) (hi t) (em p t) (lam fmt3 a (lo t) (hi t) (em p t)) in splint_ne (col g) (val g) (nodes g i)).
  cbv zeta. rewrite V.
  change (nodes (gauged fmt3 a (lo t) (hi t) (em p t) (lam fmt3 a (lo t) (hi t) (em p t))) i) with (nodes h i). rewrite U.
  replace (a * u / a) with u by (field; lra). reflexivity.
Qed.

Lemma par_1 : begin (col par_fn) <= 1 < endr (col par_fn).
Proof. simpl. lra. Qed.
Lemma par_step : 0 < step (col (em ex_pot 1)) < 10 ^ 100.
Proof. change (0 < 1 < 10 ^ 100). split; [lra|]. replace (10 ^ 100) with (10 * 10 ^ 99) by (simpl; ring). assert (H : 1 <= 10 ^ 99) by (apply pow_R1_Rle; lra). lra. Qed.
