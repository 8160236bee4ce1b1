(** Replaced column, chosen direction and clipped step of the least squares optimiser. *)
From Coq Require Import List Arith QArith Qabs Bool Lia Lqa Setoid.
From Verif Require Import ListUtil DiffEvoModel DiffEvoProof LineMinModel LineMinProof PowellModel PowellProof PowellProof2.
Import ListNotations.
Local Open Scope Q_scope.

Lemma sumf_plus : forall m f g, sumf m (fun j => f j + g j) == sumf m f + sumf m g.
Proof. induction m; intros; simpl; [reflexivity|]. rewrite IHm. ring. Qed.
Lemma sumf_scal : forall m c f, sumf m (fun j => c * f j) == c * sumf m f.
Proof. induction m; intros; simpl; [ring|]. rewrite IHm. ring. Qed.

Section U.
Variable rt : Q -> Q.
Variable mdim : nat.
(** derivative along the line, from the two best points *)
Definition slope (a b : Q) (fa fb : vec) (i : nat) : Q := (fa i - fb i) / (a - b).
Theorem gamma_update_spec : forall g a b fa fb dl j fm g' d',
  gamma_update rt mdim g a b fa fb dl j fm = Some (g', d') ->
  ~ a == b /\ ~ fm == 0 /\
  exists mu t, mu == sumf mdim (fun i => slope a b fa fb i * fa i) / fm /\ 0 < t /\
    (forall i, (i < mdim)%nat -> g' i j == (slope a b fa fb i - mu * fa i) / t) /\
    d' = map (fun x => x / t) dl /\
    ((forall s, s == sumf mdim (fun i => (slope a b fa fb i - mu * fa i) * (slope a b fa fb i - mu * fa i)) -> rt s * rt s == s) ->
      sumf mdim (fun i => g' i j * g' i j) == 1) /\
    (fm == sumf mdim (fun i => fa i * fa i) -> sumf mdim (fun i => g' i j * fa i) == 0).
Proof.
  intros g a b fa fb dl j fm g' d' E. unfold PowellModel.gamma_update in E.
  destruct (Qeq_bool a b || Qeq_bool fm 0) eqn:Z; [discriminate|].
  apply orb_false_iff in Z. destruct Z as [Z1 Z2].
  assert (AB : ~ a == b) by (intro K; apply Qeq_bool_iff in K; congruence).
  assert (FM : ~ fm == 0) by (intro K; apply Qeq_bool_iff in K; congruence).
  split; auto. split; auto.
  match type of E with (let '(_, _) := ?l in _) = _ => destruct l as [g1 mu0] eqn:E1 end.
  match type of E with (let '(_, _) := ?l in _) = _ => destruct l as [g2 sm] eqn:E2 end.
  cbv zeta in E. destruct (qltb VERY_SMALL (rt sm)) eqn:V; [|discriminate]. injection E as G' D'.
  apply qltb_t in V. assert (T : 0 < rt sm) by (unfold VERY_SMALL in V; lra).
  assert (P1 : (forall i, (i < mdim)%nat -> g1 i j = slope a b fa fb i) /\ mu0 == sumf mdim (fun i => slope a b fa fb i * fa i)).
  { change ((fun p : mat * Q => (forall i, (i < mdim)%nat -> fst p i j = slope a b fa fb i) /\ snd p == sumf mdim (fun i => slope a b fa fb i * fa i)) (g1, mu0)).
    rewrite <- E1.
    apply (loop_inv (fun t (p : mat * Q) => (forall i, (i < t)%nat -> fst p i j = slope a b fa fb i) /\ snd p == sumf t (fun i => slope a b fa fb i * fa i))); [lia| |].
    - split; [intros; lia|reflexivity].
    - intros t [h s] _ [A B]. cbn [fst snd] in *. split.
      + intros i Hi. destruct (Nat.eq_dec i t) as [->|N]; [apply setm_eq|]. rewrite setm_neq by auto. apply A. lia.
      + rewrite B. simpl. reflexivity. }
  destruct P1 as [P1 M0]. set (mu := mu0 / fm) in *.
  assert (P2 : (forall i, (i < mdim)%nat -> g2 i j == slope a b fa fb i - mu * fa i) /\ sm == sumf mdim (fun i => (slope a b fa fb i - mu * fa i) * (slope a b fa fb i - mu * fa i))).
  { change ((fun p : mat * Q => (forall i, (i < mdim)%nat -> fst p i j == slope a b fa fb i - mu * fa i) /\ snd p == sumf mdim (fun i => (slope a b fa fb i - mu * fa i) * (slope a b fa fb i - mu * fa i))) (g2, sm)).
    rewrite <- E2.
    assert (I : forall n, n = mdim -> let r := loop 0 mdim (fun i '(g, sum) => let temp := g i j - mu * fa i in (setm g i j temp, sum + temp * temp)) (g1, 0) in
      (forall i, (i < n)%nat -> fst r i j == slope a b fa fb i - mu * fa i) /\ (forall i, (n <= i < mdim)%nat -> fst r i j = slope a b fa fb i) /\
      snd r == sumf n (fun i => (slope a b fa fb i - mu * fa i) * (slope a b fa fb i - mu * fa i))).
    { intros n ->. cbv zeta.
      apply (loop_inv (fun n (r : mat * Q) => (forall i, (i < n)%nat -> fst r i j == slope a b fa fb i - mu * fa i) /\ (forall i, (n <= i < mdim)%nat -> fst r i j = slope a b fa fb i) /\
      snd r == sumf n (fun i => (slope a b fa fb i - mu * fa i) * (slope a b fa fb i - mu * fa i)))); [lia| |].
      - split; [intros; lia|]. split; [|reflexivity]. intros i Hi. cbn [fst]. apply P1. lia.
      - intros t [h s] Ht (A & B & C). cbn [fst snd] in *. split; [|split].
        + intros i Hi. destruct (Nat.eq_dec i t) as [->|N].
          * rewrite setm_eq. rewrite B by lia. reflexivity.
          * rewrite setm_neq by auto. apply A. lia.
        + intros i Hi. rewrite setm_neq by lia. apply B. lia.
        + rewrite C. simpl. rewrite B by lia. reflexivity. }
    destruct (I mdim eq_refl) as (A & _ & C). split; auto. }
  destruct P2 as [P2 SM].
  exists mu, (rt sm). split; [unfold mu; rewrite M0; reflexivity|]. split; [exact T|].
  assert (COL : forall i, (i < mdim)%nat -> g' i j == (slope a b fa fb i - mu * fa i) / rt sm).
  { intros i Hi. rewrite <- G'. destruct (scale_col mdim g2 j (rt sm)) as [A _]. rewrite A by auto. rewrite P2 by auto. reflexivity. }
  split; [exact COL|]. split; [auto|]. split.
  - intros RT. specialize (RT sm SM).
    rewrite (sumf_ext mdim _ (fun i => (1 / (rt sm * rt sm)) * ((slope a b fa fb i - mu * fa i) * (slope a b fa fb i - mu * fa i)))).
    + rewrite sumf_scal, <- SM. rewrite RT. field. intro K. pose proof (Qmult_lt_0_compat _ _ T T). lra.
    + intros i Hi. rewrite COL by auto. field. lra.
  - intros FF. rewrite (sumf_ext mdim _ (fun i => (1 / rt sm) * (slope a b fa fb i * fa i) + (- mu / rt sm) * (fa i * fa i))).
    + rewrite sumf_plus, !sumf_scal, <- FF. rewrite <- M0. unfold mu. field. split; [exact FM|lra].
    + intros i Hi. rewrite COL by auto. field. lra.
Qed.
End U.

Section S.
Variable idx : list nat.
Variable bounded : bool.
Variables pmin pmax : nat -> Q.
Variable maxchange : nat -> option Q.
(** the replaced direction has the largest |p_i q_i| *)
Theorem best_dir_max : forall p q i, (i < length idx)%nat ->
  let j := best_dir idx p q in Qabs (p i * q i) <= Qabs (p j * q j).
Proof.
  intros p q i Hi j. subst j. unfold best_dir.
  set (r := loop 0 (ndim idx) _ (O, 0)).
  assert (I : (forall k, (k < ndim idx)%nat -> Qabs (p k * q k) <= snd r) /\ snd r <= Qabs (p (fst r) * q (fst r))).
  { apply (loop_inv (fun n (r : nat * Q) => (forall k, (k < n)%nat -> Qabs (p k * q k) <= snd r) /\ snd r <= Qabs (p (fst r) * q (fst r)))); [lia| |].
    - split; [intros; lia|]. apply Qabs_nonneg.
    - intros n [k t] Hn [A B]. cbn [fst snd] in *. destruct (qltb t (Qabs (p n * q n))) eqn:C; cbn [fst snd].
      + apply qltb_t in C. split; [|lra]. intros m Hm. destruct (Nat.eq_dec m n) as [->|]; [lra|]. specialize (A m ltac:(lia)). lra.
      + apply qltb_f in C. split; auto. intros m Hm. destruct (Nat.eq_dec m n) as [->|]; [lra|]. apply A. lia. }
  destruct I as [A B]. specialize (A i Hi). lra.
Qed.
Lemma dot_loop : forall n (d : mat) (q : vec) i, loop 0 n (fun j acc => acc + d i j * q j) 0 == sumf n (fun j => d i j * q j).
Proof.
  intros. apply (loop_inv (fun m acc => acc == sumf m (fun j => d i j * q j))); [lia|reflexivity|].
  intros m acc _ H. rewrite H. simpl. reflexivity.
Qed.
(** the step: solution in terms of the directions, clipped at the bounds *)
Definition clipped (lo hi x v : Q) : Q := if qltb (x + v) lo then lo - x else if qltb hi (x + v) then hi - x else v.
Theorem step_spec : forall d q x del del' fl, NoDup idx -> (forall k, In k idx -> (k < length del)%nat) ->
  step_dir idx bounded pmin pmax maxchange d q x del = (del', fl) ->
  forall i, (i < length idx)%nat -> let k := nth i idx O in
  exists v, v == sumf (length idx) (fun j => d i j * q j) /\
  (if bounded then (pmin i <= pmax i -> pmin i <= nth k x 0 + nth k del' 0 <= pmax i) /\
     (pmin i <= nth k x 0 + v <= pmax i -> nth k del' 0 = v)
   else nth k del' 0 = v /\ (fl = false -> forall c, maxchange k = Some c -> 0 < c -> Qabs v <= c)).
Proof.
  intros d q x del del' fl ND RG E.
  set (P := fun i (dl : list Q) (fl : bool) => let k := nth i idx O in
  exists v, v == sumf (length idx) (fun j => d i j * q j) /\
  (if bounded then (pmin i <= pmax i -> pmin i <= nth k x 0 + nth k dl 0 <= pmax i) /\
     (pmin i <= nth k x 0 + v <= pmax i -> nth k dl 0 = v)
   else nth k dl 0 = v /\ (fl = false -> forall c, maxchange k = Some c -> 0 < c -> Qabs v <= c))).
  change (forall i, (i < length idx)%nat -> P i del' fl).
  assert (G : length (fst (del', fl)) = length del /\ forall i, (i < length idx)%nat -> P i (fst (del', fl)) (snd (del', fl))).
  { rewrite <- E. unfold step_dir. fold (ndim idx).
    apply (loop_inv (fun n (r : list Q * bool) => length (fst r) = length del /\ forall i, (i < n)%nat -> P i (fst r) (snd r))); [lia| |].
    - split; auto. intros; lia.
    - intros n [dl f] Hn [L I]. cbn [fst snd] in *. unfold PowellModel.ndim in Hn.
      assert (K : (nth n idx O < length dl)%nat) by (rewrite L; apply RG, nth_In; lia).
      assert (NE : forall i, (i < n)%nat -> nth i idx O <> nth n idx O).
      { intros i Hi EE. apply (proj1 (NoDup_nth idx O) ND) in EE; lia. }
      assert (W := dot_loop (ndim idx) d q n). set (v := loop 0 (ndim idx) (fun j acc => acc + d n j * q j) 0) in *. clearbody v.
      unfold P. cbv zeta. fold (ix idx n). destruct bounded; cbn [fst snd].
      + split; [rewrite upd_length; auto|]. intros i Hi. destruct (Nat.eq_dec i n) as [->|N].
        * exists v. split; [exact W|]. unfold ix in *. rewrite nth_upd_eq by auto. set (y := nth (nth n idx O) x 0).
          destruct (qltb (y + v) (pmin n)) eqn:C1; [apply qltb_t in C1|apply qltb_f in C1].
          -- destruct (qltb (pmax n) (y + (pmin n - y))) eqn:C2; [apply qltb_t in C2|apply qltb_f in C2]; split; intros; lra.
          -- destruct (qltb (pmax n) (y + v)) eqn:C2; [apply qltb_t in C2|apply qltb_f in C2]; split; intros; try lra; auto.
        * unfold ix in *. specialize (NE i ltac:(lia)). rewrite nth_upd_neq by auto. apply I. lia.
      + split; [rewrite upd_length; auto|]. intros i Hi. destruct (Nat.eq_dec i n) as [->|N].
        * exists v. split; [exact W|]. unfold ix in *. rewrite nth_upd_eq by auto. split; auto. intros FL c MC C0.
          apply orb_false_iff in FL. destruct FL as [_ FL]. rewrite MC in FL. apply andb_false_iff in FL. destruct FL as [FL|FL]; apply qltb_f in FL; lra.
        * unfold ix in *. specialize (NE i ltac:(lia)). rewrite nth_upd_neq by auto. destruct (I i ltac:(lia)) as (w & W1 & W2 & W3).
          exists w. split; auto. split; auto. intros FL. apply orb_false_iff in FL. destruct FL as [FL _]. auto. }
  cbn [fst snd] in G. apply G.
Qed.
End S.
