(** Normal deviates *)
From Coq Require Import Reals List Arith Bool Lra Lia.
From Verif Require Import LoopUtil UqModel.
Open Scope R_scope.

(** a pair of uniforms is accepted *)
Definition accepted (u : nat -> R) (k : nat) : Prop :=
  0 < (2 * u k - 1) * (2 * u k - 1) + (2 * u (S k) - 1) * (2 * u (S k) - 1) < 1.

Lemma sq_pair : forall x y, 0 <= x * x + y * y.
Proof. intros. pose proof (Rle_0_sqr x). pose proof (Rle_0_sqr y). unfold Rsqr in *. lra. Qed.

Lemma polar_spec : forall u fuel k x1 x2 s k', polar u fuel k = Some (x1, x2, s, k') ->
  exists m, (m < fuel)%nat /\ k' = (k + 2 * m + 2)%nat /\
    x1 = 2 * u (k + 2 * m)%nat - 1 /\ x2 = 2 * u (S (k + 2 * m)) - 1 /\ s = x1 * x1 + x2 * x2 /\
    accepted u (k + 2 * m) /\ forall m', (m' < m)%nat -> ~ accepted u (k + 2 * m').
Proof.
  intros u fuel. induction fuel; intros k x1 x2 s k' H; [discriminate|].
  cbn [polar] in H. cbv zeta in H.
  assert (REC : ~ accepted u k -> polar u fuel (S (S k)) = Some (x1, x2, s, k') ->
    exists m, (m < S fuel)%nat /\ k' = (k + 2 * m + 2)%nat /\
    x1 = 2 * u (k + 2 * m)%nat - 1 /\ x2 = 2 * u (S (k + 2 * m)) - 1 /\ s = x1 * x1 + x2 * x2 /\
    accepted u (k + 2 * m) /\ forall m', (m' < m)%nat -> ~ accepted u (k + 2 * m')).
  { intros NA HH. destruct (IHfuel _ _ _ _ _ HH) as [m [L [E [E1 [E2 [E3 [A B]]]]]]].
    exists (S m). replace (S (S k) + 2 * m)%nat with (k + 2 * S m)%nat in * by lia.
    split; [lia|]. split; [lia|]. split; [exact E1|]. split; [exact E2|]. split; [exact E3|].
    split; [exact A|]. intros [|m'] L'.
    - replace (k + 2 * 0)%nat with k by lia. exact NA.
    - replace (k + 2 * S m')%nat with (S (S k) + 2 * m')%nat by lia. apply B. lia. }
  destruct (Rge_dec _ 1) as [G|G].
  - apply REC; [unfold accepted; lra|exact H].
  - destruct (Req_EM_T _ 0) as [Z|Z].
    + apply REC; [unfold accepted; lra|exact H].
    + inversion H; subst. exists 0%nat. replace (k + 2 * 0)%nat with k by lia.
      split; [lia|]. split; [lia|]. split; [reflexivity|]. split; [reflexivity|]. split; [reflexivity|].
      split; [|intros; lia]. unfold accepted. pose proof (sq_pair (2 * u k - 1) (2 * u (S k) - 1)). lra.
Qed.

Lemma polar_ends : forall u m fuel k, accepted u (k + 2 * m) -> (m < fuel)%nat -> polar u fuel k <> None.
Proof.
  intros u m. induction m; intros fuel k A L; (destruct fuel as [|fuel]; [lia|]); cbn [polar]; cbv zeta.
  - replace (k + 2 * 0)%nat with k in A by lia. unfold accepted in A.
    destruct (Rge_dec _ 1); [lra|]. destruct (Req_EM_T _ 0); [lra|]. discriminate.
  - replace (k + 2 * S m)%nat with (S (S k) + 2 * m)%nat in A by lia.
    destruct (Rge_dec _ 1); [apply IHm; [exact A|lia]|].
    destruct (Req_EM_T _ 0); [apply IHm; [exact A|lia]|]. discriminate.
Qed.

Lemma log_neg : forall s, 0 < s < 1 -> 0 < -2 * ln s / s.
Proof.
  intros s H. assert (ln s < 0) by (rewrite <- ln_1; apply ln_increasing; lra).
  apply Rdiv_lt_0_compat; lra.
Qed.

(** A call with no stored number: valid operations; two deviates *)
Lemma normdist_pair : forall u fuel s, have s = false ->
  (normdist u fuel s = NoEnd /\ forall m, (m < fuel)%nat -> ~ accepted u (used s + 2 * m)) \/
  exists a b m, (m < fuel)%nat /\ accepted u (used s + 2 * m) /\
    (forall m', (m' < m)%nat -> ~ accepted u (used s + 2 * m')) /\
    let k := (used s + 2 * m)%nat in
    let x1 := 2 * u k - 1 in let x2 := 2 * u (S k) - 1 in let q := x1 * x1 + x2 * x2 in
    a = x1 * sqrt (-2 * ln q / q) /\ b = x2 * sqrt (-2 * ln q / q) /\ a * a + b * b = -2 * ln q /\
    normdist u fuel s = Value a (NS true b (k + 2)) /\
    forall u' fuel', normdist u' fuel' (NS true b (k + 2)) = Value b (NS false b (k + 2)).
Proof.
  intros u fuel s H. unfold normdist. rewrite H.
  destruct (polar u fuel (used s)) as [[[[x1 x2] q] k']|] eqn:P.
  - right. destruct (polar_spec _ _ _ _ _ _ _ P) as [m [L [E [E1 [E2 [E3 [A B]]]]]]].
    assert (Q : 0 < q < 1). { subst. exact A. }
    exists (x1 * sqrt (-2 * ln q / q)), (x2 * sqrt (-2 * ln q / q)), m.
    split; [exact L|]. split; [exact A|]. split; [exact B|]. cbv zeta. rewrite <- E1, <- E2, <- E3.
    split; [reflexivity|]. split; [reflexivity|]. split; [|split; [|reflexivity]].
    + set (c := sqrt (-2 * ln q / q)).
      assert (C : c * c = -2 * ln q / q) by (apply sqrt_sqrt; pose proof (log_neg q Q); lra).
      replace (x1 * c * (x1 * c) + x2 * c * (x2 * c)) with ((x1 * x1 + x2 * x2) * (c * c)) by ring.
      rewrite <- E3, C. field. lra.
    + unfold log_c. destruct (Rlt_dec 0 q); [|lra]. unfold div_c. destruct (Req_EM_T q 0); [lra|].
      unfold sqrt_c. destruct (Rle_dec 0 (-2 * ln q / q)) as [|N]; [rewrite E; reflexivity|].
      exfalso. apply N. pose proof (log_neg q Q). lra.
  - left. split; [reflexivity|]. intros m L A. apply (polar_ends u m fuel (used s) A L P).
Qed.

Lemma normdist_valid : forall u fuel s, normdist u fuel s <> Invalid.
Proof.
  intros u fuel s. destruct (have s) eqn:H.
  - unfold normdist. rewrite H. discriminate.
  - destruct (normdist_pair u fuel s H) as [[E _]|[a [b [m [_ [_ [_ E]]]]]]].
    + rewrite E. discriminate.
    + cbv zeta in E. destruct E as [_ [_ [_ [E _]]]]. rewrite E. discriminate.
Qed.
(** A stream for which the loop never ends *)
Lemma normdist_never : forall fuel, normdist (fun _ => 1 / 2) fuel (NS false 0 0) = NoEnd.
Proof.
  intros fuel. destruct (normdist_pair (fun _ => 1 / 2) fuel (NS false 0 0) eq_refl) as [[E _]|[a [b [m [_ [A _]]]]]].
  - exact E.
  - unfold accepted in A. lra.
Qed.
