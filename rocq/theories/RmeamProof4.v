(** The embedding functions of a rescaled MEAM potential. *)
From Coq Require Import Reals ZArith List Bool Lia Lra.
From Verif Require Import Vec NbrModel LoopUtil PairModel PairSpec ThreeSpec MeamSpec SplineModel SplineProof SplineProof2 SplineProof3 SplineProof4 SplineProof5
  RescaleModel RescaleProof2 RescaleProof3 RescaleProof4 RmeamModel RmeamSpec RmeamProof RmeamProof2 RmeamProof3.
Import ListNotations.
Local Open Scope R_scope.

Lemma ok_any : forall fmt3 f, ok true f -> ok fmt3 f.
Proof. intros fmt3 f (A & B). split; auto. Qed.

Section Em.
Variables (up : bool) (a lo hi : R) (f : fn).
Hypothesis FL : (first (col f) < last (col f))%nat.
Hypothesis SIGN : up = true /\ 0 < a \/ up = false /\ a < 0.
Hypothesis LH : lo < hi.
Let w := scaled_em up a lo hi (resampled f lo hi).
Let ns := (hi - lo) / INR (last (col f) - first (col f)).
Lemma m_ns : 0 < ns /\ lo + INR (last (col f) - first (col f)) * ns = hi.
Proof. assert (P : 0 < INR (last (col f) - first (col f))) by (apply lt_0_INR; lia). unfold ns. split; [apply Rdiv_lt_0_compat; lra|field; lra]. Qed.
Lemma m_fl : first (col w) = first (col f) /\ last (col w) = last (col f).
Proof. unfold w, scaled_em, resampled. destruct up; cbn; auto. Qed.
Definition m_index (i : nat) : nat := if up then i else (npts f - 1 - i)%nat.
(** node i of the new column is that point of the old grid times a *)
Lemma m_nodes : forall i, (i < npts f)%nat -> nodes w i = a * (lo + INR (m_index i) * ns).
Proof.
  intros i Hi. destruct m_ns as [N1 N2]. unfold npts in Hi. unfold nodes. rewrite (proj1 m_fl). unfold w, scaled_em, resampled, m_index, npts.
  assert (B : (Nat.leb (first (col f)) (first (col f) + i) && Nat.leb (first (col f) + i) (last (col f)))%bool = true) by (apply andb_true_intro; split; apply Nat.leb_le; lia).
  destruct up; cbn [col xcoord first last]; rewrite B; replace (first (col f) + i - first (col f))%nat with i by lia; fold ns.
  - ring.
  - replace (last (col f) - first (col f) + 1 - 1 - i)%nat with (last (col f) - first (col f) - i)%nat by lia. rewrite minus_INR by lia. rewrite <- N2. ring.
Qed.
Lemma m_vals : forall i, (i < npts f)%nat -> vals w i = splint_ne (col f) (val f) (lo + INR (m_index i) * ns).
Proof.
  intros i Hi. unfold npts in Hi. unfold vals. rewrite (proj1 m_fl). unfold w, scaled_em, resampled, m_index, npts.
  assert (B : (Nat.leb (first (col f)) (first (col f) + i) && Nat.leb (first (col f) + i) (last (col f)))%bool = true) by (apply andb_true_intro; split; apply Nat.leb_le; lia).
  destruct up; cbn [col val first last]; rewrite B; fold ns.
  - replace (first (col f) + i - first (col f))%nat with i by lia. auto.
  - replace (first (col f) + last (col f) - (first (col f) + i))%nat with (last (col f) - i)%nat by lia.
    assert (B2 : (Nat.leb (first (col f)) (last (col f) - i) && Nat.leb (last (col f) - i) (last (col f)))%bool = true) by (apply andb_true_intro; split; apply Nat.leb_le; lia).
    rewrite B2. replace (last (col f) - i - first (col f))%nat with (last (col f) - first (col f) + 1 - 1 - i)%nat by lia. auto.
Qed.
Lemma m_grid : 0 < step (col w) /\ invstep (col w) = 1 / step (col w) /\ (forall i, (i < npts f)%nat -> nodes w i = begin (col w) + INR i * step (col w)) /\
  endr (col w) = begin (col w) + INR (npts f - 1) * step (col w).
Proof.
  destruct m_ns as [N1 N2]. unfold npts. replace (last (col f) - first (col f) + 1 - 1)%nat with (last (col f) - first (col f))%nat by lia.
  split; [|split; [|split]].
  - unfold w, scaled_em, resampled. destruct SIGN as [[-> A]|[-> A]]; cbn [col step first last]; fold ns; apply Rmult_lt_0_compat; lra.
  - unfold w, scaled_em, resampled. destruct up; cbn; auto.
  - intros i Hi. rewrite m_nodes by (unfold npts; lia). unfold w, scaled_em, resampled, m_index, npts. destruct up; cbn [col step begin first last]; fold ns.
    + ring.
    + replace (last (col f) - first (col f) + 1 - 1 - i)%nat with (last (col f) - first (col f) - i)%nat by lia. rewrite minus_INR by lia. rewrite <- N2. ring.
  - unfold w, scaled_em, resampled. destruct up; cbn [col step begin endr first last]; fold ns; rewrite <- N2; ring.
Qed.
Lemma m_ok : ok true w.
Proof.
  destruct m_grid as (G1 & G2 & G3 & G4). destruct m_fl as [F1 F2]. assert (NP : npts w = npts f) by (unfold npts; rewrite F1, F2; auto).
  assert (X : forall k, (first (col w) <= k <= last (col w))%nat -> xcoord (col w) k = begin (col w) + INR (k - first (col w)) * step (col w)).
  { intros k Hk. rewrite F1, F2 in Hk. rewrite F1, <- G3 by (unfold npts; lia). unfold nodes. rewrite F1. f_equal. lia. }
  split.
  - split; [rewrite F1, F2; exact FL|]. split; [|split].
    + rewrite X by (rewrite F1, F2; lia). rewrite Nat.sub_diag. simpl. ring.
    + rewrite X by (rewrite F1, F2; lia). rewrite G4. unfold npts. rewrite F1, F2. do 3 f_equal. lia.
    + intros i Hi. rewrite !X by lia. replace (S i - first (col w))%nat with (S (i - first (col w))) by lia. rewrite S_INR. lra.
  - intros _. split; [|intros i Hi; rewrite NP in Hi; auto].
    split; [auto|]. split; [auto|]. split; [rewrite F1, F2; auto|]. rewrite G4. unfold npts. rewrite F1, F2. do 3 f_equal. lia.
Qed.
(** whatever the embedding function: at its new points it has the values of the old one *)
Theorem m_embed_nodes : forall fmt3 i, (i < npts f)%nat -> let u := lo + INR i * ns in
  ev fmt3 (spl true true w) (a * u) = Some (splint_ne (col f) (val f) u).
Proof.
  intros fmt3 i Hi. cbv zeta. set (j := m_index i). assert (J : (j < npts f)%nat) by (unfold j, m_index, npts in *; destruct up; lia).
  assert (JJ : m_index j = i) by (unfold j, m_index, npts in *; destruct up; lia).
  rewrite <- JJ at 1. rewrite <- m_nodes by auto. rewrite <- (m_vals j J) at 1 || idtac.
  pose proof (m_vals j J) as V. rewrite JJ in V. rewrite <- V. destruct m_fl as [F1 F2]. destruct m_grid as (G1 & G2 & G3 & G4). destruct m_ok as (LI & E). destruct (E eq_refl) as (EQ & _).
  unfold ev. destruct fmt3.
  - rewrite G3 by auto. replace j with (first (col f) + j - first (col f))%nat at 1 by lia. rewrite <- F1.
    change (begin (col w)) with (begin (col (spl true true w))). change (step (col w)) with (step (col (spl true true w))). change (first (col w)) with (first (col (spl true true w))).
    rewrite ed_interpolates.
    + unfold vals. reflexivity.
    + exact EQ.
    + change (first (col (spl true true w))) with (first (col w)). change (last (col (spl true true w))) with (last (col w)). rewrite F1, F2. unfold npts in J. lia.
  - f_equal. unfold nodes. change (xcoord (col w)) with (xcoord (col (spl true true w))). rewrite ne_interpolates.
    + reflexivity.
    + exact LI.
    + change (first (col (spl true true w))) with (first (col w)). change (last (col (spl true true w))) with (last (col w)). rewrite F1, F2. unfold npts in J. lia.
Qed.
End Em.

(** ** cubic embedding functions, positive densities *)
Section Cubic.
Variables (fmt3 : bool) (a lo hi : R) (f0 : fn).
Hypothesis OK : ok true f0.
Hypothesis A : 0 < a.
Hypothesis LH : lo < hi.
Variables p0 p1 p2 p3 : R.
Hypothesis CUB : cubic_column f0 p0 p1 p2 p3.
Hypothesis SMALL : forall u, u = lo \/ u = (lo + hi) / 2 \/ u = hi -> Rabs (cub1 p1 p2 p3 u) < E29 / 2 /\ Rabs (cub1 p1 p2 p3 u / a) < E29 / 2.
Let f := spl true true f0.
Let h := spl true true (scaled_em true a lo hi (resampled f lo hi)).
Theorem m_embed_cubic : begin (col h) = a * lo /\ endr (col h) = a * hi /\
  (forall u, begin (col f) <= u < endr (col f) -> ev fmt3 f u = Some (cub p0 p1 p2 p3 u) /\ evg fmt3 f u = Some (cub1 p1 p2 p3 u)) /\
  (forall u, lo <= u < hi -> ev fmt3 h (a * u) = Some (cub p0 p1 p2 p3 u) /\ evg fmt3 h (a * u) = Some (cub1 p1 p2 p3 u / a)).
Proof.
  split; [reflexivity|]. split; [reflexivity|].
  pose proof (w_cubic true a lo hi f0 OK A p0 p1 p2 p3 CUB SMALL) as WC.
  assert (WO : ok true h) by exact (w_ok true a lo hi f0 OK A LH).
  assert (SH : solved true h) by (apply (spl_solved true true); exact (w_ok true a lo hi f0 OK A LH)).
  assert (SF : solved true f) by (apply (spl_solved true true); exact OK).
  split.
  - intros u Hu. apply (cubic_eval fmt3 f p0 p1 p2 p3 (ok_any fmt3 f OK) SF CUB); auto.
  - intros u [U1 U2].
    destruct (cubic_eval fmt3 h _ _ _ _ (ok_any fmt3 h WO) SH WC) as [_ G].
    destruct (G (a * u)) as [V1 V2].
    + change (begin (col h)) with (a * lo). change (endr (col h)) with (a * hi). split; [apply Rmult_le_compat_l; lra|apply Rmult_lt_compat_l; lra].
    + rewrite V1, V2, q_cub, q_cub1 by auto. replace (a * u / a) with u by (field; lra). auto.
Qed.
End Cubic.
(** negative densities: the slopes at the ends get the wrong sign *)
Section Down.
Variables (a lo hi : R) (f0 : fn).
Hypothesis OK : ok true f0.
Hypothesis A : a < 0.
Hypothesis LH : lo < hi.
Variables p0 p1 p2 p3 : R.
Hypothesis CUB : cubic_column f0 p0 p1 p2 p3.
Hypothesis SMALL : forall u, u = lo \/ u = hi -> Rabs (cub1 p1 p2 p3 u) < E29 /\ Rabs (cub1 p1 p2 p3 u / a) < E29.
Let f := spl true true f0.
Let w := scaled_em false a lo hi (resampled f lo hi).
Theorem down_slopes : sl w = - (cub1 p1 p2 p3 hi / a) /\ sr w = - (cub1 p1 p2 p3 lo / a).
Proof.
  destruct E29_NATURAL as (E1 & E2 & E3).
  assert (SF : solved true f) by (apply (spl_solved true true); exact OK).
  destruct (cubic_eval true f p0 p1 p2 p3 OK SF CUB) as [G _]. destruct CUB as (_ & _ & _ & S1 & S2).
  destruct (SMALL lo ltac:(auto)) as [L1 _]. destruct (SMALL hi ltac:(auto)) as [H1 _]. apply abs_lt in L1, H1.
  unfold w, scaled_em, resampled. cbn [sl sr]. change (sl f) with (sl f0). change (sr f) with (sr f0).
  destruct (Rlt_dec (sl f0) E30); [|lra]. destruct (Rlt_dec (sr f0) E30); [|lra]. rewrite (proj2 (G lo)), (proj2 (G hi)).
  destruct (Rlt_dec (cub1 p1 p2 p3 hi) E30); [|lra]. destruct (Rlt_dec (cub1 p1 p2 p3 lo) E30); [|lra]. split; field; lra.
Qed.
End Down.
