(** Proofs about normdist. *)
From Coq Require Import Reals Lra Lia Arith.
From Verif Require Import NormModel NormSpec.
Local Open Scope R_scope.

Lemma rad2_pos : forall u p m, 0 <= rad2 u p m.
Proof. intros. unfold rad2. nra. Qed.

Lemma polar_first : forall u m p fuel, (m < fuel)%nat -> inside u p m ->
  (forall k, (k < m)%nat -> ~ inside u p k) ->
  polar u fuel p = Some (px u p m, py u p m, rad2 u p m, (p + 2 * m + 2)%nat).
Proof.
  intros u. induction m as [|m IH]; intros p fuel Hf Hin Hout;
    (destruct fuel as [|fuel]; [lia|]); cbn [polar].
  - assert (E : (2 * u p - 1) * (2 * u p - 1) + (2 * u (S p) - 1) * (2 * u (S p) - 1) =
                rad2 u p 0).
    { unfold rad2, px, py. replace (p + 2 * 0 + 1)%nat with (S p) by lia.
      replace (p + 2 * 0)%nat with p by lia. ring. }
    rewrite E. destruct Hin as [H0 H1].
    destruct (Rle_dec 1 (rad2 u p 0)); [lra|].
    destruct (Req_EM_T (rad2 u p 0) 0); [lra|].
    unfold px, py. replace (p + 2 * 0 + 1)%nat with (S p) by lia.
    replace (p + 2 * 0 + 2)%nat with (S (S p)) by lia.
    replace (p + 2 * 0)%nat with p by lia. reflexivity.
  - assert (E : (2 * u p - 1) * (2 * u p - 1) + (2 * u (S p) - 1) * (2 * u (S p) - 1) =
                rad2 u p 0).
    { unfold rad2, px, py. replace (p + 2 * 0 + 1)%nat with (S p) by lia.
      replace (p + 2 * 0)%nat with p by lia. ring. }
    rewrite E.
    assert (N : polar u fuel (S (S p)) =
      Some (px u p (S m), py u p (S m), rad2 u p (S m), (p + 2 * S m + 2)%nat)).
    { assert (Sh : forall k, px u (S (S p)) k = px u p (S k) /\
                             py u (S (S p)) k = py u p (S k)).
      { intros k. unfold px, py.
        replace (S (S p) + 2 * k + 1)%nat with (p + 2 * S k + 1)%nat by lia.
        replace (S (S p) + 2 * k)%nat with (p + 2 * S k)%nat by lia.
        split; reflexivity. }
      assert (Sr : forall k, rad2 u (S (S p)) k = rad2 u p (S k)).
      { intros k. unfold rad2. destruct (Sh k) as [-> ->]. reflexivity. }
      rewrite (IH (S (S p)) fuel).
      - destruct (Sh m) as [-> ->]. rewrite Sr.
        replace (S (S p) + 2 * m + 2)%nat with (p + 2 * S m + 2)%nat by lia. reflexivity.
      - lia.
      - unfold inside. rewrite Sr. exact Hin.
      - intros k Hk. unfold inside. rewrite Sr. apply Hout. lia. }
    pose proof (rad2_pos u p 0) as Z. pose proof (Hout 0%nat ltac:(lia)) as O.
    unfold inside in O.
    destruct (Rle_dec 1 (rad2 u p 0)); [exact N|].
    destruct (Req_EM_T (rad2 u p 0) 0); [exact N|]. exfalso. apply O. lra.
Qed.
Lemma polar_none : forall u fuel p,
  (forall k, (k < fuel)%nat -> ~ inside u p k) -> polar u fuel p = None.
Proof.
  intros u. induction fuel as [|fuel IH]; intros p H; cbn [polar]; [reflexivity|].
  assert (N : polar u fuel (S (S p)) = None).
  { apply IH. intros k Hk. specialize (H (S k) ltac:(lia)).
    unfold inside, rad2, px, py in *.
    replace (S (S p) + 2 * k + 1)%nat with (p + 2 * S k + 1)%nat by lia.
    replace (S (S p) + 2 * k)%nat with (p + 2 * S k)%nat by lia. exact H. }
  assert (E : (2 * u p - 1) * (2 * u p - 1) + (2 * u (S p) - 1) * (2 * u (S p) - 1) =
              rad2 u p 0).
  { unfold rad2, px, py. replace (p + 2 * 0 + 1)%nat with (S p) by lia.
    replace (p + 2 * 0)%nat with p by lia. ring. }
  rewrite E. specialize (H 0%nat ltac:(lia)). unfold inside in H.
  pose proof (rad2_pos u p 0) as Z.
  destruct (Rle_dec 1 (rad2 u p 0)); [exact N|].
  destruct (Req_EM_T (rad2 u p 0) 0); [exact N|]. exfalso. apply H. lra.
Qed.
Lemma first_inside : forall u p fuel,
  (exists m, (m < fuel)%nat /\ inside u p m /\ forall k, (k < m)%nat -> ~ inside u p k)
  \/ (forall k, (k < fuel)%nat -> ~ inside u p k).
Proof.
  intros u p. induction fuel as [|fuel [[m [A [B C]]]|H]].
  - right. intros k Hk. lia.
  - left. exists m. split; [lia|]. split; assumption.
  - assert (D : inside u p fuel \/ ~ inside u p fuel).
    { unfold inside. destruct (Rlt_dec 0 (rad2 u p fuel)), (Rlt_dec (rad2 u p fuel) 1);
        [left | right | right | right]; lra. }
    destruct D as [D|D].
    + left. exists fuel. split; [lia|]. split; assumption.
    + right. intros k Hk. destruct (Nat.eq_dec k fuel) as [->|]; [exact D|].
      apply H. lia.
Qed.

Lemma domain : forall s, 0 < s < 1 -> 0 < -2 * ln s / s.
Proof.
  intros s H. assert (L : ln s < 0).
  { rewrite <- ln_1. apply ln_increasing; lra. }
  apply Rdiv_lt_0_compat; lra.
Qed.

(** Two successive calls, the first without a number in stock. *)
Lemma normdist_pair : forall u fuel fuel' st y1 st1, have_number st = false ->
  normdist u fuel st = Some (y1, st1) ->
  exists m y2 st2, (m < fuel)%nat /\
    normdist u fuel' st1 = Some (y2, st2) /\ have_number st2 = false /\
    inside u (pos st) m /\ (forall k, (k < m)%nat -> ~ inside u (pos st) k) /\
    pos st1 = (pos st + 2 * m + 2)%nat /\ pos st2 = pos st1 /\
    0 < -2 * ln (rad2 u (pos st) m) / rad2 u (pos st) m /\
    y1 = px u (pos st) m * sqrt (-2 * ln (rad2 u (pos st) m) / rad2 u (pos st) m) /\
    y2 = py u (pos st) m * sqrt (-2 * ln (rad2 u (pos st) m) / rad2 u (pos st) m) /\
    y1 ^ 2 + y2 ^ 2 = -2 * ln (rad2 u (pos st) m).
Proof.
  intros u fuel fuel' st y1 st1 Hh E. unfold normdist in E. rewrite Hh in E.
  destruct (first_inside u (pos st) fuel) as [[m [Hm [Hi Ho]]]|H].
  - rewrite (polar_first u m (pos st) fuel Hm Hi Ho) in E.
    pose proof (domain _ Hi) as D.
    set (r := rad2 u (pos st) m) in *. set (c := sqrt (-2 * ln r / r)) in *.
    injection E as E1 E2.
    exists m, (py u (pos st) m * c),
      {| pos := (pos st + 2 * m + 2)%nat; have_number := false;
         nd2 := py u (pos st) m * c |}.
    rewrite <- E2. split; [exact Hm|]. split; [reflexivity|]. split; [reflexivity|].
    split; [exact Hi|]. split; [exact Ho|]. split; [reflexivity|].
    split; [reflexivity|]. split; [exact D|]. split; [symmetry; exact E1|].
    split; [reflexivity|]. rewrite <- E1.
    assert (C2 : c * c = -2 * ln r / r) by (apply sqrt_sqrt; lra).
    assert (R0 : r <> 0) by (destruct Hi as [H0 _]; fold r in H0; lra).
    replace ((px u (pos st) m * c) ^ 2 + (py u (pos st) m * c) ^ 2)
      with (((px u (pos st) m) ^ 2 + (py u (pos st) m) ^ 2) * (c * c)) by ring.
    rewrite C2. change ((px u (pos st) m) ^ 2 + (py u (pos st) m) ^ 2) with r.
    fold r. clearbody r. generalize (ln r). intros y. field. exact R0.
  - rewrite polar_none in E by exact H. discriminate.
Qed.
(** A call returns as soon as one pair of the numbers lies inside. *)
Lemma normdist_ends : forall u st m, have_number st = false ->
  inside u (pos st) m -> exists fuel r, normdist u fuel st = Some r.
Proof.
  intros u st m Hh Hi. exists (S m).
  destruct (first_inside u (pos st) (S m)) as [[k [Hk [Ki Ko]]]|H].
  - unfold normdist. rewrite Hh, (polar_first u k (pos st) (S m) Hk Ki Ko). eauto.
  - exfalso. apply (H m); [lia | exact Hi].
Qed.
