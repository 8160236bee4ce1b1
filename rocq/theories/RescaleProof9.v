(** The factor of a rescaling puts the dominant end of the embedding functions at the bound. *)
From Coq Require Import Reals ZArith List Bool Lia Lra.
From Verif Require Import Vec LoopUtil PairModel EamModel SplineModel RescaleModel.
Local Open Scope R_scope.

Lemma top_spec : forall mx n, (0 < n)%nat -> (forall t, (t < n)%nat -> - 10 ^ 100 < mx t) ->
  let r := top n mx in (snd r < n)%nat /\ fst r = mx (snd r) /\ forall t, (t < n)%nat -> mx t <= fst r.
Proof.
  intros mx n N B. cbv zeta. unfold top.
  assert (G : forall k, (k <= n)%nat -> let r := for_up 0 k (find_max mx) (- 10 ^ 100, 0%nat) in
    (k = 0%nat /\ r = (- 10 ^ 100, 0%nat)) \/ ((snd r < k)%nat /\ fst r = mx (snd r) /\ forall t, (t < k)%nat -> mx t <= fst r)).
  { induction k as [|k IH]; intros K; [left; auto|]. right. rewrite for_up_S by lia. cbv zeta in IH. specialize (IH ltac:(lia)).
    set (r := for_up 0 k (find_max mx) _) in *. clearbody r. unfold find_max. destruct IH as [[-> ->]|(A & C & D)]; cbn [fst snd].
    - destruct (Rlt_dec (- 10 ^ 100) (mx 0%nat)) as [|X]; [|exfalso; apply X, B; lia]. cbn [fst snd]. split; [lia|]. split; [auto|]. intros t T. assert (t = 0)%nat as -> by lia. lra.
    - destruct (Rlt_dec (fst r) (mx k)) as [X|X]; cbn [fst snd].
      + split; [lia|]. split; [auto|]. intros t T. destruct (Nat.eq_dec t k) as [->|Y]; [lra|]. specialize (D t ltac:(lia)). lra.
      + split; [lia|]. split; [auto|]. intros t T. destruct (Nat.eq_dec t k) as [->|Y]; [lra|]. apply D. lia. }
  destruct (G n ltac:(lia)) as [[X _]|X]; [lia|auto].
Qed.
Lemma bottom_spec : forall mn n, (0 < n)%nat -> (forall t, (t < n)%nat -> mn t < 10 ^ 100) ->
  let r := bottom n mn in (snd r < n)%nat /\ fst r = mn (snd r) /\ forall t, (t < n)%nat -> fst r <= mn t.
Proof.
  intros mn n N B. cbv zeta. unfold bottom.
  assert (G : forall k, (k <= n)%nat -> let r := for_up 0 k (find_min mn) (10 ^ 100, 999%nat) in
    (k = 0%nat /\ r = (10 ^ 100, 999%nat)) \/ ((snd r < k)%nat /\ fst r = mn (snd r) /\ forall t, (t < k)%nat -> fst r <= mn t)).
  { induction k as [|k IH]; intros K; [left; auto|]. right. rewrite for_up_S by lia. cbv zeta in IH. specialize (IH ltac:(lia)).
    set (r := for_up 0 k (find_min mn) _) in *. clearbody r. unfold find_min. destruct IH as [[-> ->]|(A & C & D)]; cbn [fst snd].
    - destruct (Rlt_dec (mn 0%nat) (10 ^ 100)) as [|X]; [|exfalso; apply X, B; lia]. cbn [fst snd]. split; [lia|]. split; [auto|]. intros t T. assert (t = 0)%nat as -> by lia. lra.
    - destruct (Rlt_dec (mn k) (fst r)) as [X|X]; cbn [fst snd].
      + split; [lia|]. split; [auto|]. intros t T. destruct (Nat.eq_dec t k) as [->|Y]; [lra|]. specialize (D t ltac:(lia)). lra.
      + split; [lia|]. split; [auto|]. intros t T. destruct (Nat.eq_dec t k) as [->|Y]; [lra|]. apply D. lia. }
  destruct (G n ltac:(lia)) as [[X _]|X]; [lia|auto].
Qed.
Theorem factor_dominant : forall nt p upper s, (0 < nt)%nat ->
  (forall t, (t < nt)%nat -> - 10 ^ 100 < maxrho s t /\ minrho s t < 10 ^ 100) ->
  exists t u, (t < nt)%nat /\ (u < nt)%nat /\ (forall v, (v < nt)%nat -> maxrho s v <= maxrho s t) /\ (forall v, (v < nt)%nat -> minrho s u <= minrho s v) /\
  (upwards nt s = true <-> - minrho s u <= maxrho s t) /\
  let right := maxrho s t + 3 / 10 * step (col (em p t)) in
  let left := minrho s u - 3 / 10 * step (col (em p u)) in
  (- minrho s u <= maxrho s t -> right <> 0 -> factor nt p upper s * right = upper) /\
  (maxrho s t < - minrho s u -> left <> 0 -> factor nt p upper s * left = upper).
Proof.
  intros nt p upper s N B.
  destruct (top_spec (maxrho s) nt N (fun t T => proj1 (B t T))) as (A1 & A2 & A3).
  destruct (bottom_spec (minrho s) nt N (fun t T => proj2 (B t T))) as (C1 & C2 & C3).
  exists (snd (top nt (maxrho s))), (snd (bottom nt (minrho s))). rewrite <- A2, <- C2.
  split; [auto|]. split; [auto|]. split; [auto|]. split; [auto|].
  unfold factor, upwards. destruct (Rle_dec (- fst (bottom nt (minrho s))) (fst (top nt (maxrho s)))) as [X|X].
  - split; [tauto|]. cbv zeta. split; [|intros Y; lra]. intros _ Y. unfold right_of. rewrite <- A2. unfold Rdiv at 1. rewrite Rmult_assoc, Rinv_l by exact Y. ring.
  - split; [split; [discriminate|tauto]|]. cbv zeta. split; [tauto|]. intros _ Y. unfold left_of. rewrite <- C2. unfold Rdiv at 1. rewrite Rmult_assoc, Rinv_l by exact Y. ring.
Qed.
Lemma ex_factor : let s := mk_scan (fun _ => 0) (fun t => INR t) (fun t => - 1) in
  forall t, (t < 2)%nat -> - 10 ^ 100 < maxrho s t /\ minrho s t < 10 ^ 100.
Proof.
  intros s t T. assert (0 < 10 ^ 100) by (apply pow_lt; lra). pose proof (pos_INR t). unfold s. cbn [maxrho minrho]. lra.
Qed.
