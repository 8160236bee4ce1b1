(** Step widths of simulated annealing. *)
From Coq Require Import List Arith QArith Qabs Bool Lia Lqa.
From Verif Require Import ListUtil DiffEvoModel SimannModel.
Import ListNotations.
Local Open Scope nat_scope.

Lemma count_nonneg : forall na, (0 <= inject_Z (Z.of_nat na))%Q.
Proof. intros. change 0%Q with (inject_Z 0). rewrite <- Zle_Qle. lia. Qed.
Lemma count_le : forall a b, a <= b -> (inject_Z (Z.of_nat a) <= inject_Z (Z.of_nat b))%Q.
Proof. intros. rewrite <- Zle_Qle. lia. Qed.
Lemma inv_bounds : forall v c, (0 < v -> 1 <= c -> c <= 3 -> v / 3 <= v / c /\ v / c <= v)%Q.
Proof.
  intros v c V A B. split.
  - apply Qle_shift_div_l; [lra|]. assert (v / 3 * c == (v * c) / 3)%Q by (field). rewrite H.
    apply Qle_shift_div_r; nra.
  - apply Qle_shift_div_r; [lra|]. nra.
Qed.
(** the width grows exactly for more than 12, shrinks exactly for less than 8 accepted moves
    out of 20, in both cases at most by a factor of 3; it stays positive *)
Theorem adjust_spec : forall na v, na <= NSTEP -> (0 < v)%Q ->
  (v / 3 <= adjust1 na v /\ adjust1 na v <= 3 * v /\
   (v < adjust1 na v <-> (12 < na)%nat) /\ (adjust1 na v < v <-> (na < 8)%nat))%Q.
Proof.
  intros na v L V. unfold NSTEP in L. unfold adjust1. set (n := inject_Z (Z.of_nat na)).
  assert (N0 : (0 <= n)%Q) by apply count_nonneg. assert (N1 : (n <= 20)%Q) by (apply (count_le na 20); auto).
  assert (T3 : (v / 3 == v * (1 # 3))%Q) by field.
  destruct (Nat.ltb_spec 12 na) as [H|H].
  - assert (N2 : (13 <= n)%Q) by (apply (count_le 13 na); lia).
    assert (E : (1 + 2 * (n / 20 - (3 # 5)) / (2 # 5) == n * (1 # 4) - 2)%Q) by field. rewrite E, T3.
    split; [nra|]. split; [nra|]. split; split; intros; try lia; nra.
  - destruct (Nat.ltb_spec na 8) as [K|K].
    + assert (N2 : (n <= 7)%Q) by (apply (count_le na 7); lia).
      assert (E : (1 + 2 * ((2 # 5) - n / 20) / (2 # 5) == 3 - n * (1 # 4))%Q) by field. rewrite E.
      destruct (inv_bounds v (3 - n * (1#4)) V) as [A B]; [lra|lra|]. split; [exact A|]. split; [lra|]. split; split; intros; try lia; try lra.
      apply Qlt_shift_div_r; [lra|]. nra.
    + rewrite T3. split; [lra|]. split; [lra|]. split; split; intros; try lia; lra.
Qed.

Section Acc.
Variable G : Type.
Variables (bld : build) (costf : G -> list Q -> Q) (ndim : nat) (idxp : nat -> nat).
Variable move : nat -> nat -> list Q -> list Q -> list Q * list Q.
Variable accept : nat -> bool.
Local Notation param := (sa_param G bld costf idxp move accept).
Lemma param_nacc : forall s h k, nth k (nacc G (param s h)) 0 <= nth k (nacc G s) 0 + (if k =? h then 1 else 0).
Proof.
  intros s h k. unfold sa_param. destruct (move _ _ _ _) as [xn v'].
  assert (U : nth k (upd (nacc G s) h (S (nth h (nacc G s) 0))) 0 <= nth k (nacc G s) 0 + (if k =? h then 1 else 0)).
  { rewrite nth_upd. destruct (Nat.eqb_spec k h) as [->|N]; cbn [andb]; [destruct (_ <? _)|]; lia. }
  destruct (Qle_bool _ _); [destruct (qltb _ _)|destruct (accept _)]; cbn [nacc]; auto. lia.
Qed.
Lemma pass_nacc : forall s k, nth k (nacc G (fold_left param (seq 0 ndim) s)) 0 <= nth k (nacc G s) 0 + 1.
Proof.
  intros s k.
  assert (P : forall m s lo, nth k (nacc G (fold_left param (seq lo m) s)) 0 <= nth k (nacc G s) 0 + (if (lo <=? k) && (k <? lo + m) then 1 else 0)).
  { induction m; intros s0 lo; cbn [seq fold_left].
    - lia.
    - specialize (IHm (param s0 lo) (S lo)). pose proof (param_nacc s0 lo k).
      destruct (Nat.leb_spec (S lo) k), (Nat.ltb_spec k (S lo + m)), (Nat.leb_spec lo k), (Nat.ltb_spec k (lo + S m)), (Nat.eqb_spec k lo); cbn [andb] in *; lia. }
  specialize (P ndim s 0). destruct (_ && _); lia.
Qed.
(** after the 20 passes of one step no counter is above 20, if it was reset before *)
Theorem nacc_bound : forall s k, nth k (nacc G s) 0 = 0 ->
  nth k (nacc G (fold_left (fun s _ => fold_left param (seq 0 ndim) s) (seq 0 NSTEP) s)) 0 <= NSTEP.
Proof.
  intros s k Z.
  assert (P : forall m, nth k (nacc G (fold_left (fun s _ => fold_left param (seq 0 ndim) s) (seq 0 m) s)) 0 <= m).
  { induction m; [simpl; lia|]. rewrite seq_S, fold_left_app. cbn [fold_left].
    pose proof (pass_nacc (fold_left (fun s _ => fold_left param (seq 0 ndim) s) (seq 0 m) s) k). lia. }
  apply P.
Qed.
End Acc.
