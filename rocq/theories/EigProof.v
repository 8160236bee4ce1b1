(** Repeated Hessians *)
From Coq Require Import Reals List Arith Bool ZArith Lra Lia FunctionalExtensionality.
From Verif Require Import LoopUtil UqModel UqSpec UqProof2 EigModel EigSpec.
Import ListNotations.
Open Scope R_scope.

Lemma pt_shift : forall d x i s, pt d x i s = shift1 d x i s.
Proof. intros. unfold shift1. cmp_tac. Qed.
Lemma pt2_shift : forall d x i j s t, i <> j -> pt2 d x i j s t = shift2 d x i j s t.
Proof. intros. unfold shift2. cmp_tac. Qed.

Lemma hess_again : forall n cost pert x c h0 H x' c' flag,
  calc_hessian n cost pert x c h0 = (H, x', c', flag) ->
  second_differences n cost c (dist pert x) x H /\
  (flag = false -> x' = x /\ c' = c /\ forall y, tested n (dist pert x) x y -> cost y < c -> very_large <= cost y) /\
  (flag = true -> c' = cost x' /\ c' < c /\ tested n (dist pert x) x x' /\
     forall y, tested n (dist pert x) x y -> c' <= cost y).
Proof.
  intros n cost pert x c h0 H x' c' flag E. destruct (hessian_spec _ _ _ _ _ _ _ _ _ _ E) as [A [B [C D]]].
  split; [|split; [exact C|exact D]]. split.
  - intros i L. rewrite (A i L). unfold dval. rewrite !pt_shift. reflexivity.
  - intros i j L. destruct (B i j L) as [B1 B2]. rewrite B2, B1. split; [|reflexivity].
    unfold mix. rewrite !pt2_shift by lia. reflexivity.
Qed.

Section A.
Variable n : nat.
Variable cost : vec -> R.
Variable pertf : vec -> R -> vec.
Definition steps (x : vec) (c : R) : vec := dist (pertf x c) x.

Lemma again_spec : forall fuel cnt x c h, (cnt <= 10)%nat -> (11 <= fuel + cnt)%nat ->
  match again n cost pertf fuel cnt (calc_hessian n cost (pertf x c) x c h) with
  | HDone H x' c' k => exists j, k = (cnt + j)%nat /\ (k <= 10)%nat /\ chain n cost steps j x c x' c' /\
      second_differences n cost c' (steps x' c') x' H /\
      forall y, tested n (steps x' c') x' y -> cost y < c' -> very_large <= cost y
  | HTooMany x' c' => chain n cost steps (11 - cnt) x c x' c'
  | HNoEnd => False
  end.
Proof.
  induction fuel; intros cnt x c h L F; [lia|].
  destruct (calc_hessian n cost (pertf x c) x c h) as [[[H x'] c'] flag] eqn:E. cbn [again].
  destruct (hess_again _ _ _ _ _ _ _ _ _ _ E) as [S [P Q]]. destruct flag.
  - destruct (Q eq_refl) as [Q1 [Q2 [Q3 Q4]]]. destruct (Nat.eqb_spec cnt 10) as [N|N].
    + subst cnt. change (11 - 10)%nat with 1%nat. subst c'. apply chain_S with (y := x').
      * exact Q3.
      * exact Q2.
      * exact Q4.
      * apply chain_0.
    + specialize (IHfuel (Datatypes.S cnt) x' c' H). 
      destruct (again n cost pertf fuel (Datatypes.S cnt) (calc_hessian n cost (pertf x' c') x' c' H)) as [H2 x2 c2 k|x2 c2|].
      * destruct IHfuel as [j [J1 [J2 [J3 J4]]]]; [lia|lia|]. exists (Datatypes.S j).
        split; [lia|]. split; [exact J2|]. split; [|exact J4]. subst c'.
        apply chain_S with (y := x'); assumption.
      * replace (11 - cnt)%nat with (Datatypes.S (11 - Datatypes.S cnt)) by lia. subst c'.
        apply chain_S with (y := x'); try assumption. apply IHfuel; lia.
      * apply IHfuel; lia.
  - destruct (P eq_refl) as [P1 [P2 P3]]. subst x' c'. exists 0%nat.
    split; [lia|]. split; [lia|]. split; [apply chain_0|]. split; assumption.
Qed.

Lemma chain_cost : forall k x c z e, chain n cost steps k x c z e ->
  (k = 0%nat -> z = x /\ e = c) /\ ((0 < k)%nat -> e = cost z /\ e < c).
Proof.
  induction 1 as [x c|k x c y z e T L M C [I1 I2]].
  - split; [auto|lia].
  - split; [lia|]. intros _. destruct k.
    + destruct (I1 eq_refl) as [-> ->]. split; [reflexivity|exact L].
    + destruct I2 as [I2 I3]; [lia|]. split; [exact I2|lra].
Qed.
End A.

Lemma steps_eq : forall (pertf : vec -> R -> vec) d,
  (forall x c k, x k = 0 -> d x c k = pertf x c k) ->
  (forall x c k, x k <> 0 -> d x c k = pertf x c k * x k) -> d = steps pertf.
Proof.
  intros pertf d A B. apply functional_extensionality; intros x. apply functional_extensionality; intros c.
  apply functional_extensionality; intros k. unfold steps, dist.
  destruct (Req_EM_T (x k) 0) as [Z|Z]; [apply A|apply B]; exact Z.
Qed.

Lemma hessians_spec : forall n cost (pertf : vec -> R -> vec) d,
  (forall x c k, x k = 0 -> d x c k = pertf x c k) ->
  (forall x c k, x k <> 0 -> d x c k = pertf x c k * x k) ->
  forall h0 x c,
  (exists H x' c' k, hessians n cost pertf 11 h0 x c = HDone H x' c' (S k) /\ (k < 10)%nat /\
     chain n cost d k x c x' c' /\ (k = 0%nat -> x' = x /\ c' = c) /\ ((0 < k)%nat -> c' = cost x' /\ c' < c) /\
     second_differences n cost c' (d x' c') x' H /\
     forall y, one_step n (d x' c') x' y \/ opposite_steps n (d x' c') x' y -> cost y < c' -> 10 ^ 12 <= cost y) \/
  (exists x' c', hessians n cost pertf 11 h0 x c = HTooMany x' c' /\ chain n cost d 10 x c x' c').
Proof.
  intros n cost pertf d A B h0 x c. rewrite (steps_eq pertf d A B). unfold hessians.
  pose proof (again_spec n cost pertf 11 1 x c h0 ltac:(lia) ltac:(lia)) as G.
  destruct (again n cost pertf 11 1 (calc_hessian n cost (pertf x c) x c h0)) as [H x' c' k|x' c'|].
  - left. destruct G as [j [J1 [J2 [J3 [J4 J5]]]]]. exists H, x', c', j. split; [f_equal; lia|].
    split; [lia|]. split; [exact J3|]. destruct (chain_cost n cost pertf j x c x' c' J3) as [K1 K2].
    split; [exact K1|]. split; [exact K2|]. split; [exact J4|exact J5].
  - right. exists x', c'. split; [reflexivity|exact G].
  - destruct G.
Qed.
