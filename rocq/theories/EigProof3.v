(** The whole routine; a matrix destroyed by the first attempt *)
From Coq Require Import Reals List Arith Bool ZArith Lra Lia FunctionalExtensionality.
From Verif Require Import LoopUtil UqModel UqSpec UqProof3 EigModel EigSpec EigProof EigProof2.
Import ListNotations.
Open Scope R_scope.

Lemma files_sorted : forall we c0 l i, NoDup (map fst (files we c0 i l)) /\
  forall j y, In (j, y) (files we c0 i l) -> (i < j)%Z.
Proof.
  intros we c0 l. induction l as [|a l IH]; intros i; [split; [constructor|cbn; tauto]|].
  destruct (IH (i + 1)%Z) as [I1 I2].
  assert (N : NoDup (map fst (((i + 1)%Z, l_x a) :: files we c0 (i + 1) l))).
  { cbn [map fst]. constructor; [|exact I1]. intros Q. apply in_map_iff in Q. destruct Q as [[j y] [Q1 Q2]].
    cbn in Q1. specialize (I2 j y Q2). lia. }
  assert (M : forall j y, In (j, y) (((i + 1)%Z, l_x a) :: files we c0 (i + 1) l) -> (i < j)%Z).
  { intros j y [Q|Q]; [injection Q as <- <-; lia|]. specialize (I2 j y Q). lia. }
  cbn [files]. destruct (Rlt_dec (l_cost a) c0); [split; assumption|].
  destruct (negb (we =? 0) && (Z.rem (i + 1) we =? 0))%Z; [split; assumption|].
  split; [exact I1|]. intros j y Q. specialize (I2 j y Q). lia.
Qed.

Section Run.
Variable n : nat.
Variable cost : vec -> R.
Variable pertf : vec -> R -> vec.
Variable d : vec -> R -> vec.
Hypothesis d0 : forall x c k, x k = 0 -> d x c k = pertf x c k.
Hypothesis d1 : forall x c k, x k <> 0 -> d x c k = pertf x c k * x k.
Variable syevx : mat -> syout.
Variable gesvd : mat -> svout.
Variables resc temp : R.

Lemma eig_max_pos : forall e, 0 <= e -> 0 < eig_max_used e.
Proof. intros e H. unfold eig_max_used. destruct (Req_EM_T e 0); lra. Qed.

Lemma ensemble_head : forall em v c rs us fuel acc x w l,
  ensemble n cost em resc temp v c rs us fuel acc x w = Some l ->
  exists wt at_ l', l = Line x c wt at_ :: l'.
Proof.
  intros em v c rs us fuel acc x w l H. unfold ensemble in H. destruct acc; cbn [members] in H.
  - injection H as <-. eauto.
  - destruct (mc_sample n cost em resc temp v c rs us fuel 0 0 x w c) as [[[[[x' w'] c'] wt'] k']|]; [|discriminate].
    destruct (members n cost em resc temp v c rs us fuel acc k' wt' (0 + wt') x' w' c'); [|discriminate].
    injection H as <-. eauto.
Qed.

Lemma run_spec : forall em us we acc rs u fuel h0 v0 w0 x l pots neg, 0 <= em ->
  ensemble_generation n cost pertf syevx gesvd resc temp em us we acc rs u fuel h0 v0 w0 x (cost x) = Written l pots neg ->
  exists k H x' v w r, (k < 10)%nat /\ chain n cost d k x (cost x) x' (cost x') /\ cost x' <= cost x /\
    second_differences n cost (cost x') (d x' (cost x')) x' H /\
    eigen n syevx gesvd us 13 H v0 w0 = EDone v w r /\
    List.length l = S acc /\
    (exists wt at_ l', l = Line x' (cost x') wt at_ :: l') /\
    (forall y, In y l -> l_cost y = cost (l_x y)) /\
    (forall i, In i neg <-> (i < n)%nat /\ w i < 0) /\
    NoDup (map fst pots) /\
    (forall j y, In (j, y) pots <-> (1 <= j <= Z.of_nat acc)%Z /\
       y = l_x (nth (Z.to_nat j) l (Line x' 0 0 0)) /\
       (cost y < cost x' \/ (we <> 0 /\ exists q, j = q * we)%Z)).
Proof.
  intros em us we acc rs u fuel h0 v0 w0 x l pots neg P E. unfold ensemble_generation in E.
  destruct (hessians_spec n cost pertf d d0 d1 h0 x (cost x)) as [[H [x' [c' [k [A1 [A2 [A3 [A4 [A5 [A6 A7]]]]]]]]]]|[x' [c' [A1 _]]]];
    rewrite A1 in E; [|discriminate].
  assert (C : c' = cost x' /\ c' <= cost x).
  { destruct k; [destruct (A4 eq_refl) as [-> ->]; split; [reflexivity|lra]|].
    destruct A5 as [A51 A52]; [lia|]. split; [exact A51|lra]. }
  destruct C as [C1 C2]. subst c'.
  destruct (eigen n syevx gesvd us 13 H v0 w0) as [v w r| |] eqn:EE; try discriminate.
  destruct (ensemble n cost (eig_max_used em) resc temp v (cost x') rs u fuel acc x' w) as [l0|] eqn:EN; [|discriminate].
  injection E as <- <- <-.
  destruct (ensemble_spec n cost (eig_max_used em) resc temp (eig_max_pos em P) v rs u fuel acc x' w l0 EN) as [K [_ [L [V _]]]].
  exists k, H, x', v, w, r. split; [lia|]. split; [exact A3|]. split; [exact C2|]. split; [exact A6|].
  split; [exact EE|]. split; [exact L|]. pose proof (ensemble_head _ _ _ _ _ _ _ _ _ _ EN) as HD.
  split; [exact HD|]. split; [exact V|]. split; [apply warned_in|].
  split; [apply files_sorted|]. destruct HD as [wt [at_ [l' ->]]]. cbn [tl].
  cbn [List.length] in L. injection L as L. intros j y. rewrite files_in.
  assert (NE : forall p, (p < List.length l')%nat -> nth p l' (Line (fun _ => 0) 0 0 0) = nth p l' (Line x' 0 0 0))
    by (intros; apply nth_indep; assumption).
  assert (CE : forall p, (p < List.length l')%nat -> l_cost (nth p l' (Line x' 0 0 0)) = cost (l_x (nth p l' (Line x' 0 0 0))))
    by (intros p Q; apply V; right; apply nth_In; exact Q).
  split.
  - intros [p [Q1 [Q2 [Q3 Q4]]]]. rewrite NE in Q3, Q4 by exact Q1. rewrite CE in Q4 by exact Q1.
    split; [lia|]. replace (Z.to_nat j) with (S p) by lia. cbn [nth]. split; [exact Q3|]. rewrite Q3. exact Q4.
  - intros [J [Q3 Q4]]. exists (Z.to_nat (j - 1)). replace (Z.to_nat j) with (S (Z.to_nat (j - 1))) in Q3 by lia.
    cbn [nth] in Q3. assert (B : (Z.to_nat (j - 1) < List.length l')%nat) by lia.
    split; [exact B|]. split; [lia|]. rewrite NE by exact B. split; [exact Q3|].
    rewrite CE by exact B. rewrite <- Q3. exact Q4.
Qed.
Lemma run_ends : forall em us we acc rs u fuel h0 v0 w0 x c,
  ensemble_generation n cost pertf syevx gesvd resc temp em us we acc rs u fuel h0 v0 w0 x c = NoEnd ->
  exists H x' c' k v w r, hessians n cost pertf 11 h0 x c = HDone H x' c' k /\
    eigen n syevx gesvd us 13 H v0 w0 = EDone v w r /\
    ensemble n cost (eig_max_used em) resc temp v c' rs u fuel acc x' w = None.
Proof.
  intros em us we acc rs u fuel h0 v0 w0 x c E. unfold ensemble_generation in E.
  destruct (hessians_spec n cost pertf d d0 d1 h0 x c) as [[H [x' [c' [k [A1 _]]]]]|[x' [c' [A1 _]]]];
    rewrite A1 in E; [|discriminate].
  destruct (eigen n syevx gesvd us 13 H v0 w0) as [v w r| |] eqn:EE.
  - exists H, x', c', (S k), v, w, r. split; [exact A1|]. split; [exact EE|].
    destruct (ensemble n cost (eig_max_used em) resc temp v c' rs u fuel acc x' w); [discriminate|reflexivity].
  - discriminate.
  - exfalso. exact (eigen_ends n syevx gesvd us H v0 w0 EE).
Qed.
End Run.

(** ** A routine that keeps the promise but fails for the first matrix *)
Definition h23 : mat := fun i j => if (i =? j)%nat then INR i + 2 else 0.
Definition zero2 (a : mat) : bool :=
  (if Req_EM_T (a 0%nat 0%nat) 0 then true else false) && (if Req_EM_T (a 1%nat 0%nat) 0 then true else false) &&
  (if Req_EM_T (a 1%nat 1%nat) 0 then true else false).
Definition unit2 : mat := fun i j => if (i =? j)%nat then 1 else 0.
Definition careless (a : mat) : syout :=
  SY (fun i j => if (i <? j)%nat then a i j else 0) 2 (fun _ => 0) unit2 (if zero2 a then 0%Z else 1%Z).

Lemma careless_ok : forall a, syevx_contract 2 a (sy_a (careless a)) (sy_z (careless a)) (sy_w (careless a))
  (sy_m (careless a)) (sy_info (careless a)).
Proof.
  intros a. unfold careless, syevx_contract. cbn [sy_a sy_z sy_w sy_m sy_info].
  split; [destruct (zero2 a); lia|]. split; [reflexivity|]. split.
  - intros I. unfold zero2 in I.
    destruct (Req_EM_T (a 0%nat 0%nat) 0) as [A|A]; [|discriminate].
    destruct (Req_EM_T (a 1%nat 0%nat) 0) as [B|B]; [|discriminate].
    destruct (Req_EM_T (a 1%nat 1%nat) 0) as [C|C]; [|discriminate]. clear I. split.
    + intros x y X Y. destruct x as [|[|x]]; [| |lia]; (destruct y as [|[|y]]; [| |lia]);
      cbn; lra.
    + intros k i K I. assert (Z : forall p q, (p < 2)%nat -> (q < 2)%nat -> lower a p q = 0).
      { intros p q X Y. unfold lower. destruct p as [|[|p]]; [| |lia]; (destruct q as [|[|q]]; [| |lia]); cbn; assumption. }
      unfold apply. cbn [sumr]. rewrite !Z by lia. lra.
  - intros i j L. destruct (Nat.ltb_spec i j); [reflexivity|lia].
Qed.
Lemma careless_run : forall gesvd v0 w0, exists v w, eigen 2 careless gesvd 0 13 h23 v0 w0 = EDone v w 2 /\
  symmetric 2 h23 /\ ~ eigenpairs 2 h23 v w.
Proof.
  intros gesvd v0 w0.
  assert (I1 : sy_info (careless h23) = 1%Z).
  { unfold careless. cbn [sy_info]. unfold zero2, h23. cbn [Nat.eqb INR].
    destruct (Req_EM_T (0 + 2) 0) as [A|A]; [lra|reflexivity]. }
  assert (I2 : sy_info (careless (sy_a (careless h23))) = 0%Z).
  { unfold careless. cbn [sy_info sy_a]. unfold zero2. cbn [Nat.ltb Nat.leb].
    destruct (Req_EM_T 0 0) as [A|A]; [reflexivity|lra]. }
  exists unit2, (fun _ => 0). split; [|split].
  - unfold eigen. change 13%nat with (S (S (S 10))). remember (S 10) as f eqn:Ef.
    cbn [eig_loop]. change (0 <? Z.of_nat 2)%Z with true. cbn iota. unfold calc_h0_eigenvectors. cbn [e_a].
    rewrite I1. cbn [Z.eqb Z.ltb Z.compare]. change (0 <? 1)%Z with true. cbn iota.
    change (10 ?= 0)%Z with Gt. cbn iota. change (Z.of_nat 2 - sy_m (careless h23))%Z with 0%Z.
    change (0 <? Z.of_nat 2)%Z with true. cbn iota. cbn [e_a]. rewrite I2. cbn [Z.eqb].
    change (10 <? 0 + 1)%Z with false. cbn iota. subst f. change (sy_m (careless (sy_a (careless h23)))) with (Z.of_nat 2).
    rewrite loop_done. reflexivity.
  - intros i j A B. unfold h23. destruct (Nat.eqb_spec i j); [subst; rewrite Nat.eqb_refl; reflexivity|].
    destruct (Nat.eqb_spec j i); [lia|reflexivity].
  - intros [_ P]. specialize (P 0%nat 0%nat ltac:(lia) ltac:(lia)). unfold apply in P. cbn in P. unfold h23 in P. cbn in P. lra.
Qed.

(** ** Examples *)
(** a routine for 1x1 matrices *)
Definition one_by_one (a : mat) : syout := SY (fun _ _ => 0) 1 (fun _ => a 0%nat 0%nat) (fun _ _ => 1) 0.
Lemma ex_pairs : eigenpairs 2 h23 unit2 (fun k => INR k + 2).
Proof.
  split.
  - intros x y X Y. destruct x as [|[|x]]; [| |lia]; (destruct y as [|[|y]]; [| |lia]); cbn; lra.
  - intros k i K I. unfold apply, h23, unit2. destruct k as [|[|k]]; [| |lia]; (destruct i as [|[|i]]; [| |lia]); cbn; lra.
Qed.
Lemma ex_run : forall h0 v0 w0, exists l pots neg,
  ensemble_generation 1 (fun _ => 1) (fun _ _ _ => 1) one_by_one (fun a => SV a (fun _ => 0) a 1) 1 1 0 0 1 1
    (fun _ _ => 1) (fun _ => 0) 1 h0 v0 w0 (fun _ => 3) 1 = Written l pots neg.
Proof.
  intros h0 v0 w0. unfold ensemble_generation.
  assert (D0 : forall (x : vec) (c : R) k, x k = 0 -> steps (fun _ _ _ => 1) x c k = 1).
  { intros x c k E. unfold steps, dist. destruct (Req_EM_T (x k) 0); [reflexivity|contradiction]. }
  assert (D1 : forall (x : vec) (c : R) k, x k <> 0 -> steps (fun _ _ _ => 1) x c k = 1 * x k).
  { intros x c k E. unfold steps, dist. destruct (Req_EM_T (x k) 0); [contradiction|reflexivity]. }
  destruct (hessians_spec 1 (fun _ => 1) (fun _ _ _ => 1) (steps (fun _ _ _ => 1)) D0 D1 h0 (fun _ => 3) 1)
    as [[H [x' [c' [k [A1 [A2 [A3 [A4 [A5 _]]]]]]]]]|[x' [c' [_ A]]]].
  - rewrite A1. assert (C : c' = 1).
    { destruct k; [apply A4; reflexivity|]. destruct A5 as [A51 A52]; [lia|]. lra. }
    subst c'. unfold eigen. change 13%nat with (S (S 11)). remember (S 11) as f eqn:Ef. cbn [eig_loop].
    change (0 <? Z.of_nat 1)%Z with true. cbn iota. unfold calc_h0_eigenvectors. cbn [e_a one_by_one sy_info sy_m sy_a sy_z sy_w Z.eqb].
    change (10 <? 0)%Z with false. cbn iota. subst f. change 1%Z with (Z.of_nat 1). rewrite loop_done. change (Z.of_nat 1) with 1%Z. cbn [e_v e_w].
    unfold ensemble. cbn [members mc_sample]. unfold mc_moves.
    destruct (Rlt_dec (1 - 1) 0) as [L|L]; [lra|].
    match goal with |- context [Rle_dec 0 (exp ?e)] => destruct (Rle_dec 0 (exp e)) as [Q|Q]; [|pose proof (exp_pos e); lra] end.
    cbn iota. cbv beta zeta iota. do 3 eexists. reflexivity.
  - exfalso. inversion A; subst. lra.
Qed.
Lemma ex_chain : exists y, chain 1 (fun y => y 0%nat * y 0%nat) (fun _ _ _ => 1) 1 (fun _ => 1) 1 y (y 0%nat * y 0%nat) /\ y 0%nat = 0.
Proof.
  exists (fun k => if (k =? 0)%nat then 0 else 1). split; [|reflexivity].
  apply chain_S with (y := fun k => if (k =? 0)%nat then 0 else 1).
  - left. exists 0%nat, (-1). split; [lia|]. split; [right; reflexivity|]. intros k. destruct (k =? 0)%nat; lra.
  - cbn. lra.
  - intros y' _. cbn. nra.
  - apply chain_0.
Qed.
