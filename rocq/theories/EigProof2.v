(** Eigenvalues, files *)
From Coq Require Import Reals List Arith Bool ZArith Lra Lia FunctionalExtensionality.
From Verif Require Import LoopUtil UqModel UqSpec UqProof3 EigModel EigSpec EigProof.
Import ListNotations.
Open Scope R_scope.

Section E.
Variable n : nat.
Variable syevx : mat -> syout.
Variable gesvd : mat -> svout.

Lemma loop_done : forall us fuel k count s, eig_loop n syevx gesvd us (S fuel) k (Z.of_nat n) count s =
  EDone (e_v s) (e_w s) k.
Proof. intros. cbn [eig_loop]. rewrite Z.ltb_irrefl. reflexivity. Qed.

(** the loop ends in the twelfth round at the latest *)
Lemma loop_ends : forall fuel us k m count s, (0 <= count)%Z -> (13 <= Z.of_nat fuel + count)%Z -> (2 <= fuel)%nat ->
  eig_loop n syevx gesvd us fuel k m count s <> ENoEnd.
Proof.
  induction fuel; intros us k m count s C F G; [lia|]. cbn [eig_loop].
  destruct (Z.ltb_spec m (Z.of_nat n)) as [L|L]; [|discriminate].
  destruct (us =? 1)%Z.
  - unfold calc_svd. destruct (sv_info (gesvd (e_a s)) =? 0)%Z; [|discriminate].
    destruct fuel; [lia|]. rewrite loop_done. discriminate.
  - destruct (calc_h0_eigenvectors n syevx s) as [[m' s']|]; [|discriminate].
    destruct (Z.ltb_spec 10 count) as [Q|Q].
    + unfold calc_svd. destruct (sv_info (gesvd (e_a s')) =? 0)%Z; [|discriminate].
      rewrite Z.eqb_refl. cbn [negb]. destruct fuel; [lia|]. rewrite loop_done. discriminate.
    + apply IHfuel; lia.
Qed.
Lemma eigen_ends : forall us h v0 w0, eigen n syevx gesvd us 13 h v0 w0 <> ENoEnd.
Proof. intros. apply loop_ends; lia. Qed.

Lemma lower_sym : forall h, symmetric n h -> forall i j, (i < n)%nat -> (j < n)%nat -> lower h i j = h i j.
Proof.
  intros h S i j A B. unfold lower. destruct (Nat.le_gt_cases i j) as [L|L].
  - rewrite Nat.max_r, Nat.min_l by lia. apply S; assumption.
  - rewrite Nat.max_l, Nat.min_r by lia. reflexivity.
Qed.
Lemma sumr_ext : forall m f g, (forall i, (i < m)%nat -> f i = g i) -> sumr f m = sumr g m.
Proof.
  induction m; intros f g H; [reflexivity|]. cbn [sumr]. rewrite (IHm f g), (H m) by (intros; try apply H; lia).
  reflexivity.
Qed.
Lemma pairs_lower : forall h z w, symmetric n h -> eigenpairs n (lower h) z w -> eigenpairs n h z w.
Proof.
  intros h z w S [O P]. split; [exact O|]. intros k i A B. rewrite <- (P k i A B). unfold apply.
  apply sumr_ext. intros j L. rewrite lower_sym by assumption. reflexivity.
Qed.

Lemma eigen_first : forall us h v0 w0, (0 < n)%nat -> us <> 1%Z -> symmetric n h ->
  syevx_contract n h (sy_a (syevx h)) (sy_z (syevx h)) (sy_w (syevx h)) (sy_m (syevx h)) (sy_info (syevx h)) ->
  sy_info (syevx h) = 0%Z ->
  exists v w, eigen n syevx gesvd us 13 h v0 w0 = EDone v w 1 /\ eigenpairs n h v w.
Proof.
  intros us h v0 w0 N U S [_ [M [P _]]] I. exists (sy_z (syevx h)), (sy_w (syevx h)). split.
  - unfold eigen. change 13%nat with (Datatypes.S (Datatypes.S 11)).
    remember (Datatypes.S 11) as f eqn:Ef. cbn [eig_loop].
    destruct (Z.ltb_spec 0 (Z.of_nat n)); [|lia]. rewrite (proj2 (Z.eqb_neq us 1) U).
    unfold calc_h0_eigenvectors. cbn [e_a]. rewrite I, M. cbn [Z.eqb Z.ltb Z.compare]. subst f.
    rewrite loop_done. reflexivity.
  - apply pairs_lower; [exact S|exact (P I)].
Qed.
Lemma eigen_svd : forall h v0 w0 v w k, (0 < n)%nat -> symmetric n h ->
  gesvd_contract n h (sv_u (gesvd h)) (sv_s (gesvd h)) (sv_info (gesvd h)) ->
  eigen n syevx gesvd 1 13 h v0 w0 = EDone v w k -> k = 1%nat /\ singular n h v w.
Proof.
  intros h v0 w0 v w k N S C E. unfold eigen in E. change 13%nat with (Datatypes.S (Datatypes.S 11)) in E.
  remember (Datatypes.S 11) as f eqn:Ef. cbn [eig_loop] in E.
  destruct (Z.ltb_spec 0 (Z.of_nat n)); [|lia]. cbn [Z.eqb Pos.eqb] in E. unfold calc_svd in E. cbn [e_a] in E.
  destruct (Z.eqb_spec (sv_info (gesvd h)) 0) as [I|I]; [|discriminate]. subst f. rewrite loop_done in E.
  cbn [e_v e_w] in E. injection E as <- <- <-. split; [reflexivity|]. apply C; assumption.
Qed.
(** after a failure nothing of the first matrix but the other triangle is left *)
Lemma eigen_retry : forall us h v0 w0, (0 < n)%nat -> us <> 1%Z ->
  syevx_contract n h (sy_a (syevx h)) (sy_z (syevx h)) (sy_w (syevx h)) (sy_m (syevx h)) (sy_info (syevx h)) ->
  sy_info (syevx h) <> 0%Z ->
  let h2 := sy_a (syevx h) in
  syevx_contract n h2 (sy_a (syevx h2)) (sy_z (syevx h2)) (sy_w (syevx h2)) (sy_m (syevx h2)) (sy_info (syevx h2)) ->
  sy_info (syevx h2) = 0%Z ->
  exists v w, eigen n syevx gesvd us 13 h v0 w0 = EDone v w 2 /\ eigenpairs n (lower h2) v w.
Proof.
  intros us h v0 w0 N U [P [M _]] I h2 [_ [M2 [P2 _]]] I2. exists (sy_z (syevx h2)), (sy_w (syevx h2)).
  split; [|exact (P2 I2)]. unfold eigen. change 13%nat with (Datatypes.S (Datatypes.S (Datatypes.S 10))).
  remember (Datatypes.S 10) as f eqn:Ef. cbn [eig_loop].
  destruct (Z.ltb_spec 0 (Z.of_nat n)); [|lia]. rewrite (proj2 (Z.eqb_neq us 1) U).
  unfold calc_h0_eigenvectors. cbn [e_a]. rewrite (proj2 (Z.eqb_neq _ _) I).
  destruct (Z.ltb_spec 0 (sy_info (syevx h))); [|lia]. rewrite M, Z.sub_diag. cbn [Z.ltb Z.compare].
  destruct (Z.ltb_spec 0 (Z.of_nat n)); [|lia]. cbn [e_a]. fold h2. rewrite I2, M2.
  cbn [Z.eqb Z.add Z.ltb Z.compare]. change (10 ?= 1)%Z with Gt. cbn iota. subst f. rewrite loop_done. reflexivity.
Qed.

Lemma warned_in : forall w i, In i (warned n w) <-> (i < n)%nat /\ w i < 0.
Proof.
  intros w. unfold warned. assert (G : forall m i, In i (for_up 0 m (fun i l => if Rlt_dec (w i) 0 then l ++ [i] else l) []) <->
    (i < m)%nat /\ w i < 0).
  { induction m; intros i; [cbn; split; [tauto|lia]|]. rewrite for_up_S by lia.
    destruct (Rlt_dec (w m) 0) as [L|L].
    - rewrite in_app_iff, IHm. cbn [In]. split.
      + intros [[A B]|[A|[]]]; [split; [lia|exact B]|subst; split; [lia|exact L]].
      + intros [A B]. destruct (Nat.eq_dec i m); [right; left; congruence|left; split; [lia|exact B]].
    - rewrite IHm. split; intros [A B]; (split; [|exact B]); [lia|].
      destruct (Nat.eq_dec i m); [subst; contradiction|lia]. }
  apply G.
Qed.
End E.

(** ** files *)
Lemma files_in : forall we c0 l i j y, In (j, y) (files we c0 i l) <->
  exists p, (p < List.length l)%nat /\ j = (i + Z.of_nat p + 1)%Z /\ y = l_x (nth p l (Line (fun _ => 0) 0 0 0)) /\
    (l_cost (nth p l (Line (fun _ => 0) 0 0 0)) < c0 \/ (we <> 0 /\ exists q, j = q * we)%Z).
Proof.
  intros we c0. induction l as [|a l IH]; intros i j y.
  - cbn. split; [tauto|]. intros [p [L _]]. lia.
  - assert (E : files we c0 i (a :: l) =
      (if Rlt_dec (l_cost a) c0 then [((i + 1)%Z, l_x a)] else
       if (negb (we =? 0) && (Z.rem (i + 1) we =? 0))%Z then [((i + 1)%Z, l_x a)] else []) ++ files we c0 (i + 1) l).
    { cbn [files]. destruct (Rlt_dec (l_cost a) c0); [reflexivity|].
      destruct (negb (we =? 0) && (Z.rem (i + 1) we =? 0))%Z; reflexivity. }
    assert (K : In (j, y) (if Rlt_dec (l_cost a) c0 then [((i + 1)%Z, l_x a)] else
       if (negb (we =? 0) && (Z.rem (i + 1) we =? 0))%Z then [((i + 1)%Z, l_x a)] else []) <->
      (j = (i + 1)%Z /\ y = l_x a /\ (l_cost a < c0 \/ (we <> 0 /\ exists q, j = q * we)%Z))).
    { destruct (Rlt_dec (l_cost a) c0) as [L|L].
      - cbn [In]. split; [intros [Q|[]]; injection Q as <- <-; auto|intros [-> [-> _]]; auto].
      - destruct (Z.eqb_spec we 0) as [W|W]; cbn [negb andb].
        + cbn [In]. split; [tauto|]. intros [_ [_ [Q|[Q _]]]]; contradiction.
        + destruct (Z.eqb_spec (Z.rem (i + 1) we) 0) as [M|M]; cbn [In].
          * split; [|intros [-> [-> _]]; auto]. intros [Q|[]]. injection Q as <- <-.
            split; [reflexivity|]. split; [reflexivity|]. right. split; [exact W|].
            apply Z.rem_divide in M; [|exact W]. destruct M as [q M]. exists q. exact M.
          * split; [tauto|]. intros [-> [_ [Q|[_ [q Q]]]]]; [contradiction|]. apply M.
            apply Z.rem_divide; [exact W|]. exists q. exact Q. }
    rewrite E, in_app_iff, K, IH. clear. split.
    + intros [[J [Y D]]|[p [L [J [Y D]]]]].
      * exists 0%nat. cbn [nth List.length]. split; [lia|]. split; [lia|]. auto.
      * exists (S p). cbn [nth List.length]. split; [lia|]. split; [lia|]. auto.
    + intros [[|p] [L [J [Y D]]]]; cbn [nth List.length] in *.
      * left. split; [lia|]. auto.
      * right. exists p. split; [lia|]. split; [lia|]. auto.
Qed.
