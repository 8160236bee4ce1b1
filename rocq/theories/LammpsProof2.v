(** Proofs about the LAMMPS export: where Stillinger-Weber differs; Tersoff. *)
From Coq Require Import Reals ZArith List Bool Lia Lra.
From Verif Require Import Vec PairIndexModel LammpsModel LammpsSpec LammpsProof.
Import ListNotations.
Local Open Scope R_scope.

(** ** Stillinger-Weber *)
(** a1, a2: a1 = 2 everywhere; gamma = 1, a2 = 2 for the first pair and [x] for the others *)
Definition sw_ex (n : nat) (x : R) : nat -> nat -> R := fun c p =>
  if Nat.ltb c (pcol n) then nth p [1; 1; 4; 0; 1; 2] 0
  else nth p [1; if Nat.eqb c (pcol n) then 2 else x] 0.

Theorem sw_second_pair : forall pow0, exists V lam n file,
  write_sw pow0 (fun x => x) V n lam = Some file /\
  (forall i j, (i < n)%nat -> (j < n)%nat -> sw_good V (col n i j)) /\
  exists i j k ijk ijj ikk rj rk c,
    sw_of (lookup file i j k) = Some ijk /\ sw_of (lookup file i j j) = Some ijj /\ sw_of (lookup file i k k) = Some ikk /\
    0 < rj /\ 0 < rk /\ sw_phi3 ijk ijj ikk rj rk c = 0 /\ sw_v3 V lam n i j k rj rk c > 0.
Proof.
  intros pow0. set (V := sw_ex 2 3). set (lam := fun _ _ _ : nat => 1).
  assert (W : exists f, write_sw pow0 (fun x => x) V 2 lam = Some f).
  { unfold write_sw. destruct (Req_EM_T _ _) as [|N]; [eauto|]. exfalso. apply N. unfold V, sw_ex. simpl. auto. }
  destruct W as (file & W). exists V, lam, 2%nat, file. split; [exact W|].
  assert (G : forall i j, (i < 2)%nat -> (j < 2)%nat -> sw_good V (col 2 i j)).
  { intros i j Hi Hj. assert (col 2 i j < 3)%nat.
    { assert (i = 0 \/ i = 1)%nat as [-> | ->] by lia; assert (j = 0 \/ j = 1)%nat as [-> | ->] by lia; vm_compute; lia. }
    unfold sw_good, V, sw_ex. change (pcol 2) with 3%nat. destruct (Nat.ltb_spec (col 2 i j) 3); [|lia]. simpl. lra. }
  split; [exact G|].
  assert (E : forall i j k, (i < 2)%nat -> (j < 2)%nat -> (k < 2)%nat -> sw_of (lookup file i j k) = Some (sw_exported V lam 2 (fun x => x) i j k)).
  { intros i j k Hi Hj Hk. apply (sw_entry_ok pow0 V lam 2 (fun x => x) file); auto. }
  exists 0%nat, 1%nat, 1%nat, (sw_exported V lam 2 (fun x => x) 0 1 1), (sw_exported V lam 2 (fun x => x) 0 1 1), (sw_exported V lam 2 (fun x => x) 0 1 1), (5/2), (5/2), 0.
  do 3 (split; [apply E; lia|]). split; [lra|]. split; [lra|]. split.
  - unfold sw_phi3. destruct (Rlt_dec _ _) as [L|]; auto. exfalso. unfold sw_exported, V, sw_ex in L. change (col 2 0 1) with 1%nat in L. change (pcol 2) with 3%nat in L. simpl in L. lra.
  - unfold sw_v3, sw_f, V, sw_ex, lam. change (col 2 0 1) with 1%nat. change (pcol 2) with 3%nat. simpl.
    destruct (Rlt_dec (5/2) 3); [|lra]. destruct (Req_EM_T 0 1); [lra|]. destruct (Rlt_dec _ _); [|lra].
    set (y := exp _). assert (0 < y) by apply exp_pos. assert (0 < y * y) by (apply Rmult_lt_0_compat; auto). nra.
Qed.

(** %g writes numbers with finitely many decimals, and those with at most six digits exactly *)
Definition six_digits (pr : R -> R) : Prop :=
  (forall x, decimal (pr x)) /\
  (forall m e : Z, (Z.abs m < 10 ^ 6)%Z -> pr (IZR m * powerRZ 10 e) = IZR m * powerRZ 10 e).

Lemma third_not_decimal : ~ decimal (-1 / 3).
Proof.
  intros (m & e & E).
  assert (T : powerRZ 10 e <> 0) by (apply powerRZ_NOR; lra).
  destruct (Z_lt_le_dec e 0) as [N|P].
  - assert (Q : IZR (3 * m) = IZR (- 10 ^ (- e))).
    { rewrite mult_IZR, opp_IZR.
      assert (K : IZR (10 ^ (- e)) = / powerRZ 10 e).
      { destruct e as [|q|q]; try lia. simpl Z.opp. simpl powerRZ. rewrite Rinv_inv. rewrite <- (positive_nat_Z q). rewrite <- pow_IZR. auto. }
      rewrite K. apply Rmult_eq_reg_r with (powerRZ 10 e); auto. rewrite Rmult_assoc, <- E. field. auto. }
    apply eq_IZR in Q. assert (M : (10 ^ (- e) mod 3 = 1)%Z).
    { rewrite <- (Z2Nat.id (- e)) by lia. generalize (Z.to_nat (- e)). induction n; [reflexivity|]. rewrite Nat2Z.inj_succ, Z.pow_succ_r by lia. rewrite Z.mul_mod, IHn by lia. reflexivity. }
    assert ((- 10 ^ (- e)) mod 3 = 0)%Z by (rewrite <- Q, Z.mul_comm; apply Z_mod_mult).
    pose proof (Z.div_mod (10 ^ (- e)) 3). lia.
  - assert (Q : -1 = IZR (3 * m * 10 ^ e)).
    { rewrite !mult_IZR. rewrite <- (Z2Nat.id e) by lia. rewrite <- pow_IZR. rewrite pow_powerRZ, Z2Nat.id by lia. lra. }
    apply eq_IZR in Q. lia.
Qed.

Theorem sw_digits : forall pow0 pr, six_digits pr -> exists V lam file e,
  write_sw pow0 pr V 1 lam = Some file /\ sw_good V (col 1 0 0) /\ same_cutoff V 1 (col 1 0 0) /\
  sw_of (lookup file 0 0 0) = Some e /\
  sw_phi3 e e e 1 1 (-1 / 3) > 0 /\ sw_v3 V lam 1 0 0 0 1 1 (-1 / 3) = 0.
Proof.
  intros pow0 pr [D S]. set (V := sw_ex 1 2). set (lam := fun _ _ _ : nat => 1).
  assert (W : exists f, write_sw pow0 pr V 1 lam = Some f).
  { unfold write_sw. destruct (Req_EM_T _ _) as [|N]; [eauto|]. exfalso. apply N. reflexivity. }
  destruct W as (file & W). assert (G : sw_good V (col 1 0 0)) by (split; unfold V, sw_ex; simpl; lra).
  exists V, lam, file, (sw_exported V lam 1 pr 0 0 0). split; [exact W|]. split; [exact G|]. split; [reflexivity|].
  split; [apply (sw_entry_ok pow0 V lam 1 pr file); auto|].
  assert (P : forall m : Z, (Z.abs m < 10 ^ 6)%Z -> pr (IZR m) = IZR m) by (intros m M; specialize (S m 0%Z M); simpl in S; rewrite Rmult_1_r in S; auto).
  assert (P1 : pr 1 = 1) by (apply (P 1%Z); reflexivity). assert (P2 : pr 2 = 2) by (apply (P 2%Z); reflexivity).
  split.
  - unfold sw_phi3, sw_damp, sw_exported. cbv zeta. cbn [l_a l_sigma l_lambda l_eps l_cos0 l_gamma].
    change (col 1 0 0) with 0%nat. change (pcol 1) with 1%nat. unfold V, sw_ex, lam; simpl nth; simpl Nat.ltb; cbv iota. change (pcol 1) with 1%nat. simpl.
    replace (2 / 1) with 2 by lra. replace (1 / 1) with 1 by lra. rewrite P1, P2.
    destruct (Rlt_dec 1 (2 * 1)); [|lra].
    assert (N : pr (-1 / 3) <> -1 / 3) by (intros N; apply third_not_decimal; rewrite <- N; apply D).
    set (y := exp _). assert (0 < y) by apply exp_pos. assert (Q : 0 < (-1 / 3 - pr (-1 / 3)) * (-1 / 3 - pr (-1 / 3))).
    { destruct (Rtotal_order (-1 / 3 - pr (-1 / 3)) 0) as [K|[K|K]]; [|exfalso; apply N; lra|]; nra. }
    assert (0 < y * y) by (apply Rmult_lt_0_compat; auto). apply Rlt_gt.
    match goal with |- 0 < ?t => replace t with (((-1 / 3 - pr (-1 / 3)) * (-1 / 3 - pr (-1 / 3))) * (y * y)) by (unfold y; ring) end. apply Rmult_lt_0_compat; auto.
  - unfold sw_v3. cbv zeta. repeat (match goal with |- (if ?b then _ else _) = _ => destruct b; auto end). replace (-1 / 3 + 1 / 3) with 0 by lra. ring.
Qed.

Lemma numbers_none : forall l, In None l -> numbers l = None.
Proof. induction l as [|[x|] l IH]; simpl; intros H; auto; [tauto|]. rewrite IH; auto. destruct H; [discriminate|auto]. Qed.
(** B = 0: the file contains no number there *)
Theorem sw_degenerate : forall pow0 pr V n lam file i j k, write_sw pow0 pr V n lam = Some file ->
  (i < n)%nat -> (j < n)%nat -> (k < n)%nat -> V (col n i j) 1%nat = 0 -> sw_of (lookup file i j k) = None.
Proof.
  intros pow0 pr V n lam file i j k W Li Lj Lk B. unfold write_sw in W. destruct (Req_EM_T _ _); [|discriminate]. injection W as <-.
  change (@triples_of n line) with (@triples_of n entry_line). rewrite lookup_triples by (auto; intros; reflexivity).
  assert (Q : forall a b, quot (quot a (Some (V (col n i j) 1%nat))) b = None).
  { intros a b. rewrite B. unfold quot. destruct a; auto. destruct (Req_EM_T 0 0); [auto|tauto]. }
  unfold sw_of. rewrite numbers_none; auto. unfold sw_line. cbv zeta. cbn [snd map]. rewrite Q. simpl. tauto.
Qed.
