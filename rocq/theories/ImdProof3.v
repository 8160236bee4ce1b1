(** Proofs about the IMD export: charges, parameters. *)
From Coq Require Import Reals ZArith List Bool Lia Lra String.
From Verif Require Import PairIndexModel PairIndexProof SplineModel FuncModel ImdModel ImdSpec ImdProof ImdProof2.
Import ListNotations.
Local Open Scope R_scope.

Lemma pair_no_lt : forall n a b, (a < n)%nat -> (b < n)%nat -> (pair_no n a b < n_pairs n)%nat.
Proof. intros n a b Ha Hb. unfold pair_no, n_pairs. pose proof (pair_index_range (Z.of_nat n) (Z.of_nat a) (Z.of_nat b) ltac:(lia) ltac:(lia)). lia. Qed.
Lemma pair_line_spec : forall n V key off y, let l := snd (pair_line n V key off y) in pair_numbers n l (fun c => V (off + c)%nat y).
Proof.
  intros n V key off y l. unfold l, pair_line, pair_numbers. cbn [snd]. rewrite map_length, seq_length. split; auto. intros a b Ha Hb.
  rewrite (map_nth_error _ _ _ (nth_error_seq (npairs n) 0 _ (pair_no_lt n a b Ha Hb))). reflexivity.
Qed.
Theorem sw_lines : forall n V,
  (forall key blk y, In (key, blk, y) sw_keys -> exists l, line_of (write_sw n V (2 * n_pairs n + 1)) key = Some l /\ pair_numbers n l (fun c => V (blk * n_pairs n + c)%nat y)) /\
  exists l, line_of (write_sw n V (2 * n_pairs n + 1)) "stiweb_la" = Some l /\ List.length l = (n_pairs n * n)%nat /\
    forall i j k, (i < n)%nat -> (j < n)%nat -> (k < n)%nat ->
      nth_error l (pair_no n j k * n + i) = Some (V (2 * n_pairs n)%nat (i * n_pairs n + pair_no n j k)%nat).
Proof.
  intros n V. split.
  - intros key blk y H. cbn [sw_keys In] in H.
    exists (snd (pair_line n V "" (blk * n_pairs n) y)). split; [|apply pair_line_spec].
    repeat (destruct H as [H|H]; [injection H as <- <- <-; rewrite ?Nat.mul_1_l, ?Nat.mul_0_l; reflexivity|]). contradiction.
  - exists (snd (la_line n V (2 * n_pairs n + 1))). split; [reflexivity|]. unfold la_line. cbn [snd]. split; [apply (length_grid _ (fun j i => V (2 * n_pairs n + 1 - 1)%nat (i * npairs n + j)%nat))|].
    intros i j k Hi Hj Hk. rewrite (nth_error_grid _ (fun j i => V (2 * n_pairs n + 1 - 1)%nat (i * npairs n + j)%nat)) by (auto; apply pair_no_lt; auto).
    cbn [Nat.add]. do 2 f_equal. lia.
Qed.
Lemma mixed_lt : forall n a b, (a < b)%nat -> (b < n)%nat -> (a + 1 <= pair_no n a b)%nat /\ (pair_no n a b - (a + 1) < n * (n - 1) / 2)%nat.
Proof.
  intros n a b Hab Hb. unfold pair_no, pair_index. destruct (Z.leb_spec (Z.of_nat a) (Z.of_nat b)); [|lia].
  assert (E2 : exists q, (n * (n - 1) = q * 2)%nat).
  { destruct (Nat.Even_or_Odd n) as [[q ->]|[q ->]]; [exists (q * (2 * q - 1))%nat; nia|exists ((2 * q + 1) * q)%nat; replace (2 * q + 1 - 1)%nat with (2 * q)%nat by lia; nia]. }
  destruct E2 as [q Q]. rewrite Q, Nat.div_mul by lia.
  assert (E3 : exists t, (Z.of_nat a * (Z.of_nat a + 1) = t * 2)%Z).
  { destruct (Z.Even_or_Odd (Z.of_nat a)) as [[u ->]|[u ->]]; [exists (u * (2 * u + 1))%Z; ring|exists ((2 * u + 1) * (u + 1))%Z; ring]. }
  destruct E3 as [t T]. rewrite T, Z.quot_mul by lia.
  assert (Q' : (Z.of_nat n * (Z.of_nat n - 1) = Z.of_nat q * 2)%Z) by nia.
  remember (Z.of_nat n) as zn. remember (Z.of_nat a) as za. remember (Z.of_nat b) as zb.
  assert (1 <= za * zn + zb - t - za /\ za * zn + zb - t - (za + 1) < Z.of_nat q)%Z by nia. lia.
Qed.
Theorem ters_lines : forall n V,
  (forall key blk y, In (key, blk, y) ters_keys -> exists l, line_of (write_ters n V) key = Some l /\ pair_numbers n l (fun c => V (blk * n_pairs n + c)%nat y)) /\
  ((1 < n)%nat -> forall key y, In (key, y) [("ters_chi"%string, 0%nat); ("ters_om"%string, 1%nat)] ->
    exists l, line_of (write_ters n V) key = Some l /\ List.length l = (n * (n - 1) / 2)%nat /\
      forall a b, (a < b)%nat -> (b < n)%nat -> nth_error l (pair_no n a b - (a + 1)) = Some (V (n_pairs n + (pair_no n a b - (a + 1)))%nat y)) /\
  ((n <= 1)%nat -> line_of (write_ters n V) "ters_chi" = None /\ line_of (write_ters n V) "ters_om" = None).
Proof.
  intros n V. split; [|split].
  - intros key blk y H. cbn [ters_keys In] in H. unfold write_ters.
    exists (snd (pair_line n V "" (blk * n_pairs n) y)). split; [|apply pair_line_spec].
    repeat (destruct H as [H|H]; [injection H as <- <- <-; rewrite ?Nat.mul_1_l, ?Nat.mul_0_l; reflexivity|]). contradiction.
  - intros Hn key y H. unfold write_ters. destruct (Nat.ltb_spec 1 n); [|lia].
    assert (G : let l := snd (mix_line n V "" y) in List.length l = (n * (n - 1) / 2)%nat /\
      forall a b, (a < b)%nat -> (b < n)%nat -> nth_error l (pair_no n a b - (a + 1)) = Some (V (n_pairs n + (pair_no n a b - (a + 1)))%nat y)).
    { unfold mix_line. cbn [snd]. rewrite map_length, seq_length. split; auto. intros a b Hab Hb. destruct (mixed_lt n a b Hab Hb) as [_ M].
      rewrite (map_nth_error _ _ _ (nth_error_seq _ 0 _ M)). reflexivity. }
    destruct H as [H|[H|[]]]; injection H as <- <-; (eexists; split; [reflexivity|exact G]).
  - intros Hn. unfold write_ters. destruct (Nat.ltb_spec 1 n); [lia|]. split; reflexivity.
Qed.
Theorem mod_lines : forall n V key blk y, In (key, blk, y) mod_keys -> exists l, line_of (write_mod n V) key = Some l /\ pair_numbers n l (fun c => V (blk * n_pairs n + c)%nat y).
Proof.
  intros n V key blk y H. cbn [mod_keys In] in H.
  exists (snd (pair_line n V "" (blk * n_pairs n) y)). split; [|apply pair_line_spec].
    repeat (destruct H as [H|H]; [injection H as <- <- <-; rewrite ?Nat.mul_1_l, ?Nat.mul_0_l; reflexivity|]). contradiction.
Qed.

(** ** charges *)
Lemma collect_map : forall (g : nat -> option R) (h : nat -> R) l, (forall i, In i l -> g i = Some (h i)) -> collect (map g l) = Some (map h l).
Proof. intros g h. induction l as [|i l IH]; intros H; cbn [map collect]; auto. rewrite (H i) by (left; auto). rewrite IH by (intros; apply H; right; auto). reflexivity. Qed.
Theorem charges_lines : forall n charge last_charge names number values dp_cut kappa aend s V,
  (0 < n)%nat -> s = "ms"%string \/ s = "buck"%string -> (3 <= number)%nat ->
  (forall i, (i < number)%nat -> nth_error names i = Some s) ->
  (forall i, (i < number)%nat -> exists v, nth_error values i = Some v /\ forall p, (p < 3)%nat -> nth_error v p = Some (V i p)) ->
  exists f, write_charges n charge last_charge names number values dp_cut kappa aend = Some f /\
    List.length (w_charge f) = n /\ (forall i, (i < n)%nat -> nth_error (w_charge f) i = Some (if Nat.eqb i (n - 1) then last_charge else charge i)) /\
    w_kind f = Some s /\ (forall p, (p < 3)%nat -> nth_error (w_par f) p = Some (map (fun i => V i p) (seq 0 number))) /\
    w_ew_rcut f = dp_cut /\ w_ew_kappa f = kappa /\ w_r_cut f = repeat (aend 0%nat) (n_pairs n).
Proof.
  intros n charge last_charge names number values dp_cut kappa aend s V Hn Hs Hm NM VA.
  assert (AN : forall s', all_named names s' [0; 1; 2]%nat = Some (String.eqb s s')).
  { intros s'. cbn [all_named]. rewrite !NM by lia. destruct (String.eqb s s'); reflexivity. }
  assert (PL : forall p, (p < 3)%nat -> par_line number values p = Some (map (fun i => V i p) (seq 0 number))).
  { intros p Hp. unfold par_line. apply collect_map. intros i Hi. apply in_seq in Hi. destruct (VA i) as (v & E & P); [lia|]. rewrite E. auto. }
  assert (RC : map (fun _ : nat => aend 0%nat) (seq 0 (n * (n + 1) / 2)) = repeat (aend 0%nat) (n_pairs n)).
  { rewrite (half_eq _ (n_pairs n)) by apply n_pairs_nat. assert (G : forall (x : R) m t, map (fun _ : nat => x) (seq t m) = repeat x m) by (intros x m; induction m as [|m IH]; intros t; cbn; [reflexivity|rewrite IH; reflexivity]). apply G. }
  unfold write_charges. rewrite !AN, !PL by lia. rewrite RC.
  assert (G : forall f, f = mk_charges (map charge (seq 0 (n - 1)) ++ [last_charge]) (Some s) [map (fun i => V i 0%nat) (seq 0 number); map (fun i => V i 1%nat) (seq 0 number); map (fun i => V i 2%nat) (seq 0 number)] dp_cut kappa (repeat (aend 0%nat) (n_pairs n)) ->
    List.length (w_charge f) = n /\ (forall i, (i < n)%nat -> nth_error (w_charge f) i = Some (if Nat.eqb i (n - 1) then last_charge else charge i)) /\
    w_kind f = Some s /\ (forall p, (p < 3)%nat -> nth_error (w_par f) p = Some (map (fun i => V i p) (seq 0 number))) /\
    w_ew_rcut f = dp_cut /\ w_ew_kappa f = kappa /\ w_r_cut f = repeat (aend 0%nat) (n_pairs n)).
  { intros f ->. cbn [w_charge w_kind w_par w_ew_rcut w_ew_kappa w_r_cut]. split; [rewrite app_length, map_length, seq_length; cbn; lia|]. split.
    - intros i Hi. destruct (Nat.eqb_spec i (n - 1)) as [->|].
      + rewrite nth_error_app2; rewrite map_length, seq_length; auto. rewrite Nat.sub_diag. reflexivity.
      + rewrite nth_error_app1 by (rewrite map_length, seq_length; lia). rewrite (map_nth_error _ _ _ (nth_error_seq (n - 1) 0 i ltac:(lia))). reflexivity.
    - split; auto. split; auto. intros p Hp. destruct p as [|[|[|]]]; [reflexivity|reflexivity|reflexivity|lia]. }
  destruct Hs as [-> | ->]; cbn [String.eqb Ascii.eqb Bool.eqb]; eexists; (split; [reflexivity|]); apply G; reflexivity.
Qed.
Theorem one_type_outside : forall s charge last_charge values number dp_cut kappa aend, s = "ms"%string \/ s = "buck"%string ->
  write_charges 1 charge last_charge [s] number values dp_cut kappa aend = None.
Proof. intros s charge last_charge values number dp_cut kappa aend [-> | ->]; reflexivity. Qed.
Theorem cutoffs_lost : exists n names number values (aend : nat -> R) f,
  write_charges n (fun _ => 1) (-1) names number values 10 (1/10) aend = Some f /\ w_r_cut f <> map aend (seq 0 (n_pairs n)).
Proof.
  exists 2%nat, ["ms"; "ms"; "ms"]%string, 3%nat, [[1; 2; 3]; [1; 2; 3]; [1; 2; 3]], (fun i => INR i). eexists. split; [reflexivity|].
  cbn [w_r_cut]. change (n_pairs 2) with 3%nat. change (2 * (2 + 1) / 2)%nat with 3%nat. intros E. apply (f_equal (fun l => nth 1 l 5)) in E. cbn in E. lra.
Qed.
Theorem other_kind : exists n names number values f,
  write_charges n (fun _ => 1) (-1) names number values 10 (1/10) (fun _ => 5) = Some f /\ w_kind f = Some "ms"%string /\ In "morse"%string names /\ number = n_pairs n.
Proof.
  exists 3%nat, ["ms"; "ms"; "ms"; "morse"; "morse"; "morse"]%string, 6%nat, (repeat [1; 2; 3] 6). eexists. split; [reflexivity|].
  split; [reflexivity|]. split; [right; right; right; left; reflexivity|reflexivity].
Qed.
Theorem few_parameters : exists n names number values,
  write_charges n (fun _ => 1) (-1) names number values 10 (1/10) (fun _ => 5) = None /\ number = n_pairs n /\ List.length names = number /\ List.length values = number.
Proof.
  exists 3%nat, ["ms"; "ms"; "ms"; "lj"; "lj"; "lj"]%string, 6%nat, (repeat [1; 2; 3] 3 ++ repeat [1; 2] 3). split; [reflexivity|]. auto.
Qed.
