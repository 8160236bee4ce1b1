From Coq Require Import Reals List Arith Bool Lra Lia.
From Verif Require Import Vec LoopUtil NbrModel PairModel PairProof PairProof2 ErrModel ErrSpec.
Import ListNotations.
Open Scope R_scope.

(** loops that add are sums *)
Lemma loop_sum : forall (g : nat -> R) n a, for_up 0 n (fun i acc => acc + g i) a = a + rsumf g (seq 0 n).
Proof.
  intros g n a. induction n as [|n IH].
  - rewrite for_up_nil. unfold rsumf; simpl. ring.
  - rewrite for_up_S, IH by lia. rewrite seq_S, rsumf_snoc. simpl. ring.
Qed.
Lemma sum_blocks : forall (g : nat -> nat -> R) m n, (0 < m)%nat ->
  rsumf (fun i => g (i / m)%nat (i mod m)%nat) (seq 0 (m * n)) = rsumf (fun a => rsumf (g a) (seq 0 m)) (seq 0 n).
Proof.
  intros g m n Hm. induction n as [|n IH].
  - rewrite Nat.mul_0_r. reflexivity.
  - replace (m * S n)%nat with (m * n + m)%nat by lia. rewrite seq_app, rsumf_app, IH, seq_S, rsumf_snoc. f_equal.
    replace (seq (0 + m * n) m) with (map (fun k => (m * n + k)%nat) (seq 0 m)).
    + rewrite rsumf_map. apply rsumf_ext. intros k K. apply in_seq in K. simpl.
      replace (m * n + k)%nat with (k + n * m)%nat by lia.
      rewrite Nat.div_add, Nat.mod_add by lia. rewrite Nat.div_small, Nat.mod_small by lia. reflexivity.
    + assert (G : forall b q t, map (fun k => (b + k)%nat) (seq t q) = seq (b + t) q).
      { intros b. induction q; intros t; simpl; auto. f_equal. rewrite IHq. f_equal. lia. }
      rewrite G. f_equal. lia.
Qed.
Lemma sum_confs : forall (cs : nat -> conf) (g : nat -> nat -> R) (h : nat -> R) n,
  cnfstart (cs O) = O -> (forall ci, cnfstart (cs (S ci)) = (cnfstart (cs ci) + inconf (cs ci))%nat) ->
  (forall ci a, (ci < n)%nat -> (cnfstart (cs ci) <= a < cnfstart (cs ci) + inconf (cs ci))%nat -> h a = g ci a) ->
  rsumf h (seq 0 (cnfstart (cs n))) = rsumf (fun ci => rsumf (g ci) (seq (cnfstart (cs ci)) (inconf (cs ci)))) (seq 0 n).
Proof.
  intros cs g h n Z C. induction n as [|n IH]; intros H.
  - rewrite Z. reflexivity.
  - rewrite seq_S, rsumf_snoc, <- IH by (intros; apply H; auto; lia).
    rewrite C, seq_app, rsumf_app. f_equal. simpl. apply rsumf_ext. intros a A. apply in_seq in A. apply H; lia.
Qed.

(** number of atoms *)
Definition natoms (nconf : nat) (cs : nat -> conf) : nat := cnfstart (cs nconf).

Section Err.
Variable bld : build.
Variables eweight sweight : R.
Variables nconf mdim : nat.
Variable cs : nat -> conf.
Variable conf_of : nat -> nat.
Variable opt : bool.
Variable d : dev.
Notation lo ci := (cnfstart (cs ci)).
Notation hi ci := (cnfstart (cs ci) + inconf (cs ci))%nat.
Notation natoms := (natoms nconf cs).
Hypothesis FIRST : cnfstart (cs O) = O.
Hypothesis CONT : forall ci, cnfstart (cs (S ci)) = (cnfstart (cs ci) + inconf (cs ci))%nat.
Hypothesis OF : forall ci a, (ci < nconf)%nat -> (lo ci <= a < hi ci)%nat -> conf_of a = ci.

Lemma force_sum_spec : force_sum bld natoms cs conf_of d =
  rsumf (fun ci => rsumf (fun a => if (negb (CONTRIB bld) || contrib (cs ci) a)%bool
                                    then conf_weight (cs ci) * sqv (frc d a) else 0) (seq (lo ci) (inconf (cs ci)))) (seq 0 nconf).
Proof.
  unfold force_sum.
  rewrite (loop_sum (fun i => if (CONTRIB bld && negb (contrib (at_conf cs conf_of (i / 3)) (i / 3)))%bool then 0
           else conf_weight (at_conf cs conf_of (i / 3)) * sq (comp (frc d (i / 3)) (i mod 3)))), Rplus_0_l.
  rewrite (sum_blocks (fun a k => if (CONTRIB bld && negb (contrib (at_conf cs conf_of a) a))%bool then 0
           else conf_weight (at_conf cs conf_of a) * sq (comp (frc d a) k)) 3) by lia.
  apply sum_confs; auto.
  intros ci a H A. unfold at_conf. rewrite (OF ci a H A).
  unfold rsumf; simpl. unfold sqv. destruct (CONTRIB bld), (contrib (cs ci) a); simpl; ring.
Qed.
Lemma energy_sum_spec : energy_sum eweight nconf cs d = rsumf (fun ci => conf_weight (cs ci) * eweight * sq (en d ci)) (seq 0 nconf).
Proof.
  unfold energy_sum. destruct (Req_EM_T eweight 0) as [E|E].
  - symmetry. apply rsumf_zero. intros. rewrite E. ring.
  - rewrite (loop_sum (fun i => conf_weight (cs i) * eweight * sq (en d i))). ring.
Qed.
Lemma stress_sum_spec : stress_sum bld sweight nconf cs d =
  rsumf (fun ci => if STRESS bld then rsumf (fun k => conf_weight (cs ci) * sweight * sq (str d ci k)) (seq 0 6) else 0) (seq 0 nconf).
Proof.
  unfold stress_sum. destruct (STRESS bld); [|symmetry; apply rsumf_zero; auto].
  destruct (Req_EM_T sweight 0) as [E|E].
  - symmetry. apply rsumf_zero. intros. apply rsumf_zero. intros. rewrite E. ring.
  - rewrite (loop_sum (fun i => conf_weight (cs (i / 6)) * sweight * sq (str d (i / 6) (i mod 6)))), Rplus_0_l.
    apply (sum_blocks (fun a k => conf_weight (cs a) * sweight * sq (str d a k)) 6). lia.
Qed.

(** entries that are not scored are zero *)
Definition quiet : Prop :=
  (forall ci a, (ci < nconf)%nat -> (lo ci <= a < hi ci)%nat -> uf (cs ci) = false -> frc d a = v0) /\
  (forall ci k, (ci < nconf)%nat -> (k < 6)%nat -> STRESS bld = true -> (uf (cs ci) && us (cs ci))%bool = false -> str d ci k = 0).
Lemma parts : quiet ->
  force_sum bld natoms cs conf_of d + energy_sum eweight nconf cs d + stress_sum bld sweight nconf cs d =
  rsumf (fun ci =>
     rsumf (fun a => if (uf (cs ci) && (negb (CONTRIB bld) || contrib (cs ci) a))%bool
                     then conf_weight (cs ci) * sqv (frc d a) else 0) (seq (lo ci) (inconf (cs ci))) +
     conf_weight (cs ci) * eweight * sq (en d ci) +
     (if (STRESS bld && uf (cs ci) && us (cs ci))%bool
      then rsumf (fun k => conf_weight (cs ci) * sweight * sq (str d ci k)) (seq 0 6) else 0)) (seq 0 nconf).
Proof.
  intros (Q1 & Q2). rewrite force_sum_spec, energy_sum_spec, stress_sum_spec, <- !rsumf_plus.
  apply rsumf_ext. intros ci C. apply in_seq in C. f_equal; [f_equal|].
  - apply rsumf_ext. intros a A. apply in_seq in A. destruct (uf (cs ci)) eqn:U; simpl; auto.
    rewrite (Q1 ci a) by (auto; lia). destruct (_ || _)%bool; auto. unfold sqv, sq; simpl. ring.
  - destruct (STRESS bld) eqn:T; simpl; auto. destruct (uf (cs ci) && us (cs ci))%bool eqn:U; auto.
    apply rsumf_zero. intros k K. change (In k (seq 0 6)) in K. apply in_seq in K. rewrite (Q2 ci k) by (auto; lia). unfold sq. ring.
Qed.

(** the report for a total with the punishments [rest] *)
Lemma report_adds_up : forall tot rest,
  tot = force_sum bld natoms cs conf_of d + energy_sum eweight nconf cs d + stress_sum bld sweight nconf cs d + rest ->
  let r := write_errors bld eweight sweight natoms nconf mdim cs conf_of opt d tot in
  r_total r = r_forces r + shown (r_energies r) + shown (r_stresses r) + rest /\
  (r_punish r = if Rlt_dec (1 / 100) rest then if opt then Some rest else None else None).
Proof.
  intros tot rest E. cbv zeta. unfold write_errors; cbn [r_total r_forces r_energies r_stresses r_punish].
  assert (Hr : tot - force_sum bld natoms cs conf_of d - energy_sum eweight nconf cs d - stress_sum bld sweight nconf cs d = rest) by lra.
  rewrite Hr. split; [|reflexivity].
  assert (A : shown (if_weight eweight (energy_sum eweight nconf cs d)) = energy_sum eweight nconf cs d).
  { unfold if_weight, energy_sum. destruct (Req_EM_T eweight 0); reflexivity. }
  assert (B : shown (if STRESS bld then if_weight sweight (stress_sum bld sweight nconf cs d) else None) = stress_sum bld sweight nconf cs d).
  { unfold if_weight, stress_sum. destruct (STRESS bld); [|reflexivity]. destruct (Req_EM_T sweight 0); reflexivity. }
  rewrite A, B. exact E.
Qed.

End Err.

(** ** rms *)
Section Rms.
Variable bld : build.
Variable nconf : nat.
Variable cs : nat -> conf.
Variable conf_of : nat -> nat.
Variable d : dev.
Notation natoms := (natoms nconf cs).
Definition counted : list nat := filter (fun a => negb (CONTRIB bld) || contrib (cs (conf_of a)) a)%bool (seq 0 natoms).
Definition deviations : list R :=
  flat_map (fun a => map (fun k => undone bld cs conf_of a (comp (frc d a) k)) (seq 0 3)) counted.

Lemma rms_loop : forall n,
  for_up 0 n (fun i s =>
    if (negb (CONTRIB bld) || contrib (at_conf cs conf_of i) i)%bool then
      (fst s + sq (undone bld cs conf_of i (vx (frc d i))) + sq (undone bld cs conf_of i (vy (frc d i))) + sq (undone bld cs conf_of i (vz (frc d i))), S (snd s))
    else s) (0, O) =
  (rsumf (fun x => x * x) (flat_map (fun a => map (fun k => undone bld cs conf_of a (comp (frc d a) k)) (seq 0 3))
     (filter (fun a => negb (CONTRIB bld) || contrib (cs (conf_of a)) a)%bool (seq 0 n))),
   length (filter (fun a => negb (CONTRIB bld) || contrib (cs (conf_of a)) a)%bool (seq 0 n))).
Proof.
  induction n as [|n IH].
  - rewrite for_up_nil. reflexivity.
  - rewrite for_up_S, IH by lia. rewrite (seq_S n 0), filter_app, flat_map_app, rsumf_app, app_length. unfold at_conf. simpl.
    destruct (negb (CONTRIB bld) || contrib (cs (conf_of n)) n)%bool; cbn [fst snd].
    + f_equal; [|simpl; lia]. unfold rsumf; simpl. unfold sq. ring.
    + f_equal; [|simpl; lia]. unfold rsumf; simpl. ring.
Qed.
Lemma length3 : forall l, length (flat_map (fun a => map (fun k => undone bld cs conf_of a (comp (frc d a) k)) (seq 0 3)) l) = (3 * length l)%nat.
Proof. induction l; simpl in *; auto. lia. Qed.
Lemma all_counted : CONTRIB bld = false -> counted = seq 0 natoms.
Proof.
  intros H. unfold counted. rewrite H. simpl. induction (seq 0 natoms); simpl; auto. f_equal; auto.
Qed.
Lemma sqrt_rms : forall s n, (0 < n)%nat -> 0 <= s -> exists r, osqrt (quot s n) = Some r /\ 0 <= r /\ r * r * INR n = s.
Proof.
  intros s n Hn Hs. destruct n as [|n]; [lia|]. unfold quot, osqrt. exists (sqrt (s / INR (S n))).
  assert (P : 0 < INR (S n)) by (apply lt_0_INR; lia).
  split; [reflexivity|]. split; [apply sqrt_pos|]. rewrite sqrt_sqrt; [field; lra|].
  apply Rmult_le_pos; [exact Hs|]. left. apply Rinv_0_lt_compat, P.
Qed.
Lemma sq_sum_nonneg : forall l : list R, 0 <= rsumf (fun x => x * x) l.
Proof. intros l. apply rsumf_nonneg. intros x _. nra. Qed.
Lemma rms_force_spec : counted <> [] -> exists r,
  rms_force bld natoms cs conf_of d = Some r /\ root_mean_square deviations r.
Proof.
  intros N. unfold rms_force. rewrite rms_loop. cbn [fst snd]. fold counted. fold deviations.
  assert (L : (if CONTRIB bld then length counted else natoms) = length counted).
  { destruct (CONTRIB bld) eqn:E; auto. rewrite all_counted, seq_length by auto. reflexivity. }
  rewrite L. assert (P : (0 < length counted)%nat) by (destruct counted; [congruence|simpl; lia]).
  destruct (sqrt_rms (rsumf (fun x => x * x) deviations) (3 * length counted)) as (r & A & B & C); [lia|apply sq_sum_nonneg|].
  exists r. split; [exact A|]. unfold root_mean_square.
  assert (LD : length deviations = (3 * length counted)%nat) by apply length3.
  split; [intros E; rewrite E in LD; simpl in LD; lia|]. rewrite LD. auto.
Qed.
Lemma rms_force_none : counted = [] -> rms_force bld natoms cs conf_of d = None.
Proof.
  intros N. unfold rms_force. rewrite rms_loop. cbn [fst snd]. fold counted.
  assert (L : (if CONTRIB bld then length counted else natoms) = length counted).
  { destruct (CONTRIB bld) eqn:E; auto. rewrite all_counted, seq_length by auto. reflexivity. }
  rewrite L, N. reflexivity.
Qed.
Lemma rms_energy_spec : (0 < nconf)%nat -> exists r,
  rms_energy nconf d = Some r /\ root_mean_square (map (en d) (seq 0 nconf)) r.
Proof.
  intros N. unfold rms_energy. rewrite (loop_sum (fun i => sq (en d i))), Rplus_0_l.
  destruct (sqrt_rms (rsumf (fun i => sq (en d i)) (seq 0 nconf)) nconf) as (r & A & B & C); [exact N| |].
  - apply rsumf_nonneg. intros. unfold sq. nra.
  - exists r. split; [exact A|]. unfold root_mean_square. rewrite map_length, seq_length, rsumf_map.
    split; [destruct nconf; [lia|discriminate]|]. auto.
Qed.
Lemma rms_stress_spec : (0 < nconf)%nat -> exists r,
  rms_stress nconf d = Some r /\ root_mean_square (flat_map (fun i => map (str d i) (seq 0 6)) (seq 0 nconf)) r.
Proof.
  intros N. unfold rms_stress.
  rewrite (for_up_ext 0 nconf _ (fun i acc => acc + rsumf (fun j => sq (str d i j)) (seq 0 6))).
  2:{ intros i s _. apply (loop_sum (fun j => sq (str d i j))). }
  rewrite loop_sum, Rplus_0_l.
  assert (E : rsumf (fun i => rsumf (fun j => sq (str d i j)) (seq 0 6)) (seq 0 nconf) =
              rsumf (fun x => x * x) (flat_map (fun i => map (str d i) (seq 0 6)) (seq 0 nconf))).
  { rewrite rsumf_flat_map. apply rsumf_ext. intros i _. rewrite rsumf_map. reflexivity. }
  rewrite E.
  destruct (sqrt_rms (rsumf (fun x => x * x) (flat_map (fun i => map (str d i) (seq 0 6)) (seq 0 nconf))) (6 * nconf)) as (r & A & B & C); [lia|apply sq_sum_nonneg|].
  exists r. split; [exact A|].
  assert (L : length (flat_map (fun i => map (str d i) (seq 0 6)) (seq 0 nconf)) = (6 * nconf)%nat).
  { assert (G : forall l, length (flat_map (fun i => map (str d i) (seq 0 6)) l) = (6 * length l)%nat).
    { induction l as [|x l IH]; [reflexivity|]. cbn [flat_map length]. rewrite app_length, IH. simpl. lia. }
    rewrite G, seq_length. reflexivity. }
  unfold root_mean_square. split; [intros Q; rewrite Q in L; simpl in L; lia|]. rewrite L. auto.
Qed.
End Rms.

Lemma mpa_wrong : forall x, x <> 0 -> mpa x <> x * MPa_per_eV_A3.
Proof.
  intros x H E. unfold mpa, MPa_per_eV_A3, ev, angstrom in E.
  assert (K : x * (1000 / (1602 / 10)) = x * (1602 / 1000 * / 10 ^ 19 / (/ 10 ^ 10 * / 10 ^ 10 * / 10 ^ 10) / 10 ^ 6)) by (rewrite <- E; field).
  apply Rmult_eq_reg_l in K; [|exact H].
  assert (V : 1602 / 1000 * / 10 ^ 19 / (/ 10 ^ 10 * / 10 ^ 10 * / 10 ^ 10) / 10 ^ 6 = 160200) by (field_simplify; lra).
  rewrite V in K. lra.
Qed.
