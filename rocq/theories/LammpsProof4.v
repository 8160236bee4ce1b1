(** Proofs about the LAMMPS export: where the Tersoff export differs. *)
From Coq Require Import Reals ZArith List Bool Lia Lra.
From Verif Require Import Vec PairIndexModel LammpsModel LammpsSpec LammpsProof LammpsProof3.
Import ListNotations.
Local Open Scope R_scope.

(** A = B = lambda = mu = gamma = n = d = 1, c = h = 0 *)
Definition ts_ex (S0 R0 S1 R1 : R) : nat -> nat -> R := fun c p =>
  nth p [1; 1; 1; 1; 1; 1; 0; 1; 0; if Nat.eqb c 0 then S0 else S1; if Nat.eqb c 0 then R0 else R1] 0.
Definition mix_ex (x : R) : nat -> R := fun c => if Nat.eqb c 1 then x else 1.

(** The file is read without error and gives bond energies that differ from those of the fit *)
Definition ts_differs (pow0 : R -> R -> R) (V : nat -> nat -> R) (n : nat) (omega chi : nat -> R) : Prop :=
  exists i (ent : nat -> nat -> ts_entry) l cosjk j, (i < n)%nat /\ (j < length l)%nat /\
    (forall j, (j < n)%nat -> ts_good V omega (col n i j)) /\
    (forall j k, (j < n)%nat -> (k < n)%nat -> ts_of (lookup (write_ts (fun x => x) V n omega chi) i j k) = Some (ent j k)) /\
    (forall e, In e l -> (k_typ e < n)%nat /\ 0 < k_r e) /\
    let tj := k_typ (nth j l (mk_nbk 0 0)) in
    lbond (cpow pow0) (as_pairs l) cosjk (ent tj tj) (ent tj) j <> ts_bond pow0 V n omega i j l cosjk.

Lemma half_pow : forall x y, 0 < x < y -> Rpower x (-1 / (2 * 1)) <> Rpower y (-1 / (2 * 1)).
Proof.
  intros x y H E. unfold Rpower in E. apply exp_inv in E. assert (ln x < ln y) by (apply ln_increasing; lra). lra.
Qed.
Lemma Rpower_1_base : forall y, Rpower 1 y = 1.
Proof. intros. unfold Rpower. rewrite ln_1, Rmult_0_r. apply exp_0. Qed.

Section Ex.
Variable pow0 : R -> R -> R.
Hypothesis zero_pow : forall y, 0 < y -> pow0 0 y = 0.
Lemma cpow0 : cpow pow0 0 1 = 0.
Proof. unfold cpow. destruct (Rlt_dec 0 0); [lra|]. apply zero_pow; lra. Qed.
Lemma cpow1 : forall y, cpow pow0 1 y = 1.
Proof. intros. unfold cpow. destruct (Rlt_dec 0 1); [|lra]. apply Rpower_1_base. Qed.

Lemma good_ex : forall S0 R0 S1 R1 w, R0 < S0 -> R1 < S1 -> 0 <= w -> forall j, (j < 2)%nat -> ts_good (ts_ex S0 R0 S1 R1) (mix_ex w) (col 2 0 j).
Proof.
  intros S0 R0 S1 R1 w H0 H1 W j Hj. assert (col 2 0 j = j) as -> by (assert (j = 0 \/ j = 1)%nat as [-> | ->] by lia; reflexivity).
  unfold ts_good, ts_ex, mix_ex. assert (j = 0 \/ j = 1)%nat as [-> | ->] by lia; simpl; repeat split; lra.
Qed.

Theorem ts_chi : ts_differs pow0 (ts_ex 3 2 3 2) 2 (mix_ex 1) (mix_ex (1 / 2)).
Proof.
  exists 0%nat, (ts_exported (ts_ex 3 2 3 2) 2 (mix_ex 1) (mix_ex (1 / 2)) 0), [mk_nbk 1 1], (fun _ _ => 0), 0%nat.
  split; [lia|]. split; [simpl; lia|]. split; [apply good_ex; lra|]. split; [intros; apply ts_entry_ok; auto|].
  split; [intros e [<-|[]]; simpl; split; [lia|lra]|]. cbv zeta. simpl nth. simpl k_typ.
  unfold lbond, ts_bond, lzeta, ts_zeta. rewrite sum_others. cbv zeta. rewrite as_pairs_r. simpl nth. simpl k_typ. simpl k_r.
  rewrite fC_eq by (change (col 2 0 1) with 1%nat; unfold ts_ex; simpl; lra). unfold ts_exported. cbv zeta. cbn [t_A t_B t_lambda1 t_lambda2 t_n t_beta]. change (col 2 0 1) with 1%nat.
  unfold rsumf. simpl map. simpl rsum. unfold mix_ex, ts_ex, ts_f. simpl.
  destruct (Rlt_dec 1 3); [|lra]. destruct (Rlt_dec 1 2); [|lra]. destruct (Req_EM_T 1 0); [lra|].
  rewrite Rplus_0_r, Rmult_0_r, cpow0. rewrite Rmult_0_r. rewrite Rplus_0_r, !cpow1. pose proof (exp_pos (- (1) * 1)). lra.
Qed.

Lemma zero_mult_exp : forall x y, exp (0 * x) = y -> y = 1.
Proof. intros x y <-. rewrite Rmult_0_l. apply exp_0. Qed.

Theorem ts_omega : ts_differs pow0 (ts_ex 3 2 3 2) 2 (mix_ex (1 / 2)) (mix_ex 1).
Proof.
  exists 0%nat, (ts_exported (ts_ex 3 2 3 2) 2 (mix_ex (1 / 2)) (mix_ex 1) 0), [mk_nbk 1 1; mk_nbk 0 1], (fun _ _ => 0), 0%nat.
  split; [lia|]. split; [simpl; lia|]. split; [apply good_ex; lra|]. split; [intros; apply ts_entry_ok; auto|].
  split; [intros e [<-|[<-|[]]]; simpl; split; (lia || lra)|]. cbv zeta. simpl nth. simpl k_typ.
  unfold lbond, ts_bond, lzeta, ts_zeta. rewrite sum_others. cbv zeta. rewrite as_pairs_r. simpl nth. simpl k_typ. simpl k_r.
  rewrite fC_eq by (change (col 2 0 1) with 1%nat; unfold ts_ex; simpl; lra). unfold rsumf. simpl map. simpl rsum. rewrite fC_eq by (change (col 2 0 1) with 1%nat; unfold ts_ex; simpl; lra).
  unfold ts_gth, ts_exported. cbv zeta. cbn [t_A t_B t_lambda1 t_lambda2 t_n t_beta t_gamma t_c t_d t_cos0 t_lambda3 t_m].
  rewrite cpow0, Rmult_0_l, exp_0. unfold as_pairs, nb_typ, nb_r. simpl nth. simpl fst. simpl snd.
  change (col 2 0 1) with 1%nat. change (col 2 0 0) with 0%nat. unfold mix_ex, ts_ex, ts_f, ts_g. simpl.
  destruct (Rlt_dec 1 3); [|lra]. destruct (Rlt_dec 1 2); [|lra]. destruct (Req_EM_T 1 0); [lra|].
  match goal with |- context [1 + cpow pow0 1 1 * cpow pow0 ?z 1] => replace z with (1 / 2) by field end.
  match goal with |- context [1 + cpow pow0 (1 * ?z) 1] => replace (1 * z) with 1 by field end.
  rewrite !cpow1. unfold cpow at 2. destruct (Rlt_dec 0 (1 / 2)); [|lra]. rewrite Rpower_1 by lra.
  unfold cpow. destruct (Rlt_dec 0 (1 + 1 * (1 / 2))); [|lra]. destruct (Rlt_dec 0 (1 + 1)); [|lra].
  pose proof (half_pow (1 + 1 * (1 / 2)) (1 + 1) ltac:(lra)) as H. pose proof (exp_pos (- (1) * 1)) as P. intros E. apply H.
  apply Rmult_eq_reg_r with (exp (- (1) * 1)); lra.
Qed.

Theorem ts_cutoffs : ts_differs pow0 (ts_ex 5 (9 / 2) 3 2) 2 (mix_ex 1) (mix_ex 1).
Proof.
  exists 0%nat, (ts_exported (ts_ex 5 (9 / 2) 3 2) 2 (mix_ex 1) (mix_ex 1) 0), [mk_nbk 1 1; mk_nbk 0 4], (fun _ _ => 0), 0%nat.
  split; [lia|]. split; [simpl; lia|]. split; [apply good_ex; lra|]. split; [intros; apply ts_entry_ok; auto|].
  split; [intros e [<-|[<-|[]]]; simpl; split; (lia || lra)|]. cbv zeta. simpl nth. simpl k_typ.
  unfold lbond, ts_bond, lzeta, ts_zeta. rewrite sum_others. cbv zeta. rewrite as_pairs_r. simpl nth. simpl k_typ. simpl k_r.
  rewrite fC_eq by (change (col 2 0 1) with 1%nat; unfold ts_ex; simpl; lra). unfold rsumf. simpl map. simpl rsum. rewrite fC_eq by (change (col 2 0 1) with 1%nat; unfold ts_ex; simpl; lra).
  unfold ts_gth, ts_exported. cbv zeta. cbn [t_A t_B t_lambda1 t_lambda2 t_n t_beta t_gamma t_c t_d t_cos0 t_lambda3 t_m].
  rewrite cpow0, Rmult_0_l, exp_0. unfold as_pairs, nb_typ, nb_r. simpl nth. simpl fst. simpl snd.
  change (col 2 0 1) with 1%nat. change (col 2 0 0) with 0%nat. unfold mix_ex, ts_ex, ts_f, ts_g. simpl.
  destruct (Rlt_dec 1 3); [|lra]. destruct (Rlt_dec 1 2); [|lra]. destruct (Rlt_dec 4 3); [lra|]. destruct (Rlt_dec 4 5); [|lra].
  destruct (Rlt_dec 4 (9 / 2)); [|lra]. destruct (Req_EM_T 1 0); [lra|].
  match goal with |- context [1 + cpow pow0 1 1 * cpow pow0 ?z 1] => replace z with 0 by ring end.
  match goal with |- context [1 + cpow pow0 (1 * ?z) 1] => replace (1 * z) with 1 by field end.
  rewrite !cpow1, cpow0, Rmult_0_r, Rplus_0_r, cpow1.
  unfold cpow. destruct (Rlt_dec 0 (1 + 1)); [|lra].
  pose proof (half_pow 1 (1 + 1) ltac:(lra)) as H. pose proof (exp_pos (- (1) * 1)) as P. intros E. apply H. rewrite Rpower_1_base.
  apply Rmult_eq_reg_r with (exp (- (1) * 1)); lra.
Qed.
End Ex.

(** chi does not enter the energy of the fit: the bond energy has no such argument; what is
    exported is a different potential for every chi other than one *)
Theorem ts_chi_exported : forall V n omega chi i j, (i < n)%nat -> (j < n)%nat -> exists e,
  ts_of (lookup (write_ts (fun x => x) V n omega chi) i j j) = Some e /\ t_B e = V (col n i j) 1%nat * chi (col n i j).
Proof. intros V n omega chi i j Hi Hj. eexists. split; [apply ts_entry_ok; auto|]. reflexivity. Qed.

(** tersoff/mod with different cutoffs: c1 = c2 = 0 would be trivial, so c1 = 1 *)
Definition tm_ex : nat -> nat -> R := fun c p =>
  nth p [1; 1; 1; 1; 1; 1 / 2; 0; 1; 1; 0; 1; 0; 0; 0; if Nat.eqb c 0 then 9 / 2 else 2; if Nat.eqb c 0 then 5 else 3] 0.
Theorem tm_cutoffs : forall pow0, (forall y, 0 < y -> pow0 0 y = 0) ->
  exists i (ent : nat -> nat -> tm_entry) l cosjk j, (i < 2)%nat /\ (j < length l)%nat /\
    (forall j, (j < 2)%nat -> tm_ex (col 2 i j) 14%nat < tm_ex (col 2 i j) 15%nat /\ tm_ex (col 2 i j) 5%nat <> 0) /\
    (forall j k, (j < 2)%nat -> (k < 2)%nat -> tm_of (lookup (write_tm (fun x => x) tm_ex 2) i j k) = Some (ent j k)) /\
    (forall e, In e l -> (k_typ e < 2)%nat /\ 0 < k_r e) /\
    let tj := k_typ (nth j l (mk_nbk 0 0)) in
    mbond (cpow pow0) (as_pairs l) cosjk (ent tj tj) (ent tj) j <> tm_bond pow0 tm_ex 2 i j l cosjk.
Proof.
  intros pow0 zero_pow.
  assert (G : forall j, (j < 2)%nat -> tm_ex (col 2 0 j) 14%nat < tm_ex (col 2 0 j) 15%nat /\ tm_ex (col 2 0 j) 5%nat <> 0).
  { intros j Hj. assert (col 2 0 j = j) as -> by (assert (j = 0 \/ j = 1)%nat as [-> | ->] by lia; reflexivity).
    assert (j = 0 \/ j = 1)%nat as [-> | ->] by lia; unfold tm_ex; simpl; lra. }
  exists 0%nat, (tm_exported tm_ex 2 0), [mk_nbk 1 1; mk_nbk 0 4], (fun _ _ => 0), 0%nat.
  split; [lia|]. split; [simpl; lia|]. split; [auto|]. split; [intros; apply tm_entry_ok; auto; apply G; auto|].
  split; [intros e [<-|[<-|[]]]; simpl; split; (lia || lra)|]. cbv zeta. simpl nth. simpl k_typ.
  unfold mbond, tm_bond, mzeta, tm_zeta. rewrite sum_others. cbv zeta. rewrite as_pairs_r. simpl nth. simpl k_typ. simpl k_r.
  rewrite mfC_eq by (change (col 2 0 1) with 1%nat; unfold tm_ex; simpl; lra). unfold rsumf. simpl map. simpl rsum. rewrite mfC_eq by (change (col 2 0 1) with 1%nat; unfold tm_ex; simpl; lra).
  unfold tm_gth, tm_exported. cbv zeta. cbn [m_A m_B m_lambda1 m_lambda2 m_n m_eta m_c1 m_c2 m_c3 m_c4 m_c5 m_h m_alpha m_beta].
  unfold as_pairs, nb_typ, nb_r. simpl nth. simpl fst. simpl snd.
  change (col 2 0 1) with 1%nat. change (col 2 0 0) with 0%nat. unfold tm_ex, tm_f, tm_g. simpl.
  destruct (Rlt_dec 1 3); [|lra]. destruct (Rlt_dec 1 2); [|lra]. destruct (Rlt_dec 4 3); [lra|]. destruct (Rlt_dec 4 5); [|lra].
  destruct (Rlt_dec 4 (9 / 2)); [|lra]. destruct (Req_EM_T 1 0); [lra|].
  rewrite !Rmult_0_l, !exp_0.
  match goal with |- context [1 + cpow pow0 ?z 1] => replace z with 0 by ring end.
  match goal with |- context [1 + cpow pow0 ?z 1] => match z with 0 => fail 1 | _ => replace z with 1 by field end end.
  rewrite (cpow1 pow0 1), (cpow0 pow0 zero_pow), Rplus_0_r, cpow1.
  unfold cpow. destruct (Rlt_dec 0 (1 + 1)); [|lra].
  pose proof (half_pow 1 (1 + 1) ltac:(lra)) as H. pose proof (exp_pos (- (1) * 1)) as P. intros E. apply H. rewrite Rpower_1_base.
  replace (-1 / (2 * 1)) with (- (1 / 2)) by lra. apply Rmult_eq_reg_r with (exp (- (1) * 1)); lra.
Qed.
