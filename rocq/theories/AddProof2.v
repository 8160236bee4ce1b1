(** Closed form of a force routine whose loops only add: reset, add, score. *)
From Coq Require Import Reals ZArith List Bool Lia Lra.
From Verif Require Import Vec NbrModel LoopUtil PairModel PairProof ForceLoop AddProof.
Import ListNotations.
Local Open Scope R_scope.

(** [c] is the configuration, [c'] the one seen by the scoring part (the same one, or the
    one with both flags set if the scoring part does not look at them). *)
Section Config.
Variables (bld : build) (eweight sweight : R) (cp_energy : nat -> R).
Variables (ci : nat) (c c' : conf).
Hypothesis SAME : cnfstart c' = cnfstart c /\ inconf c' = inconf c.
Variable atoms : dev -> dev.
Variables (F : nat -> vec) (E : R) (ST : nat -> R).
Hypothesis AD : adds ci atoms F E ST.
Notation lo := (cnfstart c).
Notation hi := (cnfstart c + inconf c)%nat.
Hypothesis OUT : forall a, (a < lo)%nat \/ (hi <= a)%nat -> F a = v0.
Definition gconfig (s : dev) : dev :=
  score_stress bld sweight ci c' (score_energy eweight ci c'
    (for_up lo hi (score_atom bld c') (atoms (for_up lo hi (reset_atom c) (reset_conf bld cp_energy ci c s))))).
Definition gF (a : nat) : vec :=
  let f := vadd (if uf c then vscale (-1) (force_0 c a) else v0) (F a) in if uf c' then scl bld c' a f else f.
Definition gE : R := (cp_energy ci + E) / INR (inconf c) - energy_0 c'.
Definition gS (k : nat) : R := if stress_on bld c' then ST k / conf_vol c' - stress_0 c' k else ST k.
Definition gX : R := rsumf (fun a => if scored bld c' a then conf_weight c' * sqv (gF a) else 0) (seq lo (inconf c)) +
  conf_weight c' * eweight * sq gE + (if stress_on bld c' then rsumf (fun k => conf_weight c' * sweight * sq (gS k)) (seq 0 6) else 0).
Theorem gconfig_closed : forall s,
  (forall a, (a < lo)%nat \/ (hi <= a)%nat -> frc (gconfig s) a = frc s a) /\
  (forall a, (lo <= a < hi)%nat -> frc (gconfig s) a = gF a) /\
  en (gconfig s) ci = gE /\ (forall d, d <> ci -> en (gconfig s) d = en s d) /\
  (forall k, (k < 6)%nat -> STRESS bld = true -> str (gconfig s) ci k = gS k) /\
  (forall d k, d <> ci -> str (gconfig s) d k = str s d k) /\
  err (gconfig s) = err s + gX.
Proof.
  intros s. destruct SAME as [SC SI]. unfold gconfig. set (s1 := reset_conf bld cp_energy ci c s).
  destruct (reset_spec c s1) as (A1 & A2 & A3 & A4). set (s2 := for_up lo hi (reset_atom c) s1) in *.
  destruct AD as [B1 B2 B3 B4]. set (s3 := atoms s2).
  destruct (score_loop bld c' s3) as (C1 & C2 & C3 & C4). rewrite SC, SI in *. set (s4 := for_up lo hi (score_atom bld c') s3) in *.
  destruct (tail_spec bld eweight sweight ci c' s4) as (D1 & D2 & D3 & D4 & D5). set (s5 := score_stress bld sweight ci c' (score_energy eweight ci c' s4)) in *.
  rewrite SI in D2.
  assert (FR : forall a, (lo <= a < hi)%nat -> frc s5 a = gF a).
  { intros a Ha. rewrite D1, C1. unfold s3. rewrite B1, A1. destruct (Nat.leb_spec lo a), (Nat.ltb_spec a hi); try lia. cbn [andb]. unfold gF. destruct (uf c'); auto. }
  assert (EN : en s5 ci = gE).
  { rewrite D2, C2. unfold s3. rewrite B2, A2, Nat.eqb_refl. unfold s1, reset_conf, gE. cbn [en]. rewrite setf_eq. unfold Rdiv. ring. }
  assert (STR : forall k, (k < 6)%nat -> STRESS bld = true -> str s5 ci k = gS k).
  { intros k K ON. rewrite D4, Nat.eqb_refl, C3. unfold s3. rewrite B3, Nat.eqb_refl, A3. unfold s1, reset_conf, gS. cbn [str]. rewrite ON, setf_eq.
    destruct (Nat.ltb_spec k 6); [|lia]. cbn [andb]. destruct (stress_on bld c'); unfold Rdiv; ring. }
  split; [|split; [auto|split; [auto|split; [|split; [auto|split]]]]].
  - intros a Ha. rewrite D1, C1. unfold s3. rewrite B1, A1, (OUT a Ha). unfold s1, reset_conf. cbn [frc].
    destruct (Nat.leb_spec lo a), (Nat.ltb_spec a hi); try lia; cbn [andb]; vring.
  - intros d D. rewrite D3, C2 by auto. unfold s3. rewrite B2, A2. unfold s1, reset_conf. cbn [en]. rewrite setf_neq by auto. destruct (Nat.eqb_spec d ci); [contradiction|ring].
  - intros d k D. rewrite D4. destruct (Nat.eqb_spec d ci); [contradiction|]. cbn [andb]. rewrite C3. unfold s3. rewrite B3, A3. destruct (Nat.eqb_spec d ci); [contradiction|].
    unfold s1, reset_conf. cbn [str]. destruct (STRESS bld); rewrite ?setf_neq by auto; ring.
  - rewrite D5, EN, C4. unfold s3. rewrite B4, A4. change (err s1) with (err s). unfold gX. rewrite !Rplus_assoc. f_equal. f_equal; [|f_equal].
    + apply rsumf_ext. intros a Ha. apply in_seq in Ha. destruct (scored bld c' a); auto. rewrite <- (FR a) by lia. rewrite D1. auto.
    + destruct (stress_on bld c') eqn:SO; auto. apply rsumf_ext. intros k K. apply in_seq in K. rewrite STR; auto; [lia|].
      unfold stress_on in SO. destruct (STRESS bld); auto.
Qed.
End Config.

(** all configurations *)
Section All.
Variables (bld : build) (eweight sweight : R) (cp_energy : nat -> R) (punish : R).
Variables (cs : nat -> conf) (nconf : nat).
Variable see : conf -> conf.
Hypothesis SAME : forall c, cnfstart (see c) = cnfstart c /\ inconf (see c) = inconf c.
Hypothesis CONT : forall ci, cnfstart (cs (S ci)) = (cnfstart (cs ci) + inconf (cs ci))%nat.
Variable atoms : nat -> dev -> dev.
Variables (F : nat -> nat -> vec) (E : nat -> R) (ST : nat -> nat -> R).
Hypothesis AD : forall ci, (ci < nconf)%nat -> adds ci (atoms ci) (F ci) (E ci) (ST ci).
Hypothesis OUT : forall ci a, (ci < nconf)%nat -> (a < cnfstart (cs ci))%nat \/ (cnfstart (cs ci) + inconf (cs ci) <= a)%nat -> F ci a = v0.
Definition groutine (s : dev) : dev :=
  let s := for_up 0 nconf (fun ci => gconfig bld eweight sweight cp_energy ci (cs ci) (see (cs ci)) (atoms ci)) (mk_dev (frc s) (en s) (str s) 0) in
  mk_dev (frc s) (en s) (str s) (err s + punish).
Theorem groutine_closed : forall s, let s' := groutine s in
  (forall ci a, (ci < nconf)%nat -> (cnfstart (cs ci) <= a < cnfstart (cs ci) + inconf (cs ci))%nat -> frc s' a = gF bld (cs ci) (see (cs ci)) (F ci) a) /\
  (forall ci, (ci < nconf)%nat -> en s' ci = gE cp_energy ci (cs ci) (see (cs ci)) (E ci)) /\
  (forall ci k, (ci < nconf)%nat -> (k < 6)%nat -> STRESS bld = true -> str s' ci k = gS bld (see (cs ci)) (ST ci) k) /\
  err s' = rsumf (fun ci => gX bld eweight sweight cp_energy ci (cs ci) (see (cs ci)) (F ci) (E ci) (ST ci)) (seq 0 nconf) + punish.
Proof.
  intros s. unfold groutine. cbv zeta. cbn [frc en str err].
  destruct (all_confs (fun ci => gconfig bld eweight sweight cp_energy ci (cs ci) (see (cs ci)) (atoms ci)) cs nconf CONT
    (fun ci a => gF bld (cs ci) (see (cs ci)) (F ci) a) (fun ci => gE cp_energy ci (cs ci) (see (cs ci)) (E ci))
    (fun ci k => gS bld (see (cs ci)) (ST ci) k) (fun ci => gX bld eweight sweight cp_energy ci (cs ci) (see (cs ci)) (F ci) (E ci) (ST ci)) (STRESS bld))
    with (s := mk_dev (frc s) (en s) (str s) 0) as (A & B & C & D).
  - intros ci t H. destruct (gconfig_closed bld eweight sweight cp_energy ci (cs ci) (see (cs ci)) (SAME (cs ci)) (atoms ci) (F ci) (E ci) (ST ci) (AD ci H)
      (fun a => OUT ci a H) t) as (P1 & P2 & P3 & P4 & P5 & P6 & P7).
    auto 10.
  - split; [auto|]. split; [auto|]. split; [auto|]. rewrite D. cbn [err]. ring.
Qed.
(** the error sum in terms of what is left in the deviation vector *)
Theorem groutine_error : forall s, let s' := groutine s in
  err s' = rsumf (fun ci =>
     rsumf (fun a => if scored bld (see (cs ci)) a then conf_weight (see (cs ci)) * sqv (frc s' a) else 0) (seq (cnfstart (cs ci)) (inconf (cs ci))) +
     conf_weight (see (cs ci)) * eweight * sq (en s' ci) +
     (if stress_on bld (see (cs ci)) then rsumf (fun k => conf_weight (see (cs ci)) * sweight * sq (str s' ci k)) (seq 0 6) else 0)) (seq 0 nconf) + punish.
Proof.
  intros s. cbv zeta. destruct (groutine_closed s) as (A & B & C & D). set (s' := groutine s) in *. clearbody s'. rewrite D. f_equal. apply rsumf_ext. intros ci H. apply in_seq in H.
  unfold gX. rewrite B by lia. f_equal; [f_equal|].
  - apply rsumf_ext. intros a Ha. apply in_seq in Ha. rewrite (A ci a) by lia. auto.
  - destruct (stress_on bld (see (cs ci))) eqn:SO; auto. apply rsumf_ext. intros k K. apply in_seq in K. rewrite C; auto; [lia|lia|].
    unfold stress_on in SO. destruct (STRESS bld); auto.
Qed.
End All.
