From Coq Require Import Reals List Arith Bool Lra Lia.
From Verif Require Import Vec LoopUtil NbrModel PairModel PairProof PairProof2 PairProof3 EamModel EamProof EamProof2 EamProof3 EamProof4 ErrModel ErrSpec ErrProof.
Import ListNotations.
Open Scope R_scope.

Section Run.
Variable cs : nat -> conf.
Variable nconf mdim : nat.
Variable conf_of : nat -> nat.
Variable opt : bool.
Notation lo ci := (cnfstart (cs ci)).
Notation hi ci := (cnfstart (cs ci) + inconf (cs ci))%nat.
Hypothesis FIRST : cnfstart (cs O) = O.
Hypothesis CONT : forall ci, cnfstart (cs (S ci)) = (cnfstart (cs ci) + inconf (cs ci))%nat.
Hypothesis OF : forall ci a, (ci < nconf)%nat -> (lo ci <= a < hi ci)%nat -> conf_of a = ci.
Hypothesis HALF : forall ci i e, (ci < nconf)%nat -> (lo ci <= i < hi ci)%nat -> In e (nb (cs ci) i) -> (i <= n_nr e < hi ci)%nat.

Lemma pair_quiet : forall bld phi dphi in_range eweight sweight cp_energy punish s,
  quiet bld nconf cs (PairModel.calc_forces bld phi dphi in_range eweight sweight cp_energy punish cs nconf s).
Proof.
  intros. assert (ORD : forall ci, (ci < nconf)%nat -> ordered (cs ci)) by (intros ci H i e; apply HALF; auto).
  destruct (calc_closed_form bld phi dphi in_range eweight sweight cp_energy punish cs nconf ORD CONT s) as (A & _ & B & _).
  split.
  - intros ci a H Ha U. rewrite (A ci a H Ha). unfold final. rewrite U. reflexivity.
  - intros ci k H K T U. rewrite (B ci k H K T). unfold final_str, stress_on. rewrite T. simpl. rewrite U. reflexivity.
Qed.
Theorem pair_report : forall bld phi dphi in_range eweight sweight cp_energy punish s,
  let s' := PairModel.calc_forces bld phi dphi in_range eweight sweight cp_energy punish cs nconf s in
  let r := write_errors bld eweight sweight (cnfstart (cs nconf)) nconf mdim cs conf_of opt s' (err s') in
  r_total r = r_forces r + shown (r_energies r) + shown (r_stresses r) + punish /\
  (r_punish r = if Rlt_dec (1 / 100) punish then if opt then Some punish else None else None).
Proof.
  intros. apply (report_adds_up bld eweight sweight nconf mdim cs conf_of opt s' (err s') punish).
  rewrite (parts bld eweight sweight nconf cs conf_of s' FIRST CONT OF (pair_quiet bld phi dphi in_range eweight sweight cp_energy punish s)).
  apply (scored_when_final bld phi dphi in_range eweight sweight cp_energy punish cs nconf CONT HALF s).
Qed.

Theorem eam_report : forall bld phi dphi in_range dens ddens reach F dF FA dFA fbegin fend fstep
  eweight sweight limit_0 dummy_0 punish ntypes natoms s, (0 < ntypes)%nat ->
  (forall ci i e, (ci < nconf)%nat -> (lo ci <= i < hi ci)%nat -> In e (nb (cs ci) i) -> n_type e = typ (cs ci) (n_nr e)) ->
  let s' := EamModel.calc_forces bld phi dphi in_range dens ddens reach F dF FA dFA fbegin fend fstep
              eweight sweight limit_0 dummy_0 punish ntypes natoms cs nconf s in
  let r := write_errors (base bld) eweight sweight (cnfstart (cs nconf)) nconf mdim cs conf_of opt (dv s') (err (dv s')) in
  let limits := if RESCALE bld then rsumf (fun ci => conf_weight (cs ci) * sq (lim s' ci)) (seq 0 nconf) else 0 in
  let gauge := if NOPUNISH bld then 0 else rsumf (fun k => sq (dum s' k)) (seq 0 (2 * nbands bld * ntypes)) in
  let rest := limits + punish + gauge in
  r_total r = r_forces r + shown (r_energies r) + shown (r_stresses r) + rest /\
  (r_punish r = if Rlt_dec (1 / 100) rest then if opt then Some rest else None else None).
Proof.
  intros bld phi dphi in_range dens ddens reach F dF FA dFA fbegin fend fstep
    eweight sweight limit_0 dummy_0 punish ntypes natoms s NT TYP s' r limits gauge rest.
  apply (report_adds_up (base bld) eweight sweight nconf mdim cs conf_of opt (dv s') (err (dv s')) rest).
  assert (ORD : forall ci, (ci < nconf)%nat -> ordered (cs ci)) by (intros ci H i e; apply HALF; auto).
  destruct (eam_run bld phi dphi in_range dens ddens reach F dF FA dFA fbegin fend fstep eweight sweight limit_0 dummy_0 punish ntypes natoms cs nconf CONT ORD TYP NT s)
    as (A & _ & B & _ & _ & _ & _).
  rewrite (parts (base bld) eweight sweight nconf cs conf_of (dv s') FIRST CONT OF).
  - unfold s'. rewrite (eam_error bld phi dphi in_range dens ddens reach F dF FA dFA fbegin fend fstep eweight sweight limit_0 dummy_0 punish ntypes natoms cs nconf CONT NT HALF TYP s).
    fold s'. rewrite rsumf_plus. unfold rest, gauge, limits. fold s'.
    replace (rsumf (fun ci => if RESCALE bld then conf_weight (cs ci) * sq (lim s' ci) else 0) (seq 0 nconf))
      with (if RESCALE bld then rsumf (fun ci => conf_weight (cs ci) * sq (lim s' ci)) (seq 0 nconf) else 0)
      by (destruct (RESCALE bld); [reflexivity|symmetry; apply rsumf_zero; auto]).
    ring.
  - split.
    + intros ci a H Ha U. unfold s'. rewrite (A ci a H Ha). unfold frc_f. rewrite U. reflexivity.
    + intros ci k H K T U. unfold s'. rewrite (B ci k H K T). unfold str_f, stress_on. rewrite T. simpl. rewrite U. reflexivity.
Qed.
End Run.

(** ** configurations without forces are counted *)
Definition mute : conf := mk_conf 1 1 false false 1 1 (fun _ => []) (fun _ => O) (fun _ => true) (fun _ => 0) (fun _ => v0) 0 (fun _ => 0).
Definition loud : conf := mk_conf 0 1 true false 1 1 (fun _ => []) (fun _ => O) (fun _ => true) (fun _ => 0) (fun _ => V3 2 0 0) 0 (fun _ => 0).
Definition two_confs (ci : nat) : conf := match ci with 0%nat => loud | 1%nat => mute | S (S k) => mk_conf (2 + k) 1 false false 1 1 (fun _ => []) (fun _ => O) (fun _ => true) (fun _ => 0) (fun _ => v0) 0 (fun _ => 0) end.
Lemma diluted : exists bld eweight cs nconf conf_of s,
  let s' := PairModel.calc_forces bld (fun _ _ _ => 0) (fun _ _ _ => 0) (fun _ _ _ => false) eweight 0 (fun _ => 0) 0 cs nconf s in
  let scored := [comp (frc s' 0) 0; comp (frc s' 0) 1; comp (frc s' 0) 2] in
  uf (cs 0%nat) = true /\ uf (cs 1%nat) = false /\ nconf = 2%nat /\ cnfstart (cs nconf) = 2%nat /\
  conf_of 0%nat = 0%nat /\ conf_of 1%nat = 1%nat /\
  exists r, rms_force bld 2 cs conf_of s' = Some r /\ forall q, root_mean_square scored q -> r < q.
Proof.
  exists (mk_build false false false), 1, two_confs, 2%nat, (fun a => a), (mk_dev (fun _ => v0) (fun _ => 0) (fun _ _ => 0) 0).
  cbv zeta. set (s' := PairModel.calc_forces _ _ _ _ _ _ _ _ _ _ _).
  assert (A : frc s' 0 = V3 (-2) 0 0).
  { unfold s', PairModel.calc_forces, for_up, config_body, score_energy, score_stress, reset_conf, for_up, reset_atom, atom_body, score_atom, setf, two_confs. cbn.
    unfold vscale; simpl. f_equal; ring. }
  assert (B : frc s' 1 = v0).
  { unfold s', PairModel.calc_forces, for_up, config_body, score_energy, score_stress, reset_conf, for_up, reset_atom, atom_body, score_atom, setf, two_confs. cbn. reflexivity. }
  clearbody s'. split; [reflexivity|]. split; [reflexivity|]. split; [reflexivity|]. split; [reflexivity|]. split; [reflexivity|]. split; [reflexivity|].
  assert (NE : counted (mk_build false false false) 2 two_confs (fun a => a) <> []) by (unfold counted, natoms; simpl; discriminate).
  destruct (rms_force_spec (mk_build false false false) 2 two_confs (fun a => a) s' NE) as (r & R & N & P & E).
  exists r. split; [exact R|]. intros q (_ & Q & F). rewrite A in F.
  unfold deviations, counted, natoms in E. simpl in E. rewrite A, B in E. unfold undone, rsumf in E. simpl in E. unfold rsumf in F. simpl in F.
  assert (r * r < q * q) by lra. nra.
Qed.
(** ** the punishments are not always shown *)
Lemma hidden : forall (punish : R), 0 < punish <= 1 / 100 -> exists bld cs s,
  let s' := PairModel.calc_forces bld (fun _ _ _ => 0) (fun _ _ _ => 0) (fun _ _ _ => false) 1 0 (fun _ => 0) punish cs 1 s in
  forall opt, let r := write_errors bld 1 0 1 1 4 cs (fun _ => O) opt s' (err s') in
  r_forces r + shown (r_energies r) + shown (r_stresses r) + shown (r_punish r) < r_total r.
Proof.
  intros punish H. exists (mk_build false false false), (fun ci => mk_conf ci 1 true false 1 1 (fun _ => []) (fun _ => O) (fun _ => true) (fun _ => 0) (fun _ => v0) 0 (fun _ => 0)), (mk_dev (fun _ => v0) (fun _ => 0) (fun _ _ => 0) 0).
  cbv zeta. set (cs := fun ci : nat => _). intros opt.
  destruct (pair_report cs 1 4 (fun _ => O) opt) with (bld := mk_build false false false) (phi := fun (_ _ : nat) (_ : R) => 0)
    (dphi := fun (_ _ : nat) (_ : R) => 0) (in_range := fun (_ _ : nat) (_ : R) => false) (eweight := 1) (sweight := 0) (cp_energy := fun _ : nat => 0) (punish := punish)
    (s := mk_dev (fun _ => v0) (fun _ => 0) (fun _ _ => 0) 0) as (A & B).
  - reflexivity.
  - intros ci. unfold cs; simpl. lia.
  - intros ci a L _. lia.
  - intros ci i e _ _ [].
  - unfold cs in A at 1, B at 1. simpl cnfstart in A, B. fold cs in A, B.
    rewrite B, A. destruct (Rlt_dec (1 / 100) punish); [lra|]. unfold shown at 3. lra.
Qed.

(** with FWEIGHT the entries are relative to the reference force; the report undoes this *)
Lemma unweighted : forall bld (cs : nat -> conf) conf_of ci a v w k, conf_of a = ci -> 0 <= absforce (cs ci) a ->
  v = vscale (fscale bld cs ci a) w -> undone bld cs conf_of a (comp v k) = comp w k.
Proof.
  intros bld cs conf_of ci a v w k <- H ->. unfold undone, fscale, at_conf, FORCE_EPS in *.
  destruct (FWEIGHT bld); destruct k as [|[|k]]; simpl; try field; lra.
Qed.
