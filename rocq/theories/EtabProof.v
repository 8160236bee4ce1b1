(** Proofs about the tables of the error report. *)
From Coq Require Import Reals List Arith Bool Lra Lia.
From Verif Require Import Vec LoopUtil NbrModel NbrProof3 PairModel PairSpec PairProof PairProof2 PairProof3 EamModel EamSpec EamProof2 EamProof3 CellSpec SwProof3 AdpProof6
  ErrModel ErrSpec ErrProof ErrProof2 RepSpec EtabModel.
Import ListNotations.
Local Open Scope R_scope.

Lemma force_at : forall bld natoms cs conf_of d a k, (a < natoms)%nat -> (k < 3)%nat ->
  nth_error (force_table bld natoms cs conf_of d) (3 * a + k) = Some (force_line bld cs conf_of d (3 * a + k)).
Proof.
  intros bld natoms cs conf_of d a k A K. unfold force_table. rewrite nth_error_map.
  rewrite (nth_error_nth' _ 0%nat) by (rewrite seq_length; lia). rewrite seq_nth by lia. reflexivity.
Qed.
Lemma split3 : forall a k, (k < 3)%nat -> ((3 * a + k) / 3 = a /\ (3 * a + k) mod 3 = k)%nat.
Proof.
  intros a k K. replace (3 * a + k)%nat with (k + a * 3)%nat by lia. rewrite Nat.div_add, Nat.mod_add by lia. rewrite Nat.div_small, Nat.mod_small by lia. lia.
Qed.
Lemma split6 : forall a k, (k < 6)%nat -> ((6 * a + k) / 6 = a /\ (6 * a + k) mod 6 = k)%nat.
Proof.
  intros a k K. replace (6 * a + k)%nat with (k + a * 6)%nat by lia. rewrite Nat.div_add, Nat.mod_add by lia. rewrite Nat.div_small, Nat.mod_small by lia. lia.
Qed.
Lemma comp_sub : forall v w k, comp (vsub v w) k + comp w k = comp v k.
Proof. intros [] [] [|[|k]]; cbn; ring. Qed.

(** the line of a force of any routine that leaves scaled deviations *)
Lemma force_row : forall bld nconf cs conf_of d ci a k f, placed cs nconf conf_of -> (forall ci, cnfstart (cs (S ci)) = (cnfstart (cs ci) + inconf (cs ci))%nat) ->
  (ci < nconf)%nat -> (cnfstart (cs ci) <= a < cnfstart (cs ci) + inconf (cs ci))%nat -> (k < 3)%nat -> 0 <= absforce (cs ci) a ->
  frc d a = vscale (fscale bld cs ci a) (vsub f (force_0 (cs ci) a)) ->
  exists l, nth_error (force_table bld (cnfstart (cs nconf)) cs conf_of d) (3 * a + k) = Some l /\
  l_value l = comp f k /\ l_ref l = comp (force_0 (cs ci) a) k /\
  (FWEIGHT bld = false -> l_square l = Some (if (CONTRIB bld && negb (contrib (cs ci) a))%bool then 0 else conf_weight (cs ci) * sq (comp f k - comp (force_0 (cs ci) a) k)) /\
     l_rel l = if Req_EM_T (comp (force_0 (cs ci) a) k) 0 then None else Some ((comp f k - comp (force_0 (cs ci) a) k) / comp (force_0 (cs ci) a) k)).
Proof.
  intros bld nconf cs conf_of d ci a k f (Z & P) CONT C A K B F.
  assert (LT : (a < cnfstart (cs nconf))%nat).
  { assert (M : forall n m, (n <= m)%nat -> (cnfstart (cs n) <= cnfstart (cs m))%nat).
    { intros n m L. induction L; [lia|]. rewrite CONT. lia. }
    pose proof (M (S ci) nconf C) as X. rewrite CONT in X. lia. }
  eexists. split; [apply force_at; auto|]. destruct (split3 a k K) as (E1 & E2). unfold force_line. rewrite E1, E2. cbn [l_value l_ref l_square l_rel].
  pose proof (P ci a C A) as Q. unfold at_conf. rewrite Q. split; [|split; [reflexivity|]].
  2: { intros W. assert (Y : comp (frc d a) k = comp f k - comp (force_0 (cs ci) a) k).
       { rewrite F. unfold fscale. rewrite W. destruct f, (force_0 (cs ci) a), k as [|[|k]]; cbn; ring. }
       rewrite Y. split; [reflexivity|]. unfold over. reflexivity. }
  rewrite (unweighted bld cs conf_of ci a (frc d a) (vsub f (force_0 (cs ci) a)) k Q B F). apply comp_sub.
Qed.
Lemma energy_row : forall eweight nconf cs d file ci e, (ci < nconf)%nat -> eweight <> 0 -> en d ci = e - energy_0 (cs ci) ->
  exists l, nth_error (energy_table eweight nconf cs d file) ci = Some l /\
  l_weight l = Some (conf_weight (cs ci)) /\ l_value l = e /\ l_ref l = energy_0 (cs ci) /\
  (file = true -> l_dev l = Some (e - energy_0 (cs ci)) /\
     l_square l = if Req_EM_T (conf_weight (cs ci)) 0 then None else Some (eweight * sq (e - energy_0 (cs ci)))).
Proof.
  intros eweight nconf cs d file ci e C W E. unfold energy_table. destruct (Req_EM_T eweight 0); [contradiction|].
  rewrite nth_error_map, (nth_error_nth' _ 0%nat) by (rewrite seq_length; lia). rewrite seq_nth by lia. cbn [option_map Nat.add].
  eexists. split; [reflexivity|]. unfold energy_line. destruct file; cbn [l_weight l_value l_ref l_dev l_square]; rewrite E; (split; [reflexivity|split; [ring|split; [reflexivity|]]]); [|discriminate].
  intros _. split; [reflexivity|]. unfold over. destruct (Req_EM_T (conf_weight (cs ci)) 0); [reflexivity|]. f_equal. field. auto.
Qed.
Lemma stress_row : forall bld sweight nconf cs d ci k x, (ci < nconf)%nat -> (k < 6)%nat -> STRESS bld = true -> sweight <> 0 -> str d ci k = x - stress_0 (cs ci) k ->
  exists l, nth_error (stress_table bld sweight nconf cs d) (6 * ci + k) = Some l /\
  l_weight l = Some (conf_weight (cs ci)) /\ l_value l = x /\ l_ref l = stress_0 (cs ci) k /\
  l_square l = Some (conf_weight (cs ci) * sweight * sq (x - stress_0 (cs ci) k)).
Proof.
  intros bld sweight nconf cs d ci k x C K T W E. unfold stress_table. rewrite T. destruct (Req_EM_T sweight 0); [contradiction|].
  rewrite nth_error_map, (nth_error_nth' _ 0%nat) by (rewrite seq_length; lia). rewrite seq_nth by lia. cbn [option_map Nat.add].
  eexists. split; [reflexivity|]. destruct (split6 ci k K) as (E1 & E2). unfold stress_line. rewrite E1, E2. cbn [l_weight l_value l_ref l_square]. rewrite E.
  repeat split; ring.
Qed.

Lemma pair_tables : forall bld phi dphi in_range eweight sweight cp_energy punish cs nconf conf_of,
  (forall ci, cnfstart (cs (S ci)) = (cnfstart (cs ci) + inconf (cs ci))%nat) -> placed cs nconf conf_of ->
  (forall s t r, phi s t r = phi t s r) -> (forall s t r, dphi s t r = dphi t s r) -> (forall s t r, in_range s t r = in_range t s r) ->
  forall pos bx rcut, (forall ci, (ci < nconf)%nat -> geometry (cs ci) pos (bx ci) rcut) ->
  forall L, (forall ci a, (ci < nconf)%nat -> (cnfstart (cs ci) <= a < cnfstart (cs ci) + inconf (cs ci))%nat ->
    all_neighbors (cs ci) pos (bx ci) rcut a (L ci a)) ->
  forall s, let s' := PairModel.calc_forces bld phi dphi in_range eweight sweight cp_energy punish cs nconf s in
  forall ci, (ci < nconf)%nat ->
  (uf (cs ci) = true -> forall a k, (cnfstart (cs ci) <= a < cnfstart (cs ci) + inconf (cs ci))%nat -> (k < 3)%nat -> 0 <= absforce (cs ci) a ->
     exists l, nth_error (force_table bld (cnfstart (cs nconf)) cs conf_of s') (3 * a + k) = Some l /\
     l_value l = comp (pair_force (cs ci) pos (bx ci) dphi in_range (L ci) a) k /\ l_ref l = comp (force_0 (cs ci) a) k /\
     (FWEIGHT bld = false -> l_square l = Some (if (CONTRIB bld && negb (contrib (cs ci) a))%bool then 0 else conf_weight (cs ci) * sq (comp (pair_force (cs ci) pos (bx ci) dphi in_range (L ci) a) k - comp (force_0 (cs ci) a) k)) /\
     l_rel l = if Req_EM_T (comp (force_0 (cs ci) a) k) 0 then None else Some ((comp (pair_force (cs ci) pos (bx ci) dphi in_range (L ci) a) k - comp (force_0 (cs ci) a) k) / comp (force_0 (cs ci) a) k))) /\
  (eweight <> 0 -> forall file, let e := (cp_energy ci + pair_energy (cs ci) pos (bx ci) phi in_range (L ci)) / INR (inconf (cs ci)) in
     exists l, nth_error (energy_table eweight nconf cs s' file) ci = Some l /\
     l_weight l = Some (conf_weight (cs ci)) /\ l_value l = e /\ l_ref l = energy_0 (cs ci) /\
     (file = true -> l_dev l = Some (e - energy_0 (cs ci)) /\
        l_square l = if Req_EM_T (conf_weight (cs ci)) 0 then None else Some (eweight * sq (e - energy_0 (cs ci))))) /\
  (STRESS bld = true -> sweight <> 0 -> (uf (cs ci) && us (cs ci))%bool = true -> forall k, (k < 6)%nat ->
     let x := pair_virial (cs ci) pos (bx ci) dphi in_range (L ci) k / conf_vol (cs ci) in
     exists l, nth_error (stress_table bld sweight nconf cs s') (6 * ci + k) = Some l /\
     l_weight l = Some (conf_weight (cs ci)) /\ l_value l = x /\ l_ref l = stress_0 (cs ci) k /\
     l_square l = Some (conf_weight (cs ci) * sweight * sq (x - stress_0 (cs ci) k))).
Proof.
  intros bld phi dphi in_range eweight sweight cp_energy punish cs nconf conf_of CONT P S1 S2 S3 pos bx rcut GEO L HL s s' ci C.
  destruct (forces_textbook bld phi dphi in_range eweight sweight cp_energy punish cs nconf CONT S1 S2 S3 pos bx rcut GEO L HL s ci C) as (V1 & _ & V3 & V4).
  fold s' in V1, V3, V4. refine (conj _ (conj _ _)).
  - intros U a k A K B. exact (force_row bld nconf cs conf_of s' ci a k _ P CONT C A K B (V1 U a A)).
  - intros W file. exact (energy_row eweight nconf cs s' file ci _ C W V3).
  - intros T W U k K. apply stress_row; auto. pose proof (V4 T k K) as X. rewrite U in X. exact X.
Qed.

(** ** what goes wrong *)
Lemma zero_weight : forall eweight nconf cs d ci, (ci < nconf)%nat -> eweight <> 0 -> conf_weight (cs ci) = 0 ->
  option_map l_square (nth_error (energy_table eweight nconf cs d true) ci) = Some None.
Proof.
  intros eweight nconf cs d ci C W Z.
  destruct (energy_row eweight nconf cs d true ci (en d ci + energy_0 (cs ci)) C W) as (l & E & _ & _ & _ & H); [ring|].
  rewrite E. cbn [option_map]. destruct (H eq_refl) as (_ & ->). rewrite Z. destruct (Req_EM_T 0 0); [reflexivity|contradiction].
Qed.
Lemma weighted_ratio : forall bld cs conf_of d a k, FWEIGHT bld = true -> (k < 3)%nat ->
  let f0 := comp (force_0 (at_conf cs conf_of a) a) k in let l := force_line bld cs conf_of d (3 * a + k) in
  f0 <> 0 -> 0 < absforce (at_conf cs conf_of a) a + FORCE_EPS -> absforce (at_conf cs conf_of a) a + FORCE_EPS <> 1 -> l_value l <> f0 ->
  exists q, l_rel l = Some q /\ q <> (l_value l - l_ref l) / l_ref l.
Proof.
  intros bld cs conf_of d a k W K f0 l N P P1 D. subst l. unfold force_line in *. destruct (split3 a k K) as (E1 & E2). rewrite E1, E2 in *.
  cbn [l_value l_ref l_rel] in *. fold f0 in D |- *. unfold over. destruct (Req_EM_T f0 0); [contradiction|].
  eexists. split; [reflexivity|]. unfold undone in *. rewrite W in *. set (x := comp (frc d a) k) in *. set (w := FORCE_EPS + absforce (at_conf cs conf_of a) a) in *.
  intro E. apply (f_equal (fun z => z * f0)) in E. unfold Rdiv in E. rewrite !Rmult_assoc, Rinv_l in E by exact N. 
  assert (X : x * (w - 1) = 0) by lra. apply Rmult_integral in X. destruct X as [X|X].
  - apply D. rewrite X. ring.
  - apply P1. unfold w in X. lra.
Qed.
(** configurations whose forces are not used: the reference is shown as the calculated force *)
Lemma unused_shown : forall bld cs nconf conf_of d ci a k, placed cs nconf conf_of -> (forall ci, cnfstart (cs (S ci)) = (cnfstart (cs ci) + inconf (cs ci))%nat) ->
  (ci < nconf)%nat -> (cnfstart (cs ci) <= a < cnfstart (cs ci) + inconf (cs ci))%nat -> (k < 3)%nat -> frc d a = v0 -> 
  option_map l_value (nth_error (force_table bld (cnfstart (cs nconf)) cs conf_of d) (3 * a + k)) = Some (comp (force_0 (cs ci) a) k).
Proof.
  intros bld cs nconf conf_of d ci a k (Z & P) CONT C A K F.
  assert (LT : (a < cnfstart (cs nconf))%nat).
  { assert (M : forall n m, (n <= m)%nat -> (cnfstart (cs n) <= cnfstart (cs m))%nat).
    { intros n m L. induction L; [lia|]. rewrite CONT. lia. }
    pose proof (M (S ci) nconf C) as X. rewrite CONT in X. lia. }
  rewrite force_at by auto. cbn [option_map]. f_equal. destruct (split3 a k K) as (E1 & E2). unfold force_line. rewrite E1, E2. cbn [l_value].
  unfold at_conf, undone. rewrite (P ci a C A), F. destruct (FWEIGHT bld); destruct k as [|[|k]]; cbn; ring.
Qed.

(** ** constraints *)
Lemma dummy_sum : forall bld nconf ntypes limit_0 s, TBEAM bld = false -> (0 < ntypes)%nat ->
  (RESCALE bld = false -> forall g, (0 < g < ntypes)%nat -> dum s (ntypes + g)%nat = 0) ->
  rsumf (fun k => sq (dum s k)) (seq 0 (2 * nbands bld * ntypes)) =
  rsumf (fun l => fst (fst (fst l)) + snd (fst (fst l))) (p_dummy (punish_file bld nconf ntypes limit_0 s)) + shown (p_added (punish_file bld nconf ntypes limit_0 s)).
Proof.
  intros bld nconf ntypes limit_0 s T N Q. unfold nbands. rewrite T. replace (2 * 1 * ntypes)%nat with (ntypes + ntypes)%nat by lia.
  rewrite seq_app, rsumf_app. cbn [punish_file p_dummy p_added]. rewrite rsumf_map. unfold punish_file; cbn [p_dummy p_added].
  assert (SH : forall b q t, map (fun k => (b + k)%nat) (seq t q) = seq (b + t) q).
  { intros b. induction q; intros t; simpl; auto. f_equal. rewrite IHq. f_equal. lia. }
  replace (seq (0 + ntypes) ntypes) with (map (fun k => (ntypes + k)%nat) (seq 0 ntypes)) by (rewrite SH; f_equal; lia).
  rewrite rsumf_map. destruct (RESCALE bld) eqn:RS.
  - cbn [shown]. rewrite Rplus_0_r, <- rsumf_plus. rewrite ?rsumf_map. apply rsumf_ext. intros i _. cbn [fst snd].
    replace (i + ntypes)%nat with (ntypes + i)%nat by lia. ring.
  - cbn [shown]. rewrite ?rsumf_map. f_equal.
    + apply rsumf_ext. intros i _. cbn [fst snd]. ring.
    + destruct ntypes as [|n]; [lia|]. cbn [seq]. change (rsumf (fun k => sq (dum s (S n + k)%nat)) (0%nat :: seq 1 n)) with (sq (dum s (S n + 0)%nat) + rsumf (fun k => sq (dum s (S n + k)%nat)) (seq 1 n)).
      rewrite Nat.add_0_r. rewrite (rsumf_zero (fun k => sq (dum s (S n + k)%nat))); [ring|].
      intros g G. apply in_seq in G. rewrite (Q eq_refl) by lia. unfold sq. ring.
Qed.
Lemma eam_tables : forall bld phi dphi in_range dens ddens reach F dF FA dFA fbegin fend fstep
  eweight sweight limit_0 dummy_0 punish ntypes natoms cs nconf,
  (forall ci, cnfstart (cs (S ci)) = (cnfstart (cs ci) + inconf (cs ci))%nat) -> (0 < ntypes)%nat ->
  forall pos bx rcut, (forall ci, (ci < nconf)%nat -> geometry (cs ci) pos (bx ci) rcut) ->
  forall L, (forall ci a, (ci < nconf)%nat -> (cnfstart (cs ci) <= a < cnfstart (cs ci) + inconf (cs ci))%nat ->
    all_neighbors (cs ci) pos (bx ci) rcut a (L ci a)) ->
  (forall b t, fbegin b t <= fend b t) -> NOPUNISH bld = false -> TBEAM bld = false ->
  forall s, let s' := EamModel.calc_forces bld phi dphi in_range dens ddens reach F dF FA dFA fbegin fend fstep
                        eweight sweight limit_0 dummy_0 punish ntypes natoms cs nconf s in
  let p := punish_file bld nconf ntypes limit_0 s' in
  rsumf (fun k => sq (dum s' k)) (seq 0 (2 * nbands bld * ntypes)) =
  rsumf (fun l => fst (fst (fst l)) + snd (fst (fst l))) (p_dummy p) + shown (p_added p).
Proof.
  intros bld phi dphi in_range dens ddens reach F dF FA dFA fbegin fend fstep eweight sweight limit_0 dummy_0 punish ntypes natoms cs nconf
    CONT NT pos bx rcut GEO L HL BE NP TB s s' p. apply dummy_sum; auto.
  intros RS g G.
  destruct (eam_limit bld phi dphi in_range dens ddens reach F dF FA dFA fbegin fend fstep eweight sweight limit_0 dummy_0 punish ntypes natoms cs nconf
    CONT NT pos bx rcut GEO L HL BE s) as (_ & Q). destruct (Q NP 0%nat g) as (_ & E); [unfold nbands; rewrite TB; lia|lia|]. fold s' in E.
  replace ((2 * 0 + 1) * ntypes + g)%nat with (ntypes + g)%nat in E by lia. rewrite E, RS. cbn [negb andb]. destruct g; [lia|]. reflexivity.
Qed.
(** two bands: the constraints of the second band are missing *)
Lemma bands_missing : exists dF s, let bld := mk_ebuild (mk_build false false false) false false false true in
  let s' := EamModel.calc_forces bld (fun _ _ _ => 0) (fun _ _ _ => 0) (fun _ _ _ => false) (fun _ _ _ => 0) (fun _ _ _ => 0) (fun _ _ _ => false)
     (fun _ _ _ => 0) dF (fun _ _ _ => 0) (fun _ _ _ => 0) (fun _ _ => 0) (fun _ _ => 2) (fun _ _ => 1) 0 0 (fun _ => 0) (fun _ => 0) 0 1 1 (only 1 1 true true (fun _ => [])) 0 s in
  let p := punish_file bld 0 1 (fun _ => 0) s' in
  err (dv s') = 10000 /\ rsumf (fun l => fst (fst (fst l)) + snd (fst (fst l))) (p_dummy p) + shown (p_added p) = 0.
Proof.
  exists (fun b t x => if Nat.eqb b 1 then 1 else 0), (mk_est zero_dev (fun _ _ => 0) (fun _ _ => 0) (fun _ => 0) (fun _ => 0) (fun _ => 0)).
  cbv zeta. cbv [EamModel.calc_forces dummy NOPUNISH RESCALE TBEAM nbands for_up Nat.sub seq fold_left add_err with_dv dummy_type dummy_set dummy_add dummy_mean set_dum setf Nat.mul Nat.add Nat.eqb
    EamModel.dv EamModel.rho EamModel.gradF EamModel.lim EamModel.rsum EamModel.dum].
  destruct (Rlt_dec 0 0) as [X|_]; [exfalso; lra|]. cbv [punish_file p_dummy p_added RESCALE map seq EamModel.dum setf shown Nat.eqb err EamModel.dv DUMMY_WEIGHT]. unfold rsumf, sq. cbn.
  destruct (Rlt_dec 0 0) as [X|_]; [exfalso; lra|]. cbn. split; lra.
Qed.
(** weights of configurations are left out *)
Lemma limits_weighted : forall bld (cs : nat -> conf) nconf ntypes limit_0 (s : est),
  (forall ci, (ci < nconf)%nat -> conf_weight (cs ci) = 1) ->
  rsumf fst (p_limits (punish_file bld nconf ntypes limit_0 s)) = rsumf (fun ci => conf_weight (cs ci) * sq (EamModel.lim s ci)) (seq 0 nconf).
Proof.
  intros bld cs nconf ntypes limit_0 s W. cbn [punish_file p_limits]. rewrite rsumf_map. apply rsumf_ext. intros ci C. apply in_seq in C. rewrite W by lia. cbn [fst]. ring.
Qed.
Lemma limits_differ : exists (cs : nat -> conf) (s : est), let bld := mk_ebuild (mk_build false false false) true false false false in
  rsumf fst (p_limits (punish_file bld 1 1 (fun _ => 0) s)) = 1 /\ rsumf (fun ci => conf_weight (cs ci) * sq (EamModel.lim s ci)) (seq 0 1) = 2.
Proof.
  exists (fun _ => mk_conf 0 1 true true 2 1 (fun _ => []) (fun _ => 0%nat) (fun _ => true) (fun _ => 0) (fun _ => v0) 0 (fun _ => 0)),
    (mk_est zero_dev (fun _ _ => 0) (fun _ _ => 0) (fun _ => 1) (fun _ => 0) (fun _ => 0)).
  cbn. unfold rsumf, sq. cbn. split; ring.
Qed.
(** an unused configuration: calculated force zero, shown is the reference *)
Definition idle (l : list neigh) (k : nat) : conf :=
  if Nat.eqb k 0 then mk_conf 0 1 false true 1 1 (fun _ => l) (fun _ => 0%nat) (fun _ => true) (fun _ => 0) (fun _ => V3 1 0 0) 0 (fun _ => 0)
  else mk_conf 1 0 false true 1 1 (fun _ => l) (fun _ => 0%nat) (fun _ => true) (fun _ => 0) (fun _ => V3 1 0 0) 0 (fun _ => 0).
Lemma unused_refuted : exists cs pos bx rcut L, (forall ci, cnfstart (cs (S ci)) = (cnfstart (cs ci) + inconf (cs ci))%nat) /\ geometry (cs 0%nat) pos bx rcut /\ all_neighbors (cs 0%nat) pos bx rcut 0 (L 0%nat) /\ uf (cs 0%nat) = false /\ forall bld eweight sweight s,
  let s' := PairModel.calc_forces bld (fun _ _ _ => 0) (fun _ _ _ => 0) (fun _ _ _ => true) eweight sweight (fun _ => 0) 0 cs 1 s in
  comp (pair_force (cs 0%nat) pos bx (fun _ _ _ => 0) (fun _ _ _ => true) L 0) 0 = 0 /\ option_map l_value (nth_error (force_table bld 1 cs (fun _ => 0%nat) s') 0) = Some 1.
Proof.
  destruct cube_geometry as (l & _ & [G1 G2 G3]). assert (G : geometry (idle l 0) origin cube (fun _ _ => 1)) by (constructor; auto).
  assert (CONT : forall ci, cnfstart (idle l (S ci)) = (cnfstart (idle l ci) + inconf (idle l ci))%nat) by (intros [|ci]; reflexivity).
  destruct (all_neighbors_exist _ _ _ _ G) as (L & HL).
  assert (H0 : all_neighbors (idle l 0) origin cube (fun _ _ => 1) 0 (L 0%nat)) by (apply HL; cbn; lia).
  exists (idle l), origin, cube, (fun _ _ => 1), L. refine (conj CONT (conj G (conj H0 (conj eq_refl _)))). intros bld eweight sweight s s'. split.
  - unfold pair_force, vsum, comp. cbn [Nat.eqb vx]. apply rsumf_zero. intros v _. unfold bond_force. destruct (active _ _ _ _ _); [|reflexivity].
    cbn [vscale vx]. unfold Rdiv. ring.
  - assert (P : placed (idle l) 1 (fun _ => 0%nat)) by (split; [reflexivity|intros ci a C A; lia]).
    assert (GG : forall ci, (ci < 1)%nat -> geometry (idle l ci) origin ((fun _ => cube) ci) (fun _ _ => 1)) by (intros ci C; replace ci with 0%nat by lia; exact G).
    destruct (forces_textbook bld (fun _ _ _ => 0) (fun _ _ _ => 0) (fun _ _ _ => true) eweight sweight (fun _ => 0) 0 (idle l) 1 CONT
      (fun _ _ _ => eq_refl) (fun _ _ _ => eq_refl) (fun _ _ _ => eq_refl) origin (fun _ => cube) (fun _ _ => 1) GG (fun _ => L)) with (s := s) (ci := 0%nat) as (_ & V & _).
    + intros ci a C A. replace ci with 0%nat in * by lia. apply HL. exact A.
    + lia.
    + apply (unused_shown bld (idle l) 1 (fun _ => 0%nat) s' 0 0 0 P CONT); try (cbn; lia). apply (V eq_refl). cbn. lia.
Qed.

Lemma zero_weight_refuted : exists (c : conf) (d : dev), conf_weight c = 0 /\ en d 0 = 1 /\
  option_map l_square (nth_error (energy_table 1 1 (fun _ => c) d true) 0) = Some None.
Proof.
  exists (mk_conf 0 1 true true 0 1 (fun _ => []) (fun _ => 0%nat) (fun _ => true) (fun _ => 0) (fun _ => v0) 0 (fun _ => 0)), (mk_dev (fun _ => v0) (fun _ => 1) (fun _ _ => 0) 0).
  refine (conj eq_refl (conj eq_refl _)). apply zero_weight; [lia|lra|reflexivity].
Qed.
Lemma weighted_ratio_refuted : exists (bld : build) (c : conf) (d : dev) l q, placed (fun _ => c) 1 (fun _ => 0%nat) /\
  nth_error (force_table bld 1 (fun _ => c) (fun _ => 0%nat) d) 0 = Some l /\
  l_ref l = 1 /\ l_value l - l_ref l = 1 + FORCE_EPS /\ l_rel l = Some q /\ q = 1.
Proof.
  exists (mk_build false true false), (mk_conf 0 1 true true 1 1 (fun _ => []) (fun _ => 0%nat) (fun _ => true) (fun _ => 1) (fun _ => V3 1 0 0) 0 (fun _ => 0)),
    (mk_dev (fun _ => V3 1 0 0) (fun _ => 0) (fun _ _ => 0) 0). eexists. exists 1. split; [split; [reflexivity|intros ci a C A; lia]|].
  split; [reflexivity|]. cbn [l_ref l_value l_rel]. split; [reflexivity|]. split.
  - unfold undone. cbn. ring.
  - cbn. unfold over. destruct (Req_EM_T 1 0); [lra|]. split; [f_equal; field|reflexivity].
Qed.

Lemma columns : forall bld nconf ntypes limit_0 (s : est) i, (i < ntypes)%nat ->
  exists u2 du2 u du, nth_error (p_dummy (punish_file bld nconf ntypes limit_0 s)) i = Some (u2, du2, u, du) /\
  u2 = u * u /\ du2 = du * du /\ du = dum s i /\
  (RESCALE bld = true -> u = dum s (i + ntypes)%nat) /\ (RESCALE bld = false -> u = 0).
Proof.
  intros bld nconf ntypes limit_0 s i I. unfold punish_file. cbn [p_dummy]. rewrite nth_error_map.
  rewrite (nth_error_nth' _ 0%nat) by (rewrite seq_length; exact I). rewrite seq_nth by exact I. cbn [option_map plus].
  destruct (RESCALE bld); do 4 eexists; (split; [reflexivity|]); unfold sq; repeat split; try ring; try reflexivity; intros; discriminate.
Qed.

Lemma limit_lines : forall bld nconf ntypes limit_0 (s : est) i, (i < nconf)%nat ->
  nth_error (p_limits (punish_file bld nconf ntypes limit_0 s)) i = Some (EamModel.lim s i * EamModel.lim s i, EamModel.lim s i + limit_0 i).
Proof.
  intros bld nconf ntypes limit_0 s i I. unfold punish_file. cbn [p_limits]. rewrite nth_error_map.
  rewrite (nth_error_nth' _ 0%nat) by (rewrite seq_length; exact I). rewrite seq_nth by exact I. reflexivity.
Qed.
