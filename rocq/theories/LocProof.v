(** The report of the local electron densities. *)
From Coq Require Import Reals ZArith List Bool Lia Lra.
From Verif Require Import Vec NbrModel NbrProof NbrProof2 NbrProof3 LoopUtil PairModel PairProof PairSpec PairProof2 PairProof3 ForceLoop BondProof
  EamModel EamProof EamSpec EamProof2 EamProof3 EamProof4 EamProof5 EamProof7 EtabModel LocModel RescaleProof6.
Import ListNotations.
Local Open Scope R_scope.

(** ** sums by type *)
Lemma totals_spec : forall n ty rho t, totals n ty rho t = rsumf (fun i => if Nat.eqb (ty i) t then rho i else 0) (seq 0 n).
Proof.
  intros n ty rho t. unfold totals. induction n; [auto|].
  rewrite seq_S, fold_left_app, rsumf_snoc. cbn [fold_left Nat.add]. rewrite <- IHn.
  unfold setf at 1. rewrite Nat.eqb_sym. destruct (Nat.eqb_spec (ty n) t) as [->|]; ring.
Qed.
Lemma atoms_by_conf : forall cs, (forall ci, cnfstart (cs (S ci)) = (cnfstart (cs ci) + inconf (cs ci))%nat) -> cnfstart (cs O) = O ->
  forall (f : nat -> R) n, rsumf f (seq 0 (cnfstart (cs n))) = rsumf (fun ci => rsumf f (seq (cnfstart (cs ci)) (inconf (cs ci)))) (seq 0 n).
Proof.
  intros cs CONT Z f n. induction n; [rewrite Z; auto|].
  rewrite CONT, seq_app, rsumf_app, seq_S, rsumf_snoc, IHn. auto.
Qed.

(** ** densities left by one configuration *)
Section One.
Variable bld : ebuild.
Variables phi dphi : nat -> nat -> R -> R.
Variable in_range : nat -> nat -> R -> bool.
Variables dens ddens : nat -> nat -> R -> R.
Variable reach : nat -> nat -> R -> bool.
Variables F dF FA dFA : nat -> nat -> R -> R.
Variables fbegin fend fstep : nat -> nat -> R.
Variables eweight sweight : R.
Variable limit_0 : nat -> R.
Variable ci : nat.
Variable c : conf.
Notation nbd := (nbands bld).
Notation lo := (cnfstart c).
Notation hi := (cnfstart c + inconf c)%nat.
Hypothesis ORD : ordered c.
Hypothesis TYP : forall i e, (lo <= i < hi)%nat -> In e (nb c i) -> n_type e = typ c (n_nr e).
Notation satom := (second_atom bld phi dphi in_range dens reach F dF FA dFA fbegin fend fstep ci c).

Lemma reset_frame : forall s b a, (a < lo \/ hi <= a)%nat -> rho (for_up lo hi (reset_rho bld c) s) b a = rho s b a.
Proof.
  intros s b a A. apply (for_up_inv (fun _ s' => rho s' b a = rho s b a)); [lia|auto|].
  intros i t Hi Q. unfold reset_rho; cbn [rho]. destruct (Nat.ltb b nbd); auto. rewrite setf_neq by lia. auto.
Qed.
Lemma second_frame : forall s b a, (b < nbd)%nat -> (a < lo \/ hi <= a)%nat -> rho (for_up lo hi satom s) b a = rho s b a.
Proof.
  intros s b a B A. apply (for_up_inv (fun _ s' => rho s' b a = rho s b a)); [lia|auto|].
  intros i t Hi Q. unfold second_atom.
  destruct (embed_loop bld F dF FA dFA fbegin fend fstep ci c i (fold_left (second_neighbor bld phi dphi in_range dens reach ci c i) (nb c i) t)) as (_ & _ & _ & _ & _ & D6 & _).
  rewrite D6. replace (Nat.eqb a i) with false by (symmetry; apply Nat.eqb_neq; lia). rewrite andb_false_r.
  destruct (second_fold bld phi dphi in_range dens reach ci c i (nb c i) t (fun e H => TYP i e Hi H)) as (_ & R & _).
  rewrite R by auto. replace (Nat.eqb a i) with false by (symmetry; apply Nat.eqb_neq; lia).
  rewrite rsumf_zero; [rewrite Q; ring|]. intros e He. pose proof (ORD i e Hi He).
  replace (Nat.eqb (n_nr e) a) with false by (symmetry; apply Nat.eqb_neq; lia). auto.
Qed.
Lemma conf_rho : forall s b a, (b < nbd)%nat ->
  rho (EamModel.config_body bld phi dphi in_range dens ddens reach F dF FA dFA fbegin fend fstep eweight sweight limit_0 ci c s) b a =
  if (Nat.leb lo a && Nat.ltb a hi)%bool then seen bld dens reach fbegin fend c b a else rho s b a.
Proof.
  intros s b a B. unfold EamModel.config_body. set (s1 := with_dv s _). set (s2 := mk_est (dv s1) _ _ _ _ _). cbn [rho with_dv].
  destruct (Nat.leb_spec lo a) as [A1|A1], (Nat.ltb_spec a hi) as [A2|A2]; cbn [andb];
    try (rewrite second_frame by (auto; lia); rewrite reset_frame by lia; auto; fail).
  destruct (reset_rho_spec bld c s2) as (_ & Z & _). set (s3 := for_up lo hi (reset_rho bld c) s2) in *. clearbody s3.
  assert (I : inv2 bld phi dphi in_range dens reach F dF FA dFA fbegin fend fstep ci c s3 hi (for_up lo hi satom s3)).
  { apply (for_up_inv (inv2 bld phi dphi in_range dens reach F dF FA dFA fbegin fend fstep ci c s3)); [lia|apply inv2_init; auto|]. intros i t Hi Ht. apply inv2_step; auto. }
  destruct I as (_ & _ & _ & _ & _ & _ & C7 & _). apply C7; auto.
Qed.
End One.

(** ** whole runs *)
Section Run.
Variable bld : ebuild.
Variables phi dphi : nat -> nat -> R -> R.
Variable in_range : nat -> nat -> R -> bool.
Variables dens ddens : nat -> nat -> R -> R.
Variable reach : nat -> nat -> R -> bool.
Variables F dF FA dFA : nat -> nat -> R -> R.
Variables fbegin fend fstep : nat -> nat -> R.
Variables eweight sweight : R.
Variables limit_0 dummy_0 : nat -> R.
Variable punish : R.
Variables ntypes natoms : nat.
Variable cs : nat -> conf.
Variable nconf : nat.
Notation calc := (EamModel.calc_forces bld phi dphi in_range dens ddens reach F dF FA dFA fbegin fend fstep eweight sweight limit_0 dummy_0 punish ntypes natoms cs nconf).
Notation lo ci := (cnfstart (cs ci)).
Notation hi ci := (cnfstart (cs ci) + inconf (cs ci))%nat.
Hypothesis CONT : forall ci, cnfstart (cs (S ci)) = (cnfstart (cs ci) + inconf (cs ci))%nat.
Hypothesis NT : (0 < ntypes)%nat.
Variable pos : nat -> vec.
Variable bx : nat -> box.
Variable rcut : nat -> nat -> R.
Hypothesis GEO : forall ci, (ci < nconf)%nat -> geometry (cs ci) pos (bx ci) rcut.
Variable L : nat -> nat -> list (nat * image).
Hypothesis HL : forall ci a, (ci < nconf)%nat -> (lo ci <= a < hi ci)%nat -> all_neighbors (cs ci) pos (bx ci) rcut a (L ci a).
Hypothesis BE : forall b t, fbegin b t <= fend b t.

(** what is used of the textbook density *)
Definition used (ci a : nat) : R :=
  let x := density (cs ci) pos (bx ci) dens reach (L ci) 0 a in
  if RESCALE bld then cut (fbegin 0%nat (typ (cs ci) a)) (fend 0%nat (typ (cs ci) a)) x else x.

Lemma run_rho : forall s ci a, (ci < nconf)%nat -> (lo ci <= a < hi ci)%nat -> rho (calc s) 0%nat a = used ci a.
Proof.
  intros s ci a H A. pose proof (ordG cs nconf pos bx rcut GEO) as ORD. pose proof (typG cs nconf pos bx rcut GEO L HL) as TYP.
  assert (NB : (0 < nbands bld)%nat) by apply nbands_pos.
  unfold EamModel.calc_forces. set (s0 := mk_est _ _ _ _ _ _).
  match goal with |- context [dummy bld dF fbegin fend dummy_0 ntypes natoms ?x] => destruct (dummy_spec bld dF fbegin fend dummy_0 ntypes natoms x NT) as ((_ & _ & _ & Q & _) & _) end.
  rewrite Q. clear Q. cbn [add_err with_dv rho].
  assert (I : forall ci a, (ci < nconf)%nat -> (lo ci <= a < hi ci)%nat ->
    rho (for_up 0 nconf (fun ci => EamModel.config_body bld phi dphi in_range dens ddens reach F dF FA dFA fbegin fend fstep eweight sweight limit_0 ci (cs ci)) s0) 0%nat a =
    seen bld dens reach fbegin fend (cs ci) 0 a).
  { clear ci a H A. apply (for_up_inv (fun n t => forall ci a, (ci < n)%nat -> (lo ci <= a < hi ci)%nat -> rho t 0%nat a = seen bld dens reach fbegin fend (cs ci) 0 a)); [lia|intros; lia|].
    intros n t Hn IH ci a H A. rewrite (conf_rho bld phi dphi in_range dens ddens reach F dF FA dFA fbegin fend fstep eweight sweight limit_0 n (cs n) (ORD n ltac:(lia)) (fun i e => TYP n i e ltac:(lia))) by auto.
    destruct (Nat.eq_dec ci n) as [->|N].
    - destruct (Nat.leb_spec (lo n) a), (Nat.ltb_spec a (hi n)); try lia. auto.
    - pose proof (starts cs CONT ci n ltac:(lia)). destruct (Nat.leb_spec (lo n) a); [lia|]. cbn [andb]. apply IH; auto; lia. }
  rewrite (I ci a H A). unfold seen. rewrite (full_density dens reach (cs ci) pos (bx ci) rcut (GEO ci H) (L ci) (fun a => HL ci a H)) by auto.
  rewrite (cl_cut bld fbegin fend BE). unfold used. auto.
Qed.

Variable type_of : nat -> nat.
Variable na : nat -> nat.
Hypothesis START : cnfstart (cs O) = O.
Hypothesis ALL : natoms = cnfstart (cs nconf).
Hypothesis TY : forall ci a, (ci < nconf)%nat -> (lo ci <= a < hi ci)%nat -> type_of a = typ (cs ci) a.
Hypothesis NA : forall t, (t < ntypes)%nat -> INR (na t) =
  rsumf (fun ci => rsumf (fun a => if Nat.eqb (typ (cs ci) a) t then 1 else 0) (seq (lo ci) (inconf (cs ci)))) (seq 0 nconf).

Lemma conf_hi : forall n ci, (ci < n)%nat -> (hi ci <= cnfstart (cs n))%nat.
Proof. clear START NA na ALL TY type_of. intros n ci H. pose proof (starts cs CONT ci n H). lia. Qed.
Theorem loc_lines : forall s,
  length (lines natoms type_of (rho (calc s) 0%nat)) = natoms /\
  forall ci a, (ci < nconf)%nat -> (lo ci <= a < hi ci)%nat ->
  nth_error (lines natoms type_of (rho (calc s) 0%nat)) a = Some (a, typ (cs ci) a, used ci a).
Proof.
  clear START NA na. intros s. unfold lines. split; [rewrite map_length, seq_length; auto|]. intros ci a H A.
  rewrite (map_nth_error _ a (seq 0 natoms) (d := a)).
  - rewrite (TY ci a H A), (run_rho s ci a H A). auto.
  - pose proof (conf_hi nconf ci H). rewrite (nth_error_nth' _ 0%nat) by (rewrite seq_length; lia). rewrite seq_nth by lia. auto.
Qed.
Theorem loc_averages : forall s,
  length (averages ntypes natoms type_of (rho (calc s) 0%nat) na) = ntypes /\
  forall t, (t < ntypes)%nat -> nth_error (averages ntypes natoms type_of (rho (calc s) 0%nat) na) t = Some (
    let sum f := rsumf (fun ci => rsumf (fun a => if Nat.eqb (typ (cs ci) a) t then f ci a else 0) (seq (lo ci) (inconf (cs ci)))) (seq 0 nconf) in
    if Req_EM_T (sum (fun _ _ => 1)) 0 then None else Some (sum used / sum (fun _ _ => 1))).
Proof.
  intros s. unfold averages. split; [rewrite map_length, seq_length; auto|]. intros t Ht.
  rewrite (map_nth_error _ t (seq 0 ntypes) (d := t)) by (rewrite (nth_error_nth' _ 0%nat) by (rewrite seq_length; lia); rewrite seq_nth by lia; auto).
  f_equal. cbv zeta. unfold over. rewrite NA by auto.
  assert (T : totals natoms type_of (rho (calc s) 0%nat) t =
    rsumf (fun ci => rsumf (fun a => if Nat.eqb (typ (cs ci) a) t then used ci a else 0) (seq (lo ci) (inconf (cs ci)))) (seq 0 nconf)).
  { rewrite totals_spec. rewrite ALL at 1. rewrite (atoms_by_conf cs CONT START).
    apply rsumf_ext. intros ci Hci. apply in_seq in Hci. apply rsumf_ext. intros a Ha. apply in_seq in Ha.
    rewrite (TY ci a), (run_rho s ci a) by lia. auto. }
  rewrite T. auto.
Qed.
End Run.

(** ** one atom without neighbours, density function from 1/2 on *)
Definition resc_build : ebuild := mk_ebuild (mk_build true false false) true false false false.
Lemma loc_clamped : forall s,
  let c := one_conf [] 0 in let L := fun _ : nat => @nil (nat * image) in
  let s' := EamModel.calc_forces resc_build zf zf all_range idf onef all_range idf onef idf onef (fun _ _ => 1 / 2) (fun _ _ => 100) (fun _ _ => 1)
              1 1 (fun _ => 0) (fun _ => 0) 0 1 1 (one_conf []) 1 s in
  geometry c origin cube (fun _ _ => 1 / 2) /\ all_neighbors c origin cube (fun _ _ => 1 / 2) 0 (L 0%nat) /\
  density c origin cube idf all_range L 0 0 = 0 /\
  lines 1 (fun _ => 0%nat) (rho s' 0%nat) = [(0%nat, 0%nat, 1 / 2)] /\
  averages 2 1 (fun _ => 0%nat) (rho s' 0%nat) (fun t => match t with O => 1%nat | _ => 0%nat end) = [Some (1 / 2); None].
Proof.
  intros s. cbv zeta. pose proof alone_geometry as G. change (cube_conf []) with (one_conf [] 0) in G.
  split; [auto|]. assert (N : all_neighbors (one_conf [] 0) origin cube (fun _ _ => 1 / 2) 0 []).
  { destruct (all_neighbors_exist _ _ _ _ G) as (L & HL). specialize (HL 0%nat ltac:(simpl; lia)). destruct (L 0%nat) as [|v q] eqn:E; [auto|exfalso].
    destruct HL as [_ HL]. destruct v as [j n]. assert (In (j, n) ((j, n) :: q)) as I by (left; auto). apply HL in I. destruct I as [J B].
    destruct (alone_bonds j n) as [X|X]; [apply X; auto|simpl in J; lia]. }
  split; [auto|]. split; [auto|].
  assert (R : rho (EamModel.calc_forces resc_build zf zf all_range idf onef all_range idf onef idf onef (fun _ _ => 1 / 2) (fun _ _ => 100) (fun _ _ => 1)
              1 1 (fun _ => 0) (fun _ => 0) 0 1 1 (one_conf []) 1 s) 0%nat 0%nat = 1 / 2).
  { rewrite (run_rho resc_build zf zf all_range idf onef all_range idf onef idf onef (fun _ _ => 1 / 2) (fun _ _ => 100) (fun _ _ => 1) 1 1 (fun _ => 0) (fun _ => 0) 0 1 1 (one_conf []) 1
      (one_cont []) ltac:(lia) origin (fun _ => cube) (fun _ _ => 1 / 2)
      (fun ci H => ltac:(assert (ci = 0)%nat as -> by lia; exact G)) (fun _ _ => [])
      (fun ci a H A => ltac:(assert (ci = 0)%nat as -> by lia; simpl in A; assert (a = 0)%nat as -> by lia; exact N)) ltac:(intros; lra) s 0%nat 0%nat ltac:(lia) ltac:(simpl; lia)).
    unfold used, cut, density, rsumf; cbn. destruct (Rlt_dec 100 0); [exfalso; lra|]. destruct (Rlt_dec 0 (1 / 2)); [auto|exfalso; lra]. }
  split; [unfold lines; cbn [seq map]; rewrite R; auto|].
  unfold averages. cbn [seq map]. rewrite !totals_spec. unfold rsumf; cbn [seq map Vec.rsum fold_right Nat.eqb]. rewrite R. unfold over; cbn [INR].
  destruct (Req_EM_T 1 0); [exfalso; lra|]. destruct (Req_EM_T 0 0) as [_|X]; [|exfalso; lra]. do 2 f_equal. unfold Vec.rsum; simpl; lra.
Qed.
Lemma loc_clamped_ex : exists bld fbegin (l : list neigh) (L : nat -> list (nat * image)), forall s,
  let c := one_conf l 0 in
  let s' := EamModel.calc_forces bld zf zf all_range idf onef all_range idf onef idf onef fbegin (fun _ _ => 100) (fun _ _ => 1)
              1 1 (fun _ => 0) (fun _ => 0) 0 1 1 (one_conf l) 1 s in
  geometry c origin cube (fun _ _ => 1 / 2) /\ all_neighbors c origin cube (fun _ _ => 1 / 2) 0 (L 0%nat) /\
  density c origin cube idf all_range L 0 0 = 0 /\
  lines 1 (fun _ => 0%nat) (rho s' 0%nat) = [(0%nat, 0%nat, 1 / 2)] /\
  averages 2 1 (fun _ => 0%nat) (rho s' 0%nat) (fun t => match t with O => 1%nat | _ => 0%nat end) = [Some (1 / 2); None].
Proof. exists resc_build, (fun _ _ => 1 / 2), [], (fun _ => []). exact loc_clamped. Qed.
