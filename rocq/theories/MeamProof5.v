(** MEAM: what is counted beyond the weights, and examples. *)
From Coq Require Import Reals ZArith List Bool Lia Lra Permutation.
From Verif Require Import Vec NbrModel NbrProof NbrProof2 NbrProof3 LoopUtil PairModel PairProof PairSpec PairProof2 PairProof3
  ForceLoop BondProof GradProof ThreeSpec ThreeProof ThreeProof2 ThreeProof4 ThreeProof5 AddProof AddProof2 SwModel SwProof SwProof3 SwProof4 SwProof5 AngSpec AngModel AngProof AngProof2
  BoProof EamModel MeamModel MeamSpec MeamProof MeamProof2 MeamProof3 MeamProof4.
Import ListNotations.
Local Open Scope R_scope.

(** atoms at a right angle with configuration weight w *)
Definition heavy (w : R) (k : nat) : conf :=
  if Nat.eqb k 0 then mk_conf 0 3 true false w 1 (listed 3 elbow cube (12/100) (1, 1, 1)%Z) (fun _ => 0%nat) (fun _ => true) (fun _ => 0) (fun _ => v0) 0 (fun _ => 0)
  else mk_conf 3 0 true false w 1 (listed 3 elbow cube (12/100) (1, 1, 1)%Z) (fun _ => 0%nat) (fun _ => true) (fun _ => 0) (fun _ => v0) 0 (fun _ => 0).
Lemma heavy_full : forall w, full_geometry (heavy w 0) elbow cube (fun _ _ => 12/100).
Proof. intros w. destruct elbow_full as [A B C]. constructor; auto. Qed.
Lemma heavy_cont : forall w ci, cnfstart (heavy w (S ci)) = (cnfstart (heavy w ci) + inconf (heavy w ci))%nat.
Proof. intros. destruct ci; simpl; lia. Qed.
Definition z1 (t : nat) (r : R) : R := 0.
Definition z2 (s t : nat) (r : R) : R := 0.
Definition yes1 (t : nat) (r : R) : bool := true.
Definition yes2 (s t : nat) (r : R) : bool := true.
(** all functions zero, so all densities are 0; the table of the embedding function is [1,2] *)
Definition outside_run (bld : ebuild) (w : R) (natoms : nat) (s : mst) : mst :=
  MeamModel.calc_forces bld z2 z2 yes2 z1 z1 yes1 z2 z2 yes2 z1 z1 z1 z1 z1 z1 (fun _ => 1) (fun _ => 2) (fun _ => 1/10) 0 0 (fun _ => 0) 0 natoms (heavy w) 1 s.
Theorem outside_err : forall bld w natoms s, RESCALE bld = true -> err (mdv (outside_run bld w natoms s)) = 9000000 * (w * w).
Proof.
  intros bld w natoms s ON.
  assert (FG : forall ci, (ci < 1)%nat -> full_geometry (heavy w ci) elbow cube (fun _ _ => 12/100)) by (intros ci H; replace ci with 0%nat by lia; apply heavy_full).
  destruct (full_neighbors_all (fun _ _ => 12/100) 1 (heavy w) elbow (fun _ => cube) FG) as (L & HL).
  destruct (meam_values bld z2 z2 yes2 z1 z1 yes1 z2 z2 yes2 z1 z1 z1 z1 z1 z1 (fun _ => 1) (fun _ => 2) (fun _ => 1/10) 0 0 (fun _ => 0) 0 natoms (heavy w) 1
    (heavy_cont w) (fun _ _ _ => eq_refl) (fun _ _ _ => eq_refl) elbow (fun _ => cube) (fun _ _ => 12/100) FG L HL s 0%nat) as (Q & _); [lia|].
  pose proof (meam_error bld z2 z2 yes2 z1 z1 yes1 z2 z2 yes2 z1 z1 z1 z1 z1 z1 (fun _ => 1) (fun _ => 2) (fun _ => 1/10) 0 0 (fun _ => 0) 0 natoms (heavy w) 1
    (heavy_cont w) (fun _ _ _ => eq_refl) (fun _ _ _ => eq_refl) elbow (fun _ => cube) (fun _ _ => 12/100) FG L HL s) as E.
  destruct (meam_limits bld z2 z2 yes2 z1 z1 yes1 z2 z2 yes2 z1 z1 z1 z1 z1 z1 (fun _ => 1) (fun _ => 2) (fun _ => 1/10) 0 0 (fun _ => 0) 0 natoms (heavy w) 1
    elbow (fun _ => cube) (fun _ _ => 12/100) FG L HL s) as (LM & _).
  cbv zeta in E, LM. fold (outside_run bld w natoms s) in Q, E, LM. set (r := outside_run bld w natoms s) in *. clearbody r.
  rewrite E, ON. specialize (LM ON 0%nat ltac:(lia)). specialize (Q eq_refl).
  unfold rsumf at 1. cbn [seq map]. unfold Vec.rsum. cbn [fold_right]. rewrite LM.
  assert (D0 : forall a, meam_density (heavy w 0) elbow cube z1 yes1 z2 yes2 z1 (L 0%nat) a = 0).
  { intros a. unfold meam_density. rewrite (rsumf_zero _ (L 0%nat a)) by auto. rewrite (rsumf_zero _ (L 0%nat a)); [ring|]. intros v _. apply rsumf_zero. intros x _.
    unfold at_, ang, off, z1, z2, yes2. ring. }
  rewrite (rsumf_ext (fun a => sq (excess 1 2 _)) (fun _ => 1)).
  2: { intros a _. rewrite D0. unfold excess, sq. destruct (Rlt_dec 0 1); lra. }
  change (seq (cnfstart (heavy w 0)) (inconf (heavy w 0))) with (seq 0 3) in *. change (conf_weight (heavy w 0)) with w.
  rewrite (rsumf_zero _ (seq 0 3)).
  - assert (ST : (if STRESS (base bld) then rsumf (fun k => w * 0 * sq (str (mdv r) 0%nat k)) [0; 1; 2; 3; 4; 5]%nat else 0) = 0).
    { destruct (STRESS (base bld)); auto. apply rsumf_zero. intros. ring. }
    rewrite ST. unfold rsumf. cbn [seq map]. unfold Vec.rsum. cbn [fold_right]. unfold sq. ring.
  - intros a Ha. apply in_seq in Ha. rewrite Q by (simpl; lia).
    assert (Z : vsub (vadd (pair_force (heavy w 0) elbow cube z2 yes2 (L 0%nat) a)
      (meam_force (heavy w 0) elbow cube z1 z1 yes1 z2 z2 yes2 z1 z1 (MeamProof.dEc bld z1 z1 z1 z1 (fun _ => 1) (fun _ => 2) (fun _ => 1/10)) (L 0%nat) a)) (force_0 (heavy w 0) a) = v0).
    { assert (MZ : forall i v, meam_grad (heavy w 0) elbow cube z1 z1 yes1 z2 z2 yes2 z1 z1 (MeamProof.dEc bld z1 z1 z1 z1 (fun _ => 1) (fun _ => 2) (fun _ => 1/10)) (L 0%nat) i v = v0).
      { intros i v. unfold meam_grad, MeamProof.dEc, continued. rewrite ON. cbn [snd]. unfold z1 at 1. vring. }
      change (force_0 (heavy w 0) a) with v0. apply by_sprod. intros u. rewrite sprod_sub, sprod_add. unfold pair_force, meam_force. rewrite sprod_sub, !sprod_sum, sprod_0.
      rewrite !rsumf_zero; [ring| | |].
      - intros i _. rewrite sprod_sum. apply rsumf_zero. intros v _. rewrite sprod_if, MZ, sprod_0. destruct (Nat.eqb (fst v) a); auto.
      - intros v _. rewrite MZ. apply sprod_0.
      - intros v _. unfold bond_force. destruct (active _ _ _ _ _ _); [|apply sprod_0]. rewrite sprod_scale. unfold z2, Rdiv. ring. }
    rewrite Z. destruct (negb (CONTRIB (base bld)) || contrib (heavy w 0) a)%bool; auto. unfold sqv, sq, vscale, v0; simpl. ring.
Qed.
(** twice the weight, four times the error *)
Theorem limit_weight_refuted : exists cs1 cs2 : nat -> conf,
  conf_weight (cs1 0%nat) = 1 /\ conf_weight (cs2 0%nat) = 2 /\
  (forall k, cs2 k = mk_conf (cnfstart (cs1 k)) (inconf (cs1 k)) (uf (cs1 k)) (us (cs1 k)) 2 (conf_vol (cs1 k)) (nb (cs1 k)) (typ (cs1 k)) (contrib (cs1 k))
     (absforce (cs1 k)) (force_0 (cs1 k)) (energy_0 (cs1 k)) (stress_0 (cs1 k))) /\
  forall bld natoms s, RESCALE bld = true ->
  let run cs := err (mdv (MeamModel.calc_forces bld z2 z2 yes2 z1 z1 yes1 z2 z2 yes2 z1 z1 z1 z1 z1 z1 (fun _ => 1) (fun _ => 2) (fun _ => 1/10) 0 0 (fun _ => 0) 0 natoms cs 1 s)) in
  run cs2 = 4 * run cs1 /\ 0 < run cs1.
Proof.
  exists (heavy 1), (heavy 2). split; [reflexivity|]. split; [reflexivity|]. split; [intros k; unfold heavy; destruct (Nat.eqb k 0); reflexivity|].
  intros bld natoms s ON run. unfold run. fold (outside_run bld 1 natoms s) (outside_run bld 2 natoms s). rewrite !outside_err by auto. split; lra.
Qed.
(** reference stresses of a configuration whose forces are not used *)
Theorem meam_unused_stress_refuted : exists cs pos bx rcut,
  (forall ci, cnfstart (cs (S ci)) = (cnfstart (cs ci) + inconf (cs ci))%nat) /\
  full_geometry (cs 0%nat) pos bx rcut /\ uf (cs 0%nat) = false /\
  forall bld phi dphi in0 dens ddens reach f df in2 g dg F dF FA dFA fbegin fend fstep natoms s, STRESS (base bld) = true -> 
  (forall s t r, dphi s t r = dphi t s r) -> (forall s t r, in0 s t r = in0 t s r) ->
  let r := MeamModel.calc_forces bld phi dphi in0 dens ddens reach f df in2 g dg F dF FA dFA fbegin fend fstep 0 1 (fun _ => 0) 0 natoms cs 1 s in
  err (mdv r) = 6 + if RESCALE bld then sq (mlim r 0%nat) else sq (mdum r).
Proof.
  exists stressed, elbow, cube, (fun _ _ => 12/100). split; [exact stressed_cont|]. split; [exact stressed_full|]. split; [reflexivity|].
  intros bld phi dphi in0 dens ddens reach f df in2 g dg F dF FA dFA fbegin fend fstep natoms s ON DS IS.
  assert (FG : forall ci, (ci < 1)%nat -> full_geometry (stressed ci) elbow cube (fun _ _ => 12/100)) by (intros ci H; replace ci with 0%nat by lia; exact stressed_full).
  destruct (full_neighbors_all (fun _ _ => 12/100) 1 stressed elbow (fun _ => cube) FG) as (L & HL).
  destruct (meam_values bld phi dphi in0 dens ddens reach f df in2 g dg F dF FA dFA fbegin fend fstep 0 1 (fun _ => 0) 0 natoms stressed 1 stressed_cont DS IS elbow (fun _ => cube) (fun _ _ => 12/100) FG L HL s 0%nat) as (_ & Q & _ & T); [lia|].
  pose proof (meam_error bld phi dphi in0 dens ddens reach f df in2 g dg F dF FA dFA fbegin fend fstep 0 1 (fun _ => 0) 0 natoms stressed 1 stressed_cont DS IS elbow (fun _ => cube) (fun _ _ => 12/100) FG L HL s) as E. cbv zeta in E.
  set (r := MeamModel.calc_forces bld phi dphi in0 dens ddens reach f df in2 g dg F dF FA dFA fbegin fend fstep 0 1 (fun _ => 0) 0 natoms stressed 1 s) in *. clearbody r. cbv zeta. rewrite E, ON.
  specialize (T ON). specialize (Q eq_refl). unfold rsumf at 1. cbn [seq map fold_right].
  rewrite (rsumf_zero _ (seq (cnfstart (stressed 0)) (inconf (stressed 0)))).
  - change (conf_weight (stressed 0)) with 1. cbn [seq]. unfold rsumf. cbn [map fold_right]. rewrite !T by lia. change (uf (stressed 0)) with false. cbn [andb].
    change (stress_0 (stressed 0)) with (fun _ : nat => 1). cbv beta. unfold sq, Vec.rsum. cbn [fold_right]. destruct (RESCALE bld); ring.
  - intros a Ha. apply in_seq in Ha. rewrite Q by lia. destruct (negb (CONTRIB (base bld)) || contrib (stressed 0) a)%bool; auto. unfold sqv, sprod, sq, v0; simpl. ring.
Qed.

(** densities of the three atoms: transfer function r, f = 1, g = 1 + x *)
Definition lin1 (t : nat) (r : R) : R := r.
Definition one2 (s t : nat) (r : R) : R := 1.
Definition plus1 (t : nat) (x : R) : R := 1 + x.
Lemma bent_density : meam_density (bent 0) elbow cube lin1 yes1 one2 yes2 plus1 elbow_list 0 = 12/10 /\
  meam_density (bent 0) elbow cube lin1 yes1 one2 yes2 plus1 elbow_list 1 = 1/10 /\ meam_density (bent 0) elbow cube lin1 yes1 one2 yes2 plus1 elbow_list 2 = 1/10.
Proof.
  assert (D1 := bent_dist 0 (1%nat, O3) ltac:(lia) ltac:(simpl; auto)). assert (D2 := bent_dist 0 (2%nat, O3) ltac:(lia) ltac:(simpl; auto)).
  assert (D3 := bent_dist 1 (0%nat, O3) ltac:(lia) ltac:(simpl; auto)). assert (D4 := bent_dist 2 (0%nat, O3) ltac:(lia) ltac:(simpl; auto)).
  assert (C1 := elbow_cos). assert (C2 : cosine elbow cube 0 (2%nat, O3) (1%nat, O3) = 0) by (rewrite (cos_sym' elbow cube); exact C1).
  unfold meam_density, at_, ang, off, yes1, yes2, one2, plus1, lin1, others, rsumf, Vec.rsum.
  cbn [elbow_list map fold_right filter same Nat.eqb Z.eqb andb negb fst]. cbn [map fold_right filter same Nat.eqb Z.eqb andb negb fst Pos.eqb].
  rewrite ?D1, ?D2, ?D3, ?D4, ?C1, ?C2. repeat split; field.
Qed.
