(** The Tersoff routine: one atom. *)
From Coq Require Import Reals ZArith List Bool Lia Lra Permutation.
From Verif Require Import Vec NbrModel NbrProof NbrProof2 LoopUtil PairIndexModel PairModel PairProof PairSpec PairProof2 PairProof3 LammpsModel
  ForceLoop BondProof GradProof ThreeSpec ThreeProof ThreeProof2 ThreeProof3 AddProof SwModel SwProof BoSpec BoProof TersModel TersSpec TersProof.
Import ListNotations.
Local Open Scope R_scope.

(** parameters of the model by pair of types *)
Definition par_of (V : nat -> nat -> R) (omega : nat -> R) (n s t : nat) : ters := let k := col n s t in
  mk_ters (V k 0%nat) (V k 1%nat) (V k 2%nat) (V k 3%nat) (V k 4%nat) (V k 5%nat) (V k 6%nat) (V k 7%nat) (V k 8%nat) (V k 9%nat) (V k 10%nat) (omega k).
Lemma filter_cons' : forall {A} (p : A -> bool) x l, filter p (x :: l) = if p x then x :: filter p l else filter p l.
Proof. reflexivity. Qed.

Section Ters.
Variables (bld : build) (pow0 : R -> R -> R) (V : nat -> nat -> R) (omega : nat -> R) (n : nat).
Variables (c : conf) (pos : nat -> vec) (b : box) (ci : nat).
Notation ent i v := (entry pos (typ c) b i (fst v) (snd v)).
Notation son := (STRESS bld && us c)%bool.
Notation pw := (cpow pow0).
Notation par := (par_of V omega n).
Notation d := (dvec pos b).
Notation r := (dist pos b).
Notation Q := (around par).
Notation Q1 := around1.
Notation Q2 := (around2 par).
Notation QC := (aroundc par).
Notation at' f i v := (f (typ c i) (typ c (fst v))).
Notation inr i w := (at' (reach par) i w (r i w)).

Lemma cut_f_fc : forall s t x, cut_f V (col n s t) x = fc par s t x.
Proof.
  intros s t x. unfold cut_f, fc, par_of; cbn [t_S t_R]. destruct (Rlt_dec x _); auto. destruct (Rlt_dec x _); auto.
  match goal with |- _ = 1/2 + 1/2 * cos ?y => replace y with (PI / (V (col n s t) 9%nat - V (col n s t) 10%nat) * (x - V (col n s t) 10%nat)) by (unfold Rdiv; ring) end. ring.
Qed.
Lemma cut_df_fc : forall s t x, cut_df V (col n s t) x = fc' par s t x.
Proof.
  intros s t x. unfold cut_df, fc', par_of; cbn [t_S t_R]. destruct (Rlt_dec x _); auto. destruct (Rlt_dec x _); auto.
  match goal with |- _ = _ * sin ?y => replace y with (PI / (V (col n s t) 9%nat - V (col n s t) 10%nat) * (x - V (col n s t) 10%nat)) by (unfold Rdiv; ring) end. ring.
Qed.
Lemma out_fc : forall s t x, reach par s t x = false -> fc par s t x = 0 /\ fc' par s t x = 0.
Proof. intros s t x. unfold reach, fc, fc'. destruct (Rlt_dec x _); [discriminate|auto]. Qed.

Definition dz (i : nat) (v w : nat * image) : vec :=
  vadd (vscale (at_ c pos b Q2 i v w / r i w) (d i w)) (vscale (at_ c pos b QC i v w) (cos_grad pos b i w v)).
Definition dj (i : nat) (v w : nat * image) : vec := vscale (at_ c pos b QC i v w) (cos_grad pos b i v w).
Lemma out_around : forall i v w, inr i w = false -> at_ c pos b Q i v w = 0 /\ at_ c pos b Q2 i v w = 0 /\ at_ c pos b QC i v w = 0.
Proof. intros i v w H. unfold at_, around, around2, aroundc. destruct (out_fc _ _ _ H) as [-> ->]. repeat split; ring. Qed.
Lemma inner_one : forall i v w z, d i v <> v0 -> d i w <> v0 -> inner V n omega c i (ent i v) z (ent i w) =
  mk_zacc (z_zeta z + at_ c pos b Q i v w) (vsub (z_i z) (dz i v w)) (vadd (z_j z) (dj i v w)) (z_k z ++ (if inr i w then [(ent i w, dz i v w)] else [])).
Proof.
  intros i v w z DV DW. unfold inner. rewrite !ent_type, !ent_r. destruct (inr i w) eqn:I.
  - unfold reach in I. change (t_S (par (typ c i) (typ c (fst w)))) with (V (col n (typ c i) (typ c (fst w))) 9%nat) in I.
    destruct (Rlt_dec (r i w) (V (col n (typ c i) (typ c (fst w))) 9%nat)) as [IN|OUT]; [|discriminate].
    rewrite (ent_cos c pos b i v w DV DW), !ent_dist, !cut_f_fc, !cut_df_fc by auto. cbv zeta.
    assert (Z : vsub (vscale (fc' par (typ c i) (typ c (fst w)) (r i w) / r i w *
      (1 + V (col n (typ c i) (typ c (fst v))) 6%nat * V (col n (typ c i) (typ c (fst v))) 6%nat / (V (col n (typ c i) (typ c (fst v))) 7%nat * V (col n (typ c i) (typ c (fst v))) 7%nat) -
       V (col n (typ c i) (typ c (fst v))) 6%nat * V (col n (typ c i) (typ c (fst v))) 6%nat * (1 / (V (col n (typ c i) (typ c (fst v))) 7%nat * V (col n (typ c i) (typ c (fst v))) 7%nat +
         (V (col n (typ c i) (typ c (fst v))) 8%nat - cosine pos b i v w) * (V (col n (typ c i) (typ c (fst v))) 8%nat - cosine pos b i v w)))) * omega (col n (typ c i) (typ c (fst w)))) (d i w))
      (vscale (2 * (V (col n (typ c i) (typ c (fst v))) 6%nat * V (col n (typ c i) (typ c (fst v))) 6%nat) * (V (col n (typ c i) (typ c (fst v))) 8%nat - cosine pos b i v w) *
         (1 / (V (col n (typ c i) (typ c (fst v))) 7%nat * V (col n (typ c i) (typ c (fst v))) 7%nat +
         (V (col n (typ c i) (typ c (fst v))) 8%nat - cosine pos b i v w) * (V (col n (typ c i) (typ c (fst v))) 8%nat - cosine pos b i v w))) *
         (1 / (V (col n (typ c i) (typ c (fst v))) 7%nat * V (col n (typ c i) (typ c (fst v))) 7%nat +
         (V (col n (typ c i) (typ c (fst v))) 8%nat - cosine pos b i v w) * (V (col n (typ c i) (typ c (fst v))) 8%nat - cosine pos b i v w))) *
         fc par (typ c i) (typ c (fst w)) (r i w) * omega (col n (typ c i) (typ c (fst w))))
       (vsub (vscale (1 / (r i v * r i w)) (d i v)) (vscale (cosine pos b i v w / (r i w * r i w)) (d i w)))) = dz i v w).
    { unfold dz, at_, around2, aroundc, angle, angle', cos_grad. rewrite (cos_sym' pos b i w v), (Rmult_comm (r i w) (r i v)).
      apply by_sprod. intros u. rewrite sprod_sub, sprod_add, !sprod_scale, !sprod_sub, !sprod_scale. unfold Rdiv. cbn [par_of t_c t_d t_h t_omega]. ring. }
    rewrite Z. f_equal.
    + unfold at_, around, angle, par_of; cbn [t_c t_d t_h t_omega]. unfold Rdiv. ring.
    + apply by_sprod. intros u. unfold dj, at_, aroundc, angle', cos_grad. rewrite sprod_sub, sprod_add, !sprod_scale, !sprod_sub, !sprod_scale.
      unfold Rdiv. cbn [par_of t_c t_d t_h t_omega]. ring.
  - assert (I' := I). unfold reach in I'. change (t_S (par (typ c i) (typ c (fst w)))) with (V (col n (typ c i) (typ c (fst w))) 9%nat) in I'.
    destruct (Rlt_dec (r i w) (V (col n (typ c i) (typ c (fst w))) 9%nat)) as [IN|OUT]; [discriminate|].
    destruct (out_around i v w I) as (E1 & E2 & E3). unfold dz, dj. rewrite E1, E2, E3, app_nil_r. destruct z as [za zi zj zk]; cbn [z_zeta z_i z_j z_k]. f_equal; [ring| |];
      apply by_sprod; intros u; rewrite ?sprod_sub, !sprod_add, !sprod_scale; unfold Rdiv; ring.
Qed.
Lemma inner_fold : forall i v l z, d i v <> v0 -> (forall w, In w l -> d i w <> v0) ->
  fold_left (inner V n omega c i (ent i v)) (map (fun w => ent i w) l) z =
  mk_zacc (z_zeta z + rsumf (at_ c pos b Q i v) l) (vsub (z_i z) (vsum (dz i v) l)) (vadd (z_j z) (vsum (dj i v) l))
    (z_k z ++ map (fun w => (ent i w, dz i v w)) (filter (fun w => inr i w) l)).
Proof.
  intros i v l. induction l as [|w l IH]; intros z DV DL.
  - simpl. change (vsum (dz i v) []) with v0. change (vsum (dj i v) []) with v0. change (rsumf (at_ c pos b Q i v) []) with 0. rewrite app_nil_r.
    destruct z as [za zi zj zk]; cbn [z_zeta z_i z_j z_k]. f_equal; [ring| |]; vring.
  - cbn [map fold_left]. rewrite inner_one by (auto; apply DL; left; auto). rewrite IH by (auto; intros; apply DL; right; auto). cbn [z_zeta z_i z_j z_k].
    rewrite rsumf_cons. change (vsum (dz i v) (w :: l)) with (vadd (dz i v w) (vsum (dz i v) l)). change (vsum (dj i v) (w :: l)) with (vadd (dj i v w) (vsum (dj i v) l)).
    rewrite filter_cons'. f_equal; [ring|vring|vring|]. rewrite <- app_assoc. f_equal. destruct (inr i w); reflexivity.
Qed.

Section Lists.
Variable B : nat -> list (nat * image).
Notation P := (attract par).
Notation P' := (attract' par).
Notation bo := (order pw par).
Notation bo' := (order' pw par).
Notation GO := (grad_own c pos b P P' bo bo' Q Q1 QC B).
Notation GX := (grad_other c pos b P bo' Q Q2 QC B).
Theorem bond_body_adds : forall i v, (forall w, In w (B i) -> d i w <> v0) -> In v (B i) ->
  adds ci (fun s => bond_body bld pow0 V n omega ci c i s (ent i v, map (fun w => ent i w) (others B i v)))
    (oF c pos b P P' bo bo' Q Q1 Q2 QC B i v) (bo_bond c pos b P bo Q B i v)
    (fun k => if (Nat.ltb k 6 && son)%bool then oS c pos b P P' bo bo' Q Q1 Q2 QC B i v k else 0).
Proof.
  intros i v D Hv. assert (DV := D v Hv). assert (RP := dist_pos pos b i v DV).
  unfold bond_body. cbn [fst snd]. rewrite ent_type, ent_r. set (k := col n (typ c i) (typ c (fst v))).
  destruct (Rlt_dec (r i v) (V k 9%nat)) as [IN|OUT].
  2: { assert (O : reach par (typ c i) (typ c (fst v)) (r i v) = false) by (unfold reach; cbn [par_of t_S]; fold k; destruct (Rlt_dec (r i v) (V k 9%nat)); auto; lra).
    destruct (out_fc _ _ _ O) as [O1 O2].
    assert (Z1 : P (typ c i) (typ c (fst v)) (r i v) = 0) by (unfold attract; rewrite O1; ring).
    assert (Z2 : P' (typ c i) (typ c (fst v)) (r i v) = 0) by (unfold attract'; rewrite O1, O2; ring).
    apply bond_none; [unfold bo_bond; rewrite Z1; ring| |]; intros; apply by_sprod; intros u; unfold grad_own, grad_other; rewrite Z1, ?Z2, ?sprod_add, !sprod_scale, sprod_0; unfold Rdiv; ring. }
  destruct (Req_EM_T (V k 1%nat) 0) as [B0|BN].
  { assert (Z1 : P (typ c i) (typ c (fst v)) (r i v) = 0) by (unfold attract; cbn [par_of t_B]; fold k; rewrite B0; ring).
    assert (Z2 : P' (typ c i) (typ c (fst v)) (r i v) = 0) by (unfold attract'; cbn [par_of t_B]; fold k; rewrite B0; ring).
    apply bond_none; [unfold bo_bond; rewrite Z1; ring| |]; intros; apply by_sprod; intros u; unfold grad_own, grad_other; rewrite Z1, ?Z2, ?sprod_add, !sprod_scale, sprod_0; unfold Rdiv; ring. }
  assert (DO : forall w, In w (others B i v) -> d i w <> v0) by (intros w W; apply filter_In in W; apply D; tauto).
  rewrite (inner_fold i v (others B i v) _ DV DO). cbn [z_zeta z_i z_j z_k app]. cbv zeta. rewrite Rplus_0_l, map_map. cbn [fst snd].
  change (rsumf (at_ c pos b Q i v) (others B i v)) with (zeta c pos b Q B i v). unfold k. rewrite cut_f_fc, cut_df_fc, (ent_dist c pos b i v DV). fold k.
  set (Z := zeta c pos b Q B i v). set (f := fc par (typ c i) (typ c (fst v)) (r i v)). set (df := fc' par (typ c i) (typ c (fst v)) (r i v)).
  set (ex := exp (- V k 3%nat * r i v)). set (t4 := pw (V k 4%nat * Z) (V k 5%nat)). set (bij := pw (1 + t4) (-1 / (2 * V k 5%nat))).
  set (t5 := if Req_EM_T Z 0 then 0 else _).
  assert (EB : bo (typ c i) (typ c (fst v)) Z = bij) by reflexivity.
  assert (EP : P (typ c i) (typ c (fst v)) (r i v) = - (1/2) * (f * (V k 1%nat * ex))) by reflexivity.
  assert (EP' : P' (typ c i) (typ c (fst v)) (r i v) = - (1/2) * ((df - V k 3%nat * f) * (V k 1%nat * ex))) by reflexivity.
  assert (E5 : t5 = - (P (typ c i) (typ c (fst v)) (r i v) * bo' (typ c i) (typ c (fst v)) Z)).
  { rewrite EP. unfold order', t5. rewrite EB. destruct (Req_EM_T Z 0); [ring|]. cbn [par_of t_gamma t_n]. fold k t4. unfold Rdiv. ring. }
  assert (SJ : forall u, sprod u (GO i v) = P' (typ c i) (typ c (fst v)) (r i v) * bij / r i v * sprod u (d i v) - t5 * sprod u (vsum (dj i v) (others B i v))).
  { intros u. unfold grad_own. fold Z. rewrite EB, E5, sprod_add, !sprod_scale, !sprod_sum.
    rewrite (rsumf_ext (fun w => sprod u (vadd _ _)) (fun w => sprod u (dj i v w))); [ring|]. intros w _. unfold dj. rewrite sprod_add, !sprod_scale. unfold at_ at 1, around1. unfold Rdiv. ring. }
  assert (SX : forall w, GX i v w = vscale (- t5) (dz i v w)). { intros w. unfold grad_other. fold Z. rewrite E5, Ropp_involutive. reflexivity. }
  apply (bond_adds1 bld c pos b ci P P' bo bo' Q Q1 Q2 QC B i v (fun w => inr i w) DV D).
  - intros w W I. destruct (out_around i v w I) as (_ & E2 & E3). rewrite SX. unfold dz. rewrite E2, E3. apply by_sprod. intros u. rewrite sprod_scale, sprod_add, !sprod_scale, sprod_0. unfold Rdiv. ring.
  - unfold bo_bond. fold Z. rewrite EP, EB. field.
  - intros w _. rewrite SX. vring.
  - apply by_sprod. intros u. rewrite sprod_add, !sprod_scale, sprod_add, SJ, sprod_0, EP'. field. lra.
  - apply by_sprod. intros u. rewrite sprod_sub, !sprod_add, !sprod_scale, sprod_sub, sprod_add, SJ, !sprod_0, EP', !sprod_sum.
    rewrite (rsumf_ext (fun w => sprod u (GX i v w)) (fun w => - t5 * sprod u (dz i v w))) by (intros; rewrite SX; apply sprod_scale). rewrite rsumf_scale. field. lra.
Qed.
Theorem pair_body_adds : forall i v, (forall w, In w (B i) -> d i w <> v0) -> In v (B i) ->
  adds ci (fun s => TersModel.pair_body bld V n ci c i s (ent i v))
  (fun a => if (Nat.eqb a i && uf c)%bool then vscale (wself (1/2) i v) (bond_force c pos b (repel' par) (reach par) i v) else v0)
  (1/2 * (wself (1/2) i v * bond_energy c pos b (repel par) (reach par) i v))
  (fun k => if (Nat.ltb k 6 && son && uf c)%bool then - (1/2 * (wself (1/2) i v * stress_of (d i v) (bond_force c pos b (repel' par) (reach par) i v) k)) else 0).
Proof.
  intros i v D Hv. unfold TersModel.pair_body. rewrite ent_type, ent_r. set (k := col n (typ c i) (typ c (fst v))).
  destruct (Rlt_dec (r i v) (V k 9%nat)) as [IN|OUT].
  - unfold k. rewrite cut_f_fc, cut_df_fc. apply rep_adds; auto. unfold reach; cbn [par_of t_S]; fold k; destruct (Rlt_dec (r i v) (V k 9%nat)); auto; lra.
  - apply rep_none. unfold reach; cbn [par_of t_S]; fold k; destruct (Rlt_dec (r i v) (V k 9%nat)); auto; lra.
Qed.
End Lists.
End Ters.
