(** The modified Tersoff routine: one atom. *)
From Coq Require Import Reals ZArith List Bool Lia Lra Permutation.
From Verif Require Import Vec NbrModel NbrProof NbrProof2 LoopUtil PairIndexModel PairModel PairProof PairSpec PairProof2 PairProof3 LammpsModel
  ForceLoop BondProof GradProof ThreeSpec ThreeProof ThreeProof2 ThreeProof3 AddProof SwModel SwProof BoSpec BoProof TersModel TersSpec TersProof TersProof2.
Import ListNotations.
Local Open Scope R_scope.

Definition mod_of (V : nat -> nat -> R) (n s t : nat) : tmod := let k := col n s t in
  mk_tmod (V k 0%nat) (V k 1%nat) (V k 2%nat) (V k 3%nat) (V k 4%nat) (V k 5%nat) (V k 6%nat) (V k 7%nat) (V k 8%nat) (V k 9%nat) (V k 10%nat)
    (V k 11%nat) (V k 12%nat) (V k 13%nat) (V k 14%nat) (V k 15%nat).

Section Mod.
Variables (bld : build) (pow0 : R -> R -> R) (V : nat -> nat -> R) (n : nat).
Variables (c : conf) (pos : nat -> vec) (b : box) (ci : nat).
Notation ent i v := (entry pos (typ c) b i (fst v) (snd v)).
Notation son := (STRESS bld && us c)%bool.
Notation pw := (cpow pow0).
Notation par := (mod_of V n).
Notation d := (dvec pos b).
Notation r := (dist pos b).
Notation Q := (maround pw par).
Notation Q1 := (maround1 pw par).
Notation Q2 := (maround2 pw par).
Notation QC := (maroundc pw par).
Notation at' f i v := (f (typ c i) (typ c (fst v))).
Notation inr i w := (at' (mreach par) i w (r i w)).

Lemma mod_f_fc : forall s t x, mod_f V (col n s t) x = mfc par s t x.
Proof.
  intros s t x. unfold mod_f, mfc, mod_of; cbn [m_R1 m_R2]. destruct (Rlt_dec x _); auto. destruct (Rlt_dec x _); auto.
  replace (PI / (V (col n s t) 15%nat - V (col n s t) 14%nat) * (x - V (col n s t) 14%nat)) with (PI * (x - V (col n s t) 14%nat) / (V (col n s t) 15%nat - V (col n s t) 14%nat)) by (unfold Rdiv; ring). field.
Qed.
Lemma mod_df_fc : forall s t x, mod_df V (col n s t) x = mfc' par s t x.
Proof.
  intros s t x. unfold mod_df, mfc', mod_of; cbn [m_R1 m_R2]. destruct (Rlt_dec x _); auto. destruct (Rlt_dec x _); auto.
  replace (PI / (V (col n s t) 15%nat - V (col n s t) 14%nat) * (x - V (col n s t) 14%nat)) with (PI * (x - V (col n s t) 14%nat) / (V (col n s t) 15%nat - V (col n s t) 14%nat)) by (unfold Rdiv; ring).
  set (y := PI * _ / _). set (z := PI / _). field.
Qed.
Lemma out_mfc : forall s t x, mreach par s t x = false -> mfc par s t x = 0 /\ mfc' par s t x = 0.
Proof. intros s t x. unfold mreach, mfc, mfc'. destruct (Rlt_dec x _); [discriminate|auto]. Qed.

Definition mdz (i : nat) (v w : nat * image) : vec :=
  vadd (vscale (at_ c pos b Q2 i v w / r i w) (d i w)) (vscale (at_ c pos b QC i v w) (cos_grad pos b i w v)).
Definition mdj (i : nat) (v w : nat * image) : vec := vscale (at_ c pos b QC i v w) (cos_grad pos b i v w).
Lemma out_maround : forall i v w, inr i w = false ->
  at_ c pos b Q i v w = 0 /\ at_ c pos b Q1 i v w = 0 /\ at_ c pos b Q2 i v w = 0 /\ at_ c pos b QC i v w = 0.
Proof. intros i v w H. unfold at_, maround, maround1, maround2, maroundc. destruct (out_mfc _ _ _ H) as [-> ->]. repeat split; ring. Qed.
Lemma mod_inner_one : forall i v w y z, d i v <> v0 -> d i w <> v0 -> mod_inner pow0 V n c i (ent i v) (y, z) (ent i w) =
  (y + at_ c pos b Q1 i v w, mk_zacc (z_zeta z + at_ c pos b Q i v w) (vsub (z_i z) (mdz i v w)) (vadd (z_j z) (mdj i v w)) (z_k z ++ (if inr i w then [(ent i w, mdz i v w)] else []))).
Proof.
  intros i v w y z DV DW. unfold mod_inner. rewrite !ent_type, !ent_r. destruct (inr i w) eqn:I.
  - unfold mreach in I. change (m_R2 (par (typ c i) (typ c (fst w)))) with (V (col n (typ c i) (typ c (fst w))) 15%nat) in I.
    destruct (Rlt_dec (r i w) (V (col n (typ c i) (typ c (fst w))) 15%nat)) as [IN|OUT]; [|discriminate].
    pose proof (dist_pos pos b i v DV) as PV. pose proof (dist_pos pos b i w DW) as PW.
    rewrite (ent_cos c pos b i v w DV DW), !ent_dist_r, !mod_f_fc, !mod_df_fc by auto. cbv zeta.
    set (k := col n (typ c i) (typ c (fst v))). set (x := cosine pos b i v w). set (h := V k 13%nat - x).
    replace (- V k 12%nat * h * h) with (- V k 12%nat * (h * h)) by ring.
    set (f := mfc par (typ c i) (typ c (fst w)) (r i w)). set (df := mfc' par (typ c i) (typ c (fst w)) (r i w)).
    set (ex := exp (V k 6%nat * pw (r i v - r i w) (V k 7%nat))). set (pp := pw (r i v - r i w) (V k 7%nat - 1)).
    set (e5 := exp (- V k 12%nat * (h * h))). set (D := V k 10%nat + h * h).
    assert (G : mangle par (typ c i) (typ c (fst v)) x = V k 8%nat + V k 9%nat * (h * h) / D * (1 + V k 11%nat * e5)) by reflexivity.
    assert (G' : mangle' par (typ c i) (typ c (fst v)) x = - (V k 9%nat * (2 * h * V k 10%nat) / D / D * (1 + V k 11%nat * e5)) + V k 9%nat * (h * h) / D * (2 * V k 12%nat * h * (V k 11%nat * e5))) by reflexivity.
    assert (A : at_ c pos b Q i v w = f * (V k 8%nat + V k 9%nat * h * h * (1 / D) * (1 + V k 11%nat * e5)) * ex).
    { unfold at_, maround. fold x. rewrite G. change (spread pw par (typ c i) (typ c (fst v)) (r i v) (r i w)) with ex. fold f. unfold Rdiv. ring. }
    assert (A1 : at_ c pos b Q1 i v w = at_ c pos b Q i v w * (V k 6%nat * V k 7%nat * pp)).
    { unfold at_, maround1, maround. change (spread' pw par (typ c i) (typ c (fst v)) (r i v) (r i w)) with (V k 6%nat * (V k 7%nat * pp) * ex). 
      change (spread pw par (typ c i) (typ c (fst v)) (r i v) (r i w)) with ex. ring. }
    assert (A2 : at_ c pos b Q2 i v w = (df - f * (V k 6%nat * V k 7%nat * pp)) * (V k 8%nat + V k 9%nat * h * h * (1 / D) * (1 + V k 11%nat * e5)) * ex).
    { unfold at_, maround2. fold x. rewrite G. change (spread' pw par (typ c i) (typ c (fst v)) (r i v) (r i w)) with (V k 6%nat * (V k 7%nat * pp) * ex). 
      change (spread pw par (typ c i) (typ c (fst v)) (r i v) (r i w)) with ex. fold f df. unfold Rdiv. ring. }
    assert (AC : at_ c pos b QC i v w = f * (2 * V k 9%nat * h * (1 / D) * (V k 12%nat * h * h * (V k 11%nat * e5) - V k 10%nat * (1 / D) * (1 + V k 11%nat * e5))) * ex).
    { unfold at_, maroundc. fold x. rewrite G'. change (spread pw par (typ c i) (typ c (fst v)) (r i v) (r i w)) with ex. fold f. unfold Rdiv. ring. }
    rewrite <- A, <- A1, <- A2, <- AC.
    assert (Z : vadd (vscale (at_ c pos b QC i v w) (vscale (/ r i w) (vsub (vscale (/ r i v) (d i v)) (vscale x (vscale (/ r i w) (d i w)))))) (vscale (at_ c pos b Q2 i v w) (vscale (/ r i w) (d i w))) = mdz i v w).
    { unfold mdz, cos_grad. rewrite (cos_sym' pos b i w v). fold x. apply by_sprod. intros u.
      rewrite !sprod_add, !sprod_scale, !sprod_sub, !sprod_scale. field. lra. }
    rewrite Z. f_equal. f_equal. f_equal. unfold mdj, cos_grad. fold x. apply by_sprod. intros u. rewrite !sprod_scale, !sprod_sub, !sprod_scale. field. lra.
  - assert (I' := I). unfold mreach in I'. change (m_R2 (par (typ c i) (typ c (fst w)))) with (V (col n (typ c i) (typ c (fst w))) 15%nat) in I'.
    destruct (Rlt_dec (r i w) (V (col n (typ c i) (typ c (fst w))) 15%nat)) as [IN|OUT]; [discriminate|].
    destruct (out_maround i v w I) as (E1 & E0 & E2 & E3). unfold mdz, mdj. rewrite E0, E1, E2, E3, app_nil_r. destruct z as [za zi zj zk]; cbn [z_zeta z_i z_j z_k].
    f_equal; [ring|]. f_equal; [ring| |];
      apply by_sprod; intros u; rewrite ?sprod_sub, !sprod_add, !sprod_scale; unfold Rdiv; ring.
Qed.
Lemma mod_inner_fold : forall i v l y z, d i v <> v0 -> (forall w, In w l -> d i w <> v0) ->
  fold_left (mod_inner pow0 V n c i (ent i v)) (map (fun w => ent i w) l) (y, z) =
  (y + rsumf (at_ c pos b Q1 i v) l, mk_zacc (z_zeta z + rsumf (at_ c pos b Q i v) l) (vsub (z_i z) (vsum (mdz i v) l)) (vadd (z_j z) (vsum (mdj i v) l))
    (z_k z ++ map (fun w => (ent i w, mdz i v w)) (filter (fun w => inr i w) l))).
Proof.
  intros i v l. induction l as [|w l IH]; intros y z DV DL.
  - simpl. change (vsum (mdz i v) []) with v0. change (vsum (mdj i v) []) with v0. change (rsumf (at_ c pos b Q i v) []) with 0. change (rsumf (at_ c pos b Q1 i v) []) with 0.
    rewrite app_nil_r. destruct z as [za zi zj zk]; cbn [z_zeta z_i z_j z_k]. f_equal; [ring|]. f_equal; [ring| |]; vring.
  - cbn [map fold_left]. rewrite mod_inner_one by (auto; apply DL; left; auto). rewrite IH by (auto; intros; apply DL; right; auto). cbn [z_zeta z_i z_j z_k].
    rewrite !rsumf_cons. change (vsum (mdz i v) (w :: l)) with (vadd (mdz i v w) (vsum (mdz i v) l)). change (vsum (mdj i v) (w :: l)) with (vadd (mdj i v w) (vsum (mdj i v) l)).
    rewrite filter_cons'. f_equal; [ring|]. f_equal; [ring|vring|vring|]. rewrite <- app_assoc. f_equal. destruct (inr i w); reflexivity.
Qed.

Section Lists.
Variable B : nat -> list (nat * image).
Notation P := (mattract par).
Notation P' := (mattract' par).
Notation bo := (morder pw par).
Notation bo' := (morder' pw par).
Notation GO := (grad_own c pos b P P' bo bo' Q Q1 QC B).
Notation GX := (grad_other c pos b P bo' Q Q2 QC B).
Theorem mod_bond_body_adds : forall i v, (forall w, In w (B i) -> d i w <> v0) -> In v (B i) ->
  adds ci (fun s => mod_bond_body bld pow0 V n ci c i s (ent i v, map (fun w => ent i w) (others B i v)))
    (oF c pos b P P' bo bo' Q Q1 Q2 QC B i v) (bo_bond c pos b P bo Q B i v)
    (fun k => if (Nat.ltb k 6 && son)%bool then oS c pos b P P' bo bo' Q Q1 Q2 QC B i v k else 0).
Proof.
  intros i v D Hv. assert (DV := D v Hv). assert (RP := dist_pos pos b i v DV).
  unfold mod_bond_body. cbn [fst snd]. rewrite ent_type, ent_r. set (k := col n (typ c i) (typ c (fst v))).
  destruct (Rlt_dec (r i v) (V k 15%nat)) as [IN|OUT].
  2: { assert (O : mreach par (typ c i) (typ c (fst v)) (r i v) = false) by (unfold mreach; cbn [mod_of m_R2]; fold k; destruct (Rlt_dec (r i v) (V k 15%nat)); auto; lra).
    destruct (out_mfc _ _ _ O) as [O1 O2].
    assert (Z1 : P (typ c i) (typ c (fst v)) (r i v) = 0) by (unfold mattract; rewrite O1; ring).
    assert (Z2 : P' (typ c i) (typ c (fst v)) (r i v) = 0) by (unfold mattract'; rewrite O1, O2; ring).
    apply bond_none; [unfold bo_bond; rewrite Z1; ring| |]; intros; apply by_sprod; intros u; unfold grad_own, grad_other; rewrite Z1, ?Z2, ?sprod_add, !sprod_scale, sprod_0; unfold Rdiv; ring. }
  destruct (Req_EM_T (V k 1%nat) 0) as [B0|BN].
  { assert (Z1 : P (typ c i) (typ c (fst v)) (r i v) = 0) by (unfold mattract; cbn [mod_of m_B]; fold k; rewrite B0; ring).
    assert (Z2 : P' (typ c i) (typ c (fst v)) (r i v) = 0) by (unfold mattract'; cbn [mod_of m_B]; fold k; rewrite B0; ring).
    apply bond_none; [unfold bo_bond; rewrite Z1; ring| |]; intros; apply by_sprod; intros u; unfold grad_own, grad_other; rewrite Z1, ?Z2, ?sprod_add, !sprod_scale, sprod_0; unfold Rdiv; ring. }
  assert (DO : forall w, In w (others B i v) -> d i w <> v0) by (intros w W; apply filter_In in W; apply D; tauto).
  rewrite (mod_inner_fold i v (others B i v) _ _ DV DO). cbn [fst snd z_zeta z_i z_j z_k app]. cbv zeta. rewrite !Rplus_0_l, map_map. cbn [fst snd].
  change (rsumf (at_ c pos b Q i v) (others B i v)) with (zeta c pos b Q B i v). unfold k. rewrite mod_f_fc, mod_df_fc, (ent_dist_r c pos b i v DV). fold k.
  set (Z := zeta c pos b Q B i v). set (f := mfc par (typ c i) (typ c (fst v)) (r i v)). set (df := mfc' par (typ c i) (typ c (fst v)) (r i v)).
  set (ex := exp (- V k 3%nat * r i v)). set (t1 := pw Z (V k 4%nat)). set (bij := pw (1 + t1) (- V k 5%nat)). set (S1 := rsumf (at_ c pos b Q1 i v) (others B i v)).
  set (t3 := if Req_EM_T Z 0 then 0 else _).
  assert (EB : bo (typ c i) (typ c (fst v)) Z = bij) by reflexivity.
  assert (EP : P (typ c i) (typ c (fst v)) (r i v) = - (1/2) * (f * (V k 1%nat * ex))) by reflexivity.
  assert (EP' : P' (typ c i) (typ c (fst v)) (r i v) = - (1/2) * ((df - V k 3%nat * f) * (V k 1%nat * ex))) by reflexivity.
  assert (E3 : t3 = P (typ c i) (typ c (fst v)) (r i v) * bo' (typ c i) (typ c (fst v)) Z).
  { rewrite EP. unfold morder', t3. rewrite EB. destruct (Req_EM_T Z 0); [ring|]. cbn [mod_of m_eta m_delta]. fold k t1. unfold Rdiv. ring. }
  assert (SJ : forall u, sprod u (GO i v) = P' (typ c i) (typ c (fst v)) (r i v) * bij / r i v * sprod u (d i v) + t3 * (S1 / r i v * sprod u (d i v) + sprod u (vsum (mdj i v) (others B i v)))).
  { intros u. unfold grad_own. fold Z. rewrite EB, E3, sprod_add, !sprod_scale, !sprod_sum. f_equal. f_equal.
    rewrite (rsumf_ext (fun w => sprod u (vadd _ _)) (fun w => (/ r i v * sprod u (d i v)) * at_ c pos b Q1 i v w + sprod u (mdj i v w))).
    - rewrite rsumf_plus, rsumf_scale. fold S1. unfold Rdiv. ring.
    - intros w _. unfold mdj. rewrite sprod_add, !sprod_scale. unfold Rdiv. ring. }
  assert (SX : forall w, GX i v w = vscale t3 (mdz i v w)). { intros w. unfold grad_other. fold Z. rewrite E3. reflexivity. }
  apply (bond_adds2 bld c pos b ci P P' bo bo' Q Q1 Q2 QC B i v (fun w => inr i w) DV D).
  - intros w W I. destruct (out_maround i v w I) as (_ & _ & E2 & EC). rewrite SX. unfold mdz. rewrite E2, EC. apply by_sprod. intros u. rewrite sprod_scale, sprod_add, !sprod_scale, sprod_0. unfold Rdiv. ring.
  - unfold bo_bond. fold Z. rewrite EP, EB. field.
  - intros w _. rewrite SX. vring.
  - apply by_sprod. intros u. rewrite sprod_sub, !sprod_scale, !sprod_add, !sprod_scale, SJ, sprod_0, EP'. field. lra.
  - apply by_sprod. intros u. rewrite sprod_scale, !sprod_add, sprod_sub, !sprod_scale, !sprod_add, sprod_sub, !sprod_scale, SJ, !sprod_0, EP', !sprod_sum.
    rewrite (rsumf_ext (fun w => sprod u (GX i v w)) (fun w => t3 * sprod u (mdz i v w))) by (intros; rewrite SX; apply sprod_scale). rewrite rsumf_scale. field. lra.
Qed.
Theorem mod_pair_body_adds : forall i v, (forall w, In w (B i) -> d i w <> v0) -> In v (B i) ->
  adds ci (fun s => mod_pair_body bld V n ci c i s (ent i v))
  (fun a => if (Nat.eqb a i && uf c)%bool then vscale (wself (1/2) i v) (bond_force c pos b (mrepel' par) (mreach par) i v) else v0)
  (1/2 * (wself (1/2) i v * bond_energy c pos b (mrepel par) (mreach par) i v))
  (fun k => if (Nat.ltb k 6 && son && uf c)%bool then - (1/2 * (wself (1/2) i v * stress_of (d i v) (bond_force c pos b (mrepel' par) (mreach par) i v) k)) else 0).
Proof.
  intros i v D Hv. unfold mod_pair_body. rewrite ent_type, ent_r. set (k := col n (typ c i) (typ c (fst v))).
  destruct (Rlt_dec (r i v) (V k 15%nat)) as [IN|OUT].
  - unfold k. rewrite mod_f_fc, mod_df_fc. apply rep_adds; auto. unfold mreach; cbn [mod_of m_R2]; fold k; destruct (Rlt_dec (r i v) (V k 15%nat)); auto; lra.
  - apply rep_none. unfold mreach; cbn [mod_of m_R2]; fold k; destruct (Rlt_dec (r i v) (V k 15%nat)); auto; lra.
Qed.
End Lists.
End Mod.
