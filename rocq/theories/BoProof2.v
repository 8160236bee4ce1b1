(** The textbook force of a bond-order model is the negative gradient of the energy. *)
From Coq Require Import Reals ZArith List Bool Lia Lra Permutation.
From Verif Require Import Vec NbrModel NbrProof NbrProof2 PairModel PairProof PairSpec PairProof2 BondProof GradProof ThreeSpec ThreeProof ThreeProof3 BoSpec BoProof SwProof2.
Import ListNotations.
Local Open Scope R_scope.

(** chain rule for a function of three numbers at a point *)
Definition chain (q : R -> R -> R -> R) (r1 r2 x q1 q2 qc : R) : Prop :=
  forall f1 f2 f3 d1 d2 d3, f1 0 = r1 -> f2 0 = r2 -> f3 0 = x ->
  derivable_pt_lim f1 0 d1 -> derivable_pt_lim f2 0 d2 -> derivable_pt_lim f3 0 d3 ->
  derivable_pt_lim (fun t => q (f1 t) (f2 t) (f3 t)) 0 (q1 * d1 + q2 * d2 + qc * d3).

Section Grad.
Variables (c : conf) (pos : nat -> vec) (bx : box) (rcut : nat -> nat -> R).
Hypothesis FG : full_geometry c pos bx rcut.
Notation lo := (cnfstart c).
Notation hi := (cnfstart c + inconf c)%nat.
Notation sq' := (seq (cnfstart c) (inconf c)).
Variable L : nat -> list (nat * image).
Hypothesis HL : forall a, (lo <= a < hi)%nat -> all_neighbors c pos bx rcut a (L a).
Variables (a : nat) (u : vec).
Hypothesis Ha : (lo <= a < hi)%nat.
Variables P P' bo bo' : nat -> nat -> R -> R.
Variables q q1 q2 qc : nat -> nat -> nat -> R -> R -> R -> R.
Notation ds := (dist pos bx).
Notation dv := (dvec pos bx).
Notation k := (kap a).
Notation Zt := (zeta c pos bx q L).
Notation pt t := (moved pos a u t).
Hypothesis HP : forall i v, (lo <= i < hi)%nat -> In v (L i) ->
  derivable_pt_lim (P (typ c i) (typ c (fst v))) (ds i v) (P' (typ c i) (typ c (fst v)) (ds i v)).
Hypothesis HQ : forall i v w, (lo <= i < hi)%nat -> In v (L i) -> In w (L i) -> v <> w ->
  chain (q (typ c i) (typ c (fst v)) (typ c (fst w))) (ds i v) (ds i w) (cosine pos bx i v w)
    (at_ c pos bx q1 i v w) (at_ c pos bx q2 i v w) (at_ c pos bx qc i v w).
Hypothesis HB : forall i v, (lo <= i < hi)%nat -> In v (L i) ->
  derivable_pt_lim (bo (typ c i) (typ c (fst v))) (Zt i v) (bo' (typ c i) (typ c (fst v)) (Zt i v)) \/
  exists e, 0 < e /\ forall t, Rabs t < e -> zeta c (pt t) bx q L i v = Zt i v.

Definition dz (i : nat) (v w : nat * image) : R :=
  at_ c pos bx q1 i v w * (k i v * (sprod u (dv i v) / ds i v)) + at_ c pos bx q2 i v w * (k i w * (sprod u (dv i w) / ds i w)) +
  at_ c pos bx qc i v w * (k i v * dcos pos bx u i v w + k i w * dcos pos bx u i w v).
Lemma zeta_0 : forall i v, zeta c (pt 0) bx q L i v = Zt i v.
Proof. intros. unfold zeta. apply rsumf_ext. intros w _. unfold at_. rewrite !moved_d0, moved_c0. auto. Qed.
Lemma zeta_deriv : forall i v, (lo <= i < hi)%nat -> In v (L i) ->
  derivable_pt_lim (fun t => zeta c (pt t) bx q L i v) 0 (rsumf (dz i v) (others L i v)).
Proof.
  intros i v Hi Hv. unfold zeta. apply (deriv_sum _ (fun w t => at_ c (pt t) bx q i v w)). intros w Hw. apply filter_In in Hw. destruct Hw as [Hw NW].
  assert (N : v <> w) by (intros ->; rewrite same_refl in NW; discriminate). unfold at_ at 1.
  apply (HQ i v w Hi Hv Hw N (fun t => dist (pt t) bx i v) (fun t => dist (pt t) bx i w) (fun t => cosine (pt t) bx i v w)); rewrite ?moved_d0, ?moved_c0; auto.
  - apply (dist_deriv' c pos bx rcut FG L HL a u i v Hi Hv).
  - apply (dist_deriv' c pos bx rcut FG L HL a u i w Hi Hw).
  - apply (cos_deriv c pos bx rcut FG L HL a u i v w Hi Hv Hw).
Qed.
Lemma order_deriv : forall i v, (lo <= i < hi)%nat -> In v (L i) ->
  derivable_pt_lim (fun t => bo (typ c i) (typ c (fst v)) (zeta c (pt t) bx q L i v)) 0
    (bo' (typ c i) (typ c (fst v)) (Zt i v) * rsumf (dz i v) (others L i v)).
Proof.
  intros i v Hi Hv. pose proof (zeta_deriv i v Hi Hv) as ZD. destruct (HB i v Hi Hv) as [D|(e & E & K)].
  - apply (derivable_pt_lim_comp (fun t => zeta c (pt t) bx q L i v) (bo (typ c i) (typ c (fst v)))); auto. rewrite zeta_0. auto.
  - assert (Z : rsumf (dz i v) (others L i v) = 0).
    { apply (uniqueness_limite (fun t => zeta c (pt t) bx q L i v) 0); auto. apply (SwProof2.deriv_local (fun _ => Zt i v)); [apply derivable_pt_lim_const|].
      exists e. split; auto. intros y Y. rewrite Rminus_0_r in Y. rewrite K; auto. }
    rewrite Z. apply (deriv_eq _ _ 0); [|ring]. apply (SwProof2.deriv_local (fun _ => bo (typ c i) (typ c (fst v)) (Zt i v))); [apply derivable_pt_lim_const|].
    exists e. split; auto. intros y Y. rewrite Rminus_0_r in Y. rewrite K; auto.
Qed.
Notation GO := (grad_own c pos bx P P' bo bo' q q1 qc L).
Notation GX := (grad_other c pos bx P bo' q q2 qc L).
Notation GT := (bo_grad c pos bx P P' bo bo' q q1 q2 qc L).
Lemma sprod_cos_grad : forall i v w, sprod u (cos_grad pos bx i v w) = dcos pos bx u i v w.
Proof. intros. unfold cos_grad, dcos. rewrite sprod_sub, !sprod_scale. unfold Rdiv. ring. Qed.
Lemma bond_deriv : forall i v, (lo <= i < hi)%nat -> In v (L i) ->
  derivable_pt_lim (fun t => bo_bond c (pt t) bx P bo q L i v) 0
    (k i v * sprod u (GO i v) + rsumf (fun w => k i w * sprod u (GX i v w)) (others L i v)).
Proof.
  intros i v Hi Hv. unfold bo_bond. set (ti := typ c i). set (tv := typ c (fst v)).
  assert (D1 : derivable_pt_lim (fun t => P ti tv (dist (pt t) bx i v)) 0 (P' ti tv (ds i v) * (k i v * (sprod u (dv i v) / ds i v)))).
  { apply (derivable_pt_lim_comp (fun t => dist (pt t) bx i v) (P ti tv)); [apply (dist_deriv' c pos bx rcut FG L HL a u i v Hi Hv)|]. rewrite moved_d0. apply HP; auto. }
  eapply deriv_eq; [apply (derivable_pt_lim_mult (fun t => P ti tv (dist (pt t) bx i v)) (fun t => bo ti tv (zeta c (pt t) bx q L i v))); [exact D1|apply order_deriv; auto]|].
  cbv beta. rewrite moved_d0, zeta_0. unfold grad_own, grad_other. fold ti tv. set (Pv := P ti tv (ds i v)). set (b' := bo' ti tv (Zt i v)). set (b0 := bo ti tv (Zt i v)).
  rewrite sprod_add, !sprod_scale, sprod_sum.
  rewrite (rsumf_ext (fun w => k i w * _) (fun w => Pv * b' * (k i w * (at_ c pos bx q2 i v w / ds i w * sprod u (dv i w) + at_ c pos bx qc i v w * dcos pos bx u i w v))))
    by (intros w _; rewrite sprod_scale, sprod_add, !sprod_scale, sprod_cos_grad; ring).
  rewrite (rsumf_ext (fun w => sprod u (vadd _ _)) (fun w => at_ c pos bx q1 i v w / ds i v * sprod u (dv i v) + at_ c pos bx qc i v w * dcos pos bx u i v w))
    by (intros w _; rewrite sprod_add, !sprod_scale, sprod_cos_grad; ring).
  rewrite rsumf_scale. unfold dz.
  rewrite (rsumf_ext (fun w => _ + _ + at_ c pos bx qc i v w * _) (fun w => k i v * (at_ c pos bx q1 i v w / ds i v * sprod u (dv i v) + at_ c pos bx qc i v w * dcos pos bx u i v w) +
    k i w * (at_ c pos bx q2 i v w / ds i w * sprod u (dv i w) + at_ c pos bx qc i v w * dcos pos bx u i w v))) by (intros w _; unfold Rdiv; ring).
  rewrite rsumf_plus, rsumf_scale. unfold Rdiv. ring.
Qed.
Theorem bo_gradient : derivable_pt_lim (fun t => bo_energy c (pt t) bx P bo q L) 0 (- sprod u (bo_force c pos bx P P' bo bo' q q1 q2 qc L a)).
Proof.
  apply (deriv_eq _ _ (rsumf (fun i => rsumf (fun v => k i v * sprod u (GO i v) + rsumf (fun w => k i w * sprod u (GX i v w)) (others L i v)) (L i)) sq')).
  - unfold bo_energy. apply (deriv_sum _ (fun i t => rsumf (bo_bond c (pt t) bx P bo q L i) (L i))). intros i Hi. apply in_seq in Hi.
    apply (deriv_sum _ (fun v t => bo_bond c (pt t) bx P bo q L i v)). intros v Hv. apply bond_deriv; auto.
  - transitivity (rsumf (fun i => rsumf (fun v => k i v * sprod u (GT i v)) (L i)) sq').
    + apply rsumf_ext. intros i _. rewrite rsumf_plus, <- (others_swap L (fun v w => k i w * sprod u (GX i v w)) i), <- rsumf_plus. apply rsumf_ext. intros v _.
      unfold bo_grad. rewrite sprod_add, sprod_sum, Rmult_plus_distr_l, rsumf_scale. auto.
    + transitivity (rsumf (fun i => rsumf (fun v => if Nat.eqb (fst v) a then sprod u (GT i v) else 0) (L i) - (if Nat.eqb i a then rsumf (fun v => sprod u (GT i v)) (L i) else 0)) sq').
      * apply rsumf_ext. intros i _. rewrite <- rsumf_if, <- rsumf_minus. apply rsumf_ext. intros v _. unfold kap. destruct (Nat.eqb (fst v) a), (Nat.eqb i a); ring.
      * rewrite rsumf_minus, (pick (fun i => rsumf (fun v => sprod u (GT i v)) (L i))); [|apply seq_NoDup|apply in_seq; lia].
        unfold bo_force. rewrite sprod_sub, !sprod_sum.
        rewrite (rsumf_ext (fun i => sprod u (vsum _ (L i))) (fun i => rsumf (fun v => if Nat.eqb (fst v) a then sprod u (GT i v) else 0) (L i))); [ring|].
        intros i _. rewrite sprod_sum. apply rsumf_ext. intros v _. apply sprod_if.
Qed.
End Grad.

(** ** Two descriptions of one crystal *)
From Verif Require Import CellSpec CellProof CellProof2 ThreeProof5.
Section Cell.
Variables (c1 c2 : conf) (pos1 pos2 : nat -> vec) (b1 b2 : box) (m : nat) (tau : nat * image -> nat * image).
Hypothesis SC : same_crystal c1 c2 pos1 pos2 b1 b2 m tau.
Variable rcut : nat -> nat -> R.
Notation in1 i := (cnfstart c1 <= i < cnfstart c1 + inconf c1)%nat.
Notation in2 i := (cnfstart c2 <= i < cnfstart c2 + inconf c2)%nat.
Variables L1 L2 : nat -> list (nat * image).
Hypothesis HL1 : forall a, in1 a -> all_neighbors c1 pos1 b1 rcut a (L1 a).
Hypothesis HL2 : forall a, in2 a -> all_neighbors c2 pos2 b2 rcut a (L2 a).
Notation rp := (rep tau).
Notation ev := (env tau).
Variables P P' bo bo' : nat -> nat -> R -> R.
Variables q q1 q2 qc : nat -> nat -> nat -> R -> R -> R -> R.
Lemma env_zeta : forall A B N, in2 A -> in2 B -> zeta c2 pos2 b2 q L2 A (B, N) = zeta c1 pos1 b1 q L1 (rp A) (ev A (B, N)).
Proof.
  intros A B N HA HB. unfold zeta. apply (env_others _ _ _ _ _ _ _ _ SC rcut L1 L2 HL1 HL2); auto. intros C M HC. apply (env_at _ _ _ _ _ _ _ _ SC); auto.
Qed.
Lemma env_vothers : forall A B N (f1 f2 : nat * image -> vec), in2 A -> in2 B ->
  (forall C M, in2 C -> f2 (C, M) = f1 (ev A (C, M))) -> vsum f2 (others L2 A (B, N)) = vsum f1 (others L1 (rp A) (ev A (B, N))).
Proof.
  intros A B N f1 f2 HA HB H. apply by_sprod. intros u. rewrite !sprod_sum. apply (env_others _ _ _ _ _ _ _ _ SC rcut L1 L2 HL1 HL2); auto. intros C M HC. rewrite H; auto.
Qed.
Lemma env_cos_grad : forall A B N C M, in2 A -> in2 B -> in2 C -> cos_grad pos2 b2 A (B, N) (C, M) = cos_grad pos1 b1 (rp A) (ev A (B, N)) (ev A (C, M)).
Proof.
  intros. unfold cos_grad. rewrite (env_cosine _ _ _ _ _ _ _ _ SC), !(env_dist _ _ _ _ _ _ _ _ SC), !(env_dvec _ _ _ _ _ _ _ _ SC) by auto. auto.
Qed.
Lemma env_own : forall A B N, in2 A -> in2 B ->
  grad_own c2 pos2 b2 P P' bo bo' q q1 qc L2 A (B, N) = grad_own c1 pos1 b1 P P' bo bo' q q1 qc L1 (rp A) (ev A (B, N)).
Proof.
  intros A B N HA HB. unfold grad_own. rewrite env_zeta, !(env_dist _ _ _ _ _ _ _ _ SC), !(env_dvec _ _ _ _ _ _ _ _ SC), !(env_type _ _ _ _ _ _ _ _ SC), (rep_type _ _ _ _ _ _ _ _ SC) by auto.
  f_equal. f_equal. apply env_vothers; auto. intros C M HC. rewrite !(env_at _ _ _ _ _ _ _ _ SC), env_cos_grad by auto. auto.
Qed.
Lemma env_other : forall A B N C M, in2 A -> in2 B -> in2 C ->
  grad_other c2 pos2 b2 P bo' q q2 qc L2 A (B, N) (C, M) = grad_other c1 pos1 b1 P bo' q q2 qc L1 (rp A) (ev A (B, N)) (ev A (C, M)).
Proof.
  intros A B N C M HA HB HC. unfold grad_other.
  rewrite env_zeta, !(env_at _ _ _ _ _ _ _ _ SC), env_cos_grad, !(env_dist _ _ _ _ _ _ _ _ SC), !(env_dvec _ _ _ _ _ _ _ _ SC), !(env_type _ _ _ _ _ _ _ _ SC), (rep_type _ _ _ _ _ _ _ _ SC) by auto. auto.
Qed.
Theorem same_bo_energy : bo_energy c2 pos2 b2 P bo q L2 = INR m * bo_energy c1 pos1 b1 P bo q L1.
Proof.
  unfold bo_energy. set (g := fun a => rsumf (bo_bond c1 pos1 b1 P bo q L1 a) (L1 a)).
  rewrite (rsumf_ext _ (fun A => g (rp A))).
  - apply (rep_sum _ _ _ _ _ _ _ _ SC g).
  - intros A HA. apply in_seq in HA. unfold g. apply (env_sum _ _ _ _ _ _ _ _ SC rcut L1 L2 HL1 HL2); [lia|]. intros B N HB.
    unfold bo_bond. rewrite env_zeta, !(env_dist _ _ _ _ _ _ _ _ SC), !(env_type _ _ _ _ _ _ _ _ SC), (rep_type _ _ _ _ _ _ _ _ SC) by (auto; lia). auto.
Qed.
Theorem same_bo_virial : forall k, bo_virial c2 pos2 b2 P P' bo bo' q q1 q2 qc L2 k = INR m * bo_virial c1 pos1 b1 P P' bo bo' q q1 q2 qc L1 k.
Proof.
  intros k. unfold bo_virial. set (g := fun a => rsumf (fun v => stress_of (dvec pos1 b1 a v) (bo_grad c1 pos1 b1 P P' bo bo' q q1 q2 qc L1 a v) k) (L1 a)).
  rewrite (rsumf_ext _ (fun A => g (rp A))).
  - rewrite (rep_sum _ _ _ _ _ _ _ _ SC g). ring.
  - intros A HA. apply in_seq in HA. unfold g. apply (env_sum _ _ _ _ _ _ _ _ SC rcut L1 L2 HL1 HL2); [lia|]. intros B N HB.
    rewrite (env_dvec _ _ _ _ _ _ _ _ SC) by (auto; lia). f_equal. unfold bo_grad. rewrite env_own by (auto; lia). f_equal.
    apply (env_vothers A B N (fun w => grad_other c1 pos1 b1 P bo' q q2 qc L1 (rp A) w (ev A (B, N)))); try lia; auto. intros C M HC. apply env_other; auto; lia.
Qed.
End Cell.
