(** The Tersoff routines: what their loops add. *)
From Coq Require Import Reals ZArith List Bool Lia Lra Permutation.
From Verif Require Import Vec NbrModel NbrProof NbrProof2 LoopUtil PairIndexModel PairModel PairProof PairSpec PairProof2 PairProof3 LammpsModel
  ForceLoop BondProof GradProof ThreeSpec ThreeProof ThreeProof2 ThreeProof3 AddProof SwModel SwProof BoSpec BoProof TersModel TersSpec.
Import ListNotations.
Local Open Scope R_scope.

Lemma sym_self : forall d k, sym_stress d d k = stress_of d d k.
Proof. intros d k. unfold sym_stress, stress_of. destruct k as [|[|[|[|[|]]]]]; simpl; field. Qed.
Lemma sym_add : forall d x y k, sym_stress d (vadd x y) k = sym_stress d x k + sym_stress d y k.
Proof. intros d x y k. unfold sym_stress. destruct k as [|[|[|[|[|]]]]]; simpl; field. Qed.
Lemma sym_scale : forall w d f k, sym_stress d (vscale w f) k = w * sym_stress d f k.
Proof. intros w d f k. unfold sym_stress. destruct k as [|[|[|[|[|]]]]]; simpl; field. Qed.
Lemma sym_v0 : forall d k, sym_stress d v0 k = 0.
Proof. intros d k. unfold sym_stress. destruct k as [|[|[|[|[|]]]]]; simpl; field. Qed.
Lemma sym_sum : forall {A} d (f : A -> vec) l k, sym_stress d (vsum f l) k = rsumf (fun x => sym_stress d (f x) k) l.
Proof.
  intros A d f l k. induction l as [|x l IH].
  - change (vsum f []) with v0. apply sym_v0.
  - change (vsum f (x :: l)) with (vadd (f x) (vsum f l)). rewrite sym_add, IH, rsumf_cons. auto.
Qed.

Section Terms.
Variables (bld : build) (c : conf) (pos : nat -> vec) (b : box) (ci : nat).
Notation ent i v := (entry pos (typ c) b i (fst v) (snd v)).
Notation son := (STRESS bld && us c)%bool.
Variables P P' bo bo' : nat -> nat -> R -> R.
Variables q q1 q2 qc : nat -> nat -> nat -> R -> R -> R -> R.
Variable B : nat -> list (nat * image).
Notation GO := (grad_own c pos b P P' bo bo' q q1 qc B).
Notation GX := (grad_other c pos b P bo' q q2 qc B).
Notation d := (dvec pos b).

(** one bond: the virial is symmetric *)
Lemma cos_symmetric : forall i v w k, sym_stress (d i v) (cos_grad pos b i v w) k + sym_stress (d i w) (cos_grad pos b i w v) k =
  stress_of (d i v) (cos_grad pos b i v w) k + stress_of (d i w) (cos_grad pos b i w v) k.
Proof.
  intros i v w k. unfold cos_grad. rewrite (cos_sym' pos b i w v), (Rmult_comm (dist pos b i w) (dist pos b i v)).
  generalize (1 / (dist pos b i v * dist pos b i w)) (cosine pos b i v w / (dist pos b i v * dist pos b i v)) (cosine pos b i v w / (dist pos b i w * dist pos b i w)) (d i v) (d i w).
  intros x y z e f. unfold sym_stress, stress_of. destruct k as [|[|[|[|[|]]]]]; simpl; field.
Qed.
Lemma bond_symmetric : forall i v k,
  sym_stress (d i v) (GO i v) k + rsumf (fun w => sym_stress (d i w) (GX i v w) k) (others B i v) =
  stress_of (d i v) (GO i v) k + rsumf (fun w => stress_of (d i w) (GX i v w) k) (others B i v).
Proof.
  intros i v k. unfold grad_own, grad_other. rewrite sym_add, stress_add, !sym_scale, !stress_scale, sym_sum, stress_sum, sym_self.
  set (K := P (typ c i) (typ c (fst v)) (dist pos b i v) * bo' (typ c i) (typ c (fst v)) (zeta c pos b q B i v)).
  set (g := fun w => vadd (vscale (at_ c pos b q2 i v w / dist pos b i w) (d i w)) (vscale (at_ c pos b qc i v w) (cos_grad pos b i w v))).
  rewrite (rsumf_ext (fun w => sym_stress (d i w) _ k) (fun w => K * sym_stress (d i w) (g w) k)) by (intros; apply sym_scale).
  rewrite (rsumf_ext (fun w => stress_of (d i w) _ k) (fun w => K * stress_of (d i w) (g w) k)) by (intros; apply stress_scale).
  rewrite !(rsumf_scale K), !Rplus_assoc. f_equal. rewrite <- !Rmult_plus_distr_l, <- !rsumf_plus. f_equal. apply rsumf_ext. intros w _. unfold g.
  rewrite !sym_add, !stress_add, !sym_scale, !stress_scale, !sym_self. pose proof (cos_symmetric i v w k) as Q.
  replace (sym_stress (d i v) (cos_grad pos b i v w) k) with (stress_of (d i v) (cos_grad pos b i v w) k + stress_of (d i w) (cos_grad pos b i w v) k - sym_stress (d i w) (cos_grad pos b i w v) k) by lra.
  ring.
Qed.

(** forces on neighbours *)
Lemma on_neigh_adds : forall i w f, d i w <> v0 -> adds ci (fun s => on_neigh bld ci c s (ent i w, f))
  (fun a => if Nat.eqb (fst w) a then f else v0) 0 (fun k => if (Nat.ltb k 6 && son)%bool then sym_stress (d i w) f k else 0).
Proof.
  intros i w f D. unfold on_neigh. rewrite ent_nr, (ent_dist c pos b i w D). constructor; cbn [frc en str err]; intros; auto.
  - rewrite add_force_spec, (Nat.eqb_sym a). auto.
  - destruct (Nat.eqb _ ci); ring.
  - destruct son; [|rewrite andb_false_r; destruct (Nat.eqb _ ci); ring]. rewrite add_stress_spec, andb_true_r. destruct (Nat.eqb _ ci), (Nat.ltb k 6); cbn [andb]; try ring.
Qed.
Lemma all_neigh_adds : forall i l (f : nat * image -> vec), (forall w, In w l -> d i w <> v0) ->
  adds ci (fun s => fold_left (on_neigh bld ci c) (map (fun w => (ent i w, f w)) l) s)
  (fun a => vsumf (fun w => if Nat.eqb (fst w) a then f w else v0) l) 0
  (fun k => if (Nat.ltb k 6 && son)%bool then rsumf (fun w => sym_stress (d i w) (f w) k) l else 0).
Proof.
  intros i l f D. pose proof (adds_fold ci (fun s w => on_neigh bld ci c s (ent i w, f w)) _ _ _ l (fun w Hw => on_neigh_adds i w (f w) (D w Hw))) as A.
  apply (adds_ext ci _ _ _ _ _ _ _ _ A); auto.
  - intros s. rewrite fold_map. auto.
  - apply rsumf_zero. auto.
  - intros k. cbv beta. rewrite rsumf_if. auto.
Qed.
Lemma energy_adds : forall e, adds ci (fun s => mk_dev (frc s) (setf (en s) ci (en s ci + e)) (str s) (err s)) (fun _ => v0) e (fun _ => 0).
Proof.
  intros e. constructor; cbn [frc en str err]; intros; auto; [vring| |destruct (Nat.eqb _ ci); ring].
  unfold setf. match goal with |- context[Nat.eqb ?x ci] => destruct (Nat.eqb_spec x ci) as [->|] end; ring.
Qed.
Lemma centre_adds : forall i f, adds ci (fun s => mk_dev (add_force (frc s) i f) (en s) (str s) (err s)) (fun a => if Nat.eqb a i then f else v0) 0 (fun _ => 0).
Proof.
  intros i f. constructor; cbn [frc en str err]; intros; auto; [apply add_force_spec| |]; destruct (Nat.eqb _ ci); ring.
Qed.

(** one bond, with the neighbours that matter: [l] *)
Section Bond.
Variables (i : nat) (v : nat * image) (inr : nat * image -> bool).
Hypothesis DV : d i v <> v0.
Hypothesis DW : forall w, In w (B i) -> d i w <> v0.
Hypothesis ZERO : forall w, In w (B i) -> inr w = false -> GX i v w = v0.
Notation l := (filter inr (others B i v)).
Lemma in_l : forall w, In w l -> d i w <> v0.
Proof. intros w W. apply filter_In in W. destruct W as [W _]. apply filter_In in W. apply DW. tauto. Qed.
Lemma restrict : forall (f : vec -> nat * image -> R), (forall w, f v0 w = 0) -> rsumf (fun w => f (GX i v w) w) l = rsumf (fun w => f (GX i v w) w) (others B i v).
Proof.
  intros f F. rewrite rsumf_filter. apply rsumf_ext. intros w W. apply filter_In in W. destruct (inr w) eqn:I; auto. rewrite ZERO, F; tauto.
Qed.
Notation GF := (oF c pos b P P' bo bo' q q1 q2 qc B i v).
Notation GS := (oS c pos b P P' bo bo' q q1 q2 qc B i v).
Lemma bond_F : forall a,
  vadd (vadd (vsumf (fun w => if Nat.eqb (fst w) a then vscale (-1) (GX i v w) else v0) l) (if Nat.eqb (fst v) a then vscale (-1) (GO i v) else v0))
       (if Nat.eqb a i then vadd (GO i v) (vsum (GX i v) (others B i v)) else v0) = GF a.
Proof.
  intros a. apply by_sprod. intros u. unfold oF. rewrite !sprod_add, !sprod_sub, !sprod_if, sprod_sumf, sprod_scale, sprod_add, !sprod_sum.
  rewrite (rsumf_ext (fun w => sprod u (if Nat.eqb (fst w) a then vscale (-1) (GX i v w) else v0)) (fun w => -1 * (if Nat.eqb (fst w) a then sprod u (GX i v w) else 0)))
    by (intros w _; rewrite sprod_if, sprod_scale; destruct (Nat.eqb (fst w) a); ring).
  rewrite (rsumf_ext (fun w => sprod u (if Nat.eqb (fst w) a then GX i v w else v0)) (fun w => if Nat.eqb (fst w) a then sprod u (GX i v w) else 0)) by (intros; apply sprod_if).
  rewrite rsumf_scale, (restrict (fun x w => if Nat.eqb (fst w) a then sprod u x else 0)) by (intros w; rewrite sprod_0; destruct (Nat.eqb (fst w) a); auto).
  destruct (Nat.eqb (fst v) a), (Nat.eqb a i); ring.
Qed.
Lemma bond_S : forall k, rsumf (fun w => sym_stress (d i w) (vscale (-1) (GX i v w)) k) l + sym_stress (d i v) (vscale (-1) (GO i v)) k = GS k.
Proof.
  intros k. unfold oS. rewrite <- bond_symmetric, sym_scale.
  rewrite (rsumf_ext _ (fun w => -1 * sym_stress (d i w) (GX i v w) k)) by (intros; apply sym_scale).
  rewrite rsumf_scale, (restrict (fun x w => sym_stress (d i w) x k)) by (intros; apply sym_v0). ring.
Qed.
(** the order of Tersoff *)
Lemma bond_adds1 : forall e f fj fi, e = bo_bond c pos b P bo q B i v -> (forall w, In w l -> f w = vscale (-1) (GX i v w)) -> fj = vscale (-1) (GO i v) ->
  fi = vadd (GO i v) (vsum (GX i v) (others B i v)) ->
  adds ci (fun s => 
    let s := mk_dev (frc s) (setf (en s) ci (en s ci + e)) (str s) (err s) in
    let s := fold_left (on_neigh bld ci c) (map (fun w => (ent i w, f w)) l) s in
    let s := on_neigh bld ci c s (ent i v, fj) in
    mk_dev (add_force (frc s) i fi) (en s) (str s) (err s))
  GF (bo_bond c pos b P bo q B i v) (fun k => if (Nat.ltb k 6 && son)%bool then GS k else 0).
Proof.
  intros e f fj fi E F FJ FI. cbv zeta.
  rewrite (map_ext_in _ (fun w => (ent i w, vscale (-1) (GX i v w)))) by (intros w W; rewrite F; auto). rewrite FJ, FI.
  eapply (adds_ext ci).
  - exact (adds_comp ci _ _ _ _ _ _ _ _ (adds_comp ci _ _ _ _ _ _ _ _ (adds_comp ci _ _ _ _ _ _ _ _ (energy_adds e)
      (all_neigh_adds i l (fun w => vscale (-1) (GX i v w)) in_l)) (on_neigh_adds i v (vscale (-1) (GO i v)) DV)) (centre_adds i (vadd (GO i v) (vsum (GX i v) (others B i v))))).
  - intros s. reflexivity.
  - intros a. cbv beta. rewrite <- bond_F. vring.
  - rewrite E. ring.
  - intros k. cbv beta. rewrite <- bond_S. destruct (Nat.ltb k 6 && son)%bool; ring.
Qed.
(** the order of TERSOFFMOD *)
Lemma bond_adds2 : forall e f fj fi, e = bo_bond c pos b P bo q B i v -> (forall w, In w l -> f w = vscale (-1) (GX i v w)) -> fj = vscale (-1) (GO i v) ->
  fi = vadd (GO i v) (vsum (GX i v) (others B i v)) ->
  adds ci (fun s => 
    let s := mk_dev (frc s) (setf (en s) ci (en s ci + e)) (str s) (err s) in
    let s := on_neigh bld ci c s (ent i v, fj) in
    let s := mk_dev (add_force (frc s) i fi) (en s) (str s) (err s) in
    fold_left (on_neigh bld ci c) (map (fun w => (ent i w, f w)) l) s)
  GF (bo_bond c pos b P bo q B i v) (fun k => if (Nat.ltb k 6 && son)%bool then GS k else 0).
Proof.
  intros e f fj fi E F FJ FI. cbv zeta.
  rewrite (map_ext_in _ (fun w => (ent i w, vscale (-1) (GX i v w)))) by (intros w W; rewrite F; auto). rewrite FJ, FI.
  eapply (adds_ext ci).
  - exact (adds_comp ci _ _ _ _ _ _ _ _ (adds_comp ci _ _ _ _ _ _ _ _ (adds_comp ci _ _ _ _ _ _ _ _ (energy_adds e)
      (on_neigh_adds i v (vscale (-1) (GO i v)) DV)) (centre_adds i (vadd (GO i v) (vsum (GX i v) (others B i v))))) (all_neigh_adds i l (fun w => vscale (-1) (GX i v w)) in_l)).
  - intros s. reflexivity.
  - intros a. cbv beta. rewrite <- bond_F. vring.
  - rewrite E. ring.
  - intros k. cbv beta. rewrite <- bond_S. destruct (Nat.ltb k 6 && son)%bool; ring.
Qed.
(** a bond without energy *)
Lemma bond_none : bo_bond c pos b P bo q B i v = 0 -> GO i v = v0 -> (forall w, GX i v w = v0) ->
  adds ci (fun s => s) GF (bo_bond c pos b P bo q B i v) (fun k => if (Nat.ltb k 6 && son)%bool then GS k else 0).
Proof.
  intros E G X. apply (adds_ext ci _ _ _ _ _ _ _ _ (adds_id ci)); auto.
  - intros a. unfold oF. rewrite G. apply by_sprod. intros u. rewrite !sprod_sub, !sprod_if, sprod_add, !sprod_sum, sprod_0.
    rewrite !rsumf_zero; [destruct (Nat.eqb a i), (Nat.eqb (fst v) a); ring| |]; intros w _; rewrite X, ?sprod_if, sprod_0; auto. destruct (Nat.eqb (fst w) a); auto.
  - intros k. unfold oS. rewrite G, stress_v0, rsumf_zero; [destruct (Nat.ltb k 6 && son)%bool; ring|]. intros w _. rewrite X. apply stress_v0.
Qed.
End Bond.

(** ** The repulsive part *)
Lemma rep_adds : forall (phi dphi : nat -> nat -> R -> R) (inr : nat -> nat -> R -> bool) i v f df A lambda, d i v <> v0 ->
  inr (typ c i) (typ c (fst v)) (dist pos b i v) = true ->
  phi (typ c i) (typ c (fst v)) (dist pos b i v) = f * (A * exp (- lambda * dist pos b i v)) ->
  dphi (typ c i) (typ c (fst v)) (dist pos b i v) = (df - lambda * f) * (A * exp (- lambda * dist pos b i v)) ->
  adds ci (fun s => rep_body bld ci c i (ent i v) f df A lambda s)
  (fun a => if (Nat.eqb a i && uf c)%bool then vscale (wself (1/2) i v) (bond_force c pos b dphi inr i v) else v0)
  (1/2 * (wself (1/2) i v * bond_energy c pos b phi inr i v))
  (fun k => if (Nat.ltb k 6 && son && uf c)%bool then - (1/2 * (wself (1/2) i v * stress_of (d i v) (bond_force c pos b dphi inr i v) k)) else 0).
Proof.
  intros phi dphi inr i v f df A lambda D I HP HD. pose proof (dist_pos pos b i v D) as PO.
  unfold rep_body. rewrite ent_nr, ent_r, (ent_dist_r c pos b i v D), (ent_dist c pos b i v D).
  unfold bond_force, bond_energy, active. rewrite I, HP, HD. set (r := dist pos b i v) in *. set (ex := exp (- lambda * r)).
  assert (W : forall x : R, (if Nat.eqb (fst v) i then x * (1/2) else x) = x * wself (1/2) i v) by (intros; unfold wself; destruct (Nat.eqb (fst v) i); ring).
  rewrite !W. set (w := wself (1/2) i v). clearbody w.
  assert (FE : vscale ((df - lambda * f) * (A * ex) * w) (vscale (/ r) (d i v)) = vscale w (vscale ((df - lambda * f) * (A * ex) / r) (d i v))) by (unfold Rdiv; vring).
  rewrite FE.
  destruct (uf c) eqn:U; rewrite ?andb_true_r, ?andb_false_r; constructor; cbn [frc en str err]; intros; rewrite ?andb_true_r, ?andb_false_r; auto.
  - rewrite add_force_spec. auto.
  - unfold setf. match goal with |- context[Nat.eqb ?x ci] => destruct (Nat.eqb_spec x ci) as [->|] end; [|ring]. field.
  - destruct son; [|rewrite ?andb_false_r; destruct (Nat.eqb _ ci); cbn [andb]; ring]. rewrite add_stress_spec, ?andb_true_r.
    destruct (Nat.eqb _ ci), (Nat.ltb k 6); auto. rewrite stress_scale. auto.
  - vring.
  - unfold setf. match goal with |- context[Nat.eqb ?x ci] => destruct (Nat.eqb_spec x ci) as [->|] end; [|ring]. field.
  - destruct (Nat.eqb _ ci); ring.
Qed.
Lemma rep_none : forall (phi dphi : nat -> nat -> R -> R) (inr : nat -> nat -> R -> bool) i v,
  inr (typ c i) (typ c (fst v)) (dist pos b i v) = false ->
  adds ci (fun s => s)
  (fun a => if (Nat.eqb a i && uf c)%bool then vscale (wself (1/2) i v) (bond_force c pos b dphi inr i v) else v0)
  (1/2 * (wself (1/2) i v * bond_energy c pos b phi inr i v))
  (fun k => if (Nat.ltb k 6 && son && uf c)%bool then - (1/2 * (wself (1/2) i v * stress_of (d i v) (bond_force c pos b dphi inr i v) k)) else 0).
Proof.
  intros phi dphi inr i v I. unfold bond_force, bond_energy, active. rewrite I. constructor; intros; auto.
  - destruct (Nat.eqb a i && uf c)%bool; vring.
  - destruct (Nat.eqb _ ci); ring.
  - destruct (Nat.eqb _ ci); [|ring]. rewrite stress_v0. destruct (Nat.ltb k 6 && son && uf c)%bool; ring.
Qed.
End Terms.
