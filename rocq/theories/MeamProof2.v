(** The MEAM force routine: the sums of the loops are the textbook ones. *)
From Coq Require Import Reals ZArith List Bool Lia Lra Permutation.
From Verif Require Import Vec NbrModel NbrProof NbrProof2 LoopUtil PairModel PairProof PairSpec PairProof2 PairProof3
  ForceLoop BondProof GradProof ThreeSpec ThreeProof ThreeProof2 ThreeProof3 ThreeProof4 AddProof AddProof2 SwModel SwProof AngSpec AngModel AngProof AngProof2
  BoProof EamModel MeamModel MeamSpec MeamProof.
Import ListNotations.
Local Open Scope R_scope.

Lemma stress_scale : forall d x y k, stress_of d (vscale x y) k = x * stress_of d y k.
Proof. intros d x y k. unfold stress_of. destruct k as [|[|[|[|[|]]]]]; simpl; ring. Qed.

Section Meam.
Variable bld : ebuild.
Variables phi dphi : nat -> nat -> R -> R.
Variable in0 : nat -> nat -> R -> bool.
Variables dens ddens : nat -> R -> R.
Variable reach : nat -> R -> bool.
Variables f df : nat -> nat -> R -> R.
Variable in2 : nat -> nat -> R -> bool.
Variables g dg : nat -> R -> R.
Variables F dF FA dFA : nat -> R -> R.
Variables fbegin fend fstep : nat -> R.
Notation Ec := (MeamProof.Ec bld F dF FA dFA fbegin fend fstep).
Notation dEc := (MeamProof.dEc bld F dF FA dFA fbegin fend fstep).
Hypothesis DS : forall s t r, dphi s t r = dphi t s r.
Hypothesis IS : forall s t r, in0 s t r = in0 t s r.
Variables (c : conf) (pos : nat -> vec) (b : box) (rcut : nat -> nat -> R) (ci : nat).
Notation lo := (cnfstart c).
Notation hi := (cnfstart c + inconf c)%nat.
Notation sq' := (seq (cnfstart c) (inconf c)).
Notation ent i v := (entry pos (typ c) b i (fst v) (snd v)).
Notation son := (STRESS (base bld) && us c)%bool.
Notation h := (ang f in2 g).
Notation h1 := (ang1 f df in2 g).
Notation hc := (angc f in2 dg).
Notation T := (tri_grad c pos b h1 hc).
Notation H := (at_ c pos b h).
(** slope of the transfer function along the bond *)
Definition tgrad (i : nat) (v : nat * image) : vec :=
  vscale ((if reach (typ c (fst v)) (dist pos b i v) then ddens (typ c (fst v)) (dist pos b i v) else 0) / dist pos b i v) (dvec pos b i v).

Lemma trans_adds : forall gF i v, dvec pos b i v <> v0 -> adds ci (fun s => trans_body bld ddens reach gF ci c i s (ent i v))
  (fun a => vsub (if Nat.eqb a i then vscale gF (tgrad i v) else v0) (if Nat.eqb (fst v) a then vscale gF (tgrad i v) else v0)) 0
  (fun k => if (Nat.ltb k 6 && son)%bool then - stress_of (dvec pos b i v) (vscale gF (tgrad i v)) k else 0).
Proof.
  intros gF i v D. pose proof (dist_pos pos b i v D) as P.
  unfold trans_body, tgrad. rewrite ent_type, ent_r, ent_nr, (ent_dist_r c pos b i v D), (ent_dist c pos b i v D).
  set (r := dist pos b i v) in *. set (tv := typ c (fst v)).
  destruct (reach tv r).
  - assert (FE : vscale (ddens tv r * gF) (vscale (/ r) (dvec pos b i v)) = vscale gF (vscale (ddens tv r / r) (dvec pos b i v))) by (unfold Rdiv; vring).
    rewrite FE. set (X := vscale gF (vscale (ddens tv r / r) (dvec pos b i v))). constructor; cbn [frc en str err]; intros; auto.
    + rewrite !add_force_spec, (Nat.eqb_sym a (fst v)). destruct (Nat.eqb a i), (Nat.eqb (fst v) a); vring.
    + destruct (Nat.eqb d ci); ring.
    + destruct son; [|rewrite ?andb_false_r; destruct (Nat.eqb d ci); ring]. rewrite add_stress_spec, andb_true_r.
      destruct (Nat.eqb d ci); auto.
  - assert (Z : vscale gF (vscale (0 / r) (dvec pos b i v)) = v0) by (unfold Rdiv; vring). rewrite Z. constructor; intros; auto.
    + destruct (Nat.eqb a i), (Nat.eqb (fst v) a); vring.
    + destruct (Nat.eqb d ci); ring.
    + rewrite stress_v0. destruct (Nat.eqb d ci), (Nat.ltb k 6 && son)%bool; ring.
Qed.
Lemma trip_adds : forall gF i v w, dvec pos b i v <> v0 -> dvec pos b i w <> v0 ->
  adds ci (fun s => tri_body bld f df in2 g dg gF ci c i (ent i v) s (ent i w))
  (fun a => vsub (vsub (if Nat.eqb a i then vadd (vscale gF (T i v w)) (vscale gF (T i w v)) else v0) (if Nat.eqb (fst v) a then vscale gF (T i v w) else v0)) (if Nat.eqb (fst w) a then vscale gF (T i w v) else v0)) 0
  (fun k => if (Nat.ltb k 6 && son)%bool then - (stress_of (dvec pos b i v) (vscale gF (T i v w)) k + stress_of (dvec pos b i w) (vscale gF (T i w v)) k) else 0).
Proof.
  intros gF i v w D1 D2. pose proof (dist_pos pos b i v D1) as P1. pose proof (dist_pos pos b i w D2) as P2.
  unfold tri_body. rewrite !ent_nr, !ent_inv, (ent_cos c pos b i v w D1 D2), (ent_dist c pos b i v D1), (ent_dist c pos b i w D2), (ent_dist_r c pos b i v D1), (ent_dist_r c pos b i w D2).
  cbv zeta. unfold MeamModel.fv, MeamModel.fd. rewrite !ent_type, !ent_r.
  set (ti := typ c i) in *. set (tv := typ c (fst v)) in *. set (tw := typ c (fst w)) in *.
  set (x := cosine pos b i v w). set (rv := dist pos b i v) in *. set (rw := dist pos b i w) in *. set (dv := dvec pos b i v). set (dw := dvec pos b i w).
  set (fv := if in2 ti tv rv then f ti tv rv else 0). set (fw := if in2 ti tw rw then f ti tw rw else 0).
  set (gv := if in2 ti tv rv then df ti tv rv else 0). set (gw := if in2 ti tw rw then df ti tw rw else 0). set (G := g ti x). set (G' := dg ti x).
  assert (E1 : vadd (vscale (G * gv * fw - fv * fw * G' * (1 / rv) * x) (vscale (/ rv) dv)) (vscale (fv * fw * G' * (1 / rv)) (vscale (/ rw) dw)) = T i v w).
  { unfold tri_grad, at_, ang1, angc, off. fold ti tv tw rv rw x. fold fv fw gv gw dv dw G G'. apply vec_eq; simpl; field; lra. }
  assert (E2 : vadd (vscale (G * fv * gw - fv * fw * G' * (1 / rw) * x) (vscale (/ rw) dw)) (vscale (fv * fw * G' * (1 / rw)) (vscale (/ rv) dv)) = T i w v).
  { unfold tri_grad, at_, ang1, angc, off. rewrite (cos_sym' pos b i w v). fold ti tv tw rv rw x. fold fv fw gv gw dv dw G G'. apply vec_eq; simpl; field; lra. }
  rewrite E1, E2. constructor; cbn [frc en str err]; intros; auto.
  - rewrite !add_force_spec, (Nat.eqb_sym a (fst v)), (Nat.eqb_sym a (fst w)). destruct (Nat.eqb a i), (Nat.eqb (fst v) a), (Nat.eqb (fst w) a); vring.
  - destruct (Nat.eqb d ci); ring.
  - destruct son; [|rewrite ?andb_false_r; destruct (Nat.eqb d ci); ring].
    rewrite !add_stress_spec, andb_true_r. destruct (Nat.eqb d ci); [|ring]. destruct (Nat.ltb k 6); ring.
Qed.

Hypothesis FG : full_geometry c pos b rcut.
Variable L : nat -> list (nat * image).
Hypothesis HL : forall a, (lo <= a < hi)%nat -> all_neighbors c pos b rcut a (L a).
Variable B : nat -> list (nat * image).
Hypothesis NB : forall i, (lo <= i < hi)%nat -> nb c i = map (fun v => ent i v) (B i).
Hypothesis HB : forall a, (lo <= a < hi)%nat -> all_neighbors c pos b rcut a (B a).
Hypothesis NO : forall a v, (lo <= a < hi)%nat -> In v (B a) -> dvec pos b a v <> v0.
Notation PM := (BL c pos b rcut L HL B HB).
Notation rho := (meam_density c pos b dens reach f in2 g L).
Notation dgrad := (density_grad c pos b ddens reach f df in2 g dg L).
Notation MG := (meam_grad c pos b dens ddens reach f df in2 g dg dEc L).

Lemma density_eq : forall i, (lo <= i < hi)%nat -> list_density dens reach f in2 g c i (nb c i) = rho i.
Proof.
  intros i Hi. rewrite (NB i Hi). unfold list_density, meam_density. f_equal.
  - rewrite rsumf_map, <- (rsumf_perm _ _ _ (PM i Hi)). apply rsumf_ext. intros v _. rewrite ent_type, ent_r. auto.
  - rewrite pairs_map, rsumf_map. cbn [fst snd].
    transitivity (rsumf (fun p => 1/2 * H i (fst p) (snd p) + 1/2 * H i (snd p) (fst p)) (pairs (B i))).
    + apply rsumf_ext. intros p Hp. apply pairs_in in Hp. destruct Hp as [P1 P2].
      rewrite (ent_cos c pos b i _ _ (NO i _ Hi P1) (NO i _ Hi P2)), (ang_sym f in2 g c pos b i (snd p) (fst p)).
      unfold MeamModel.fv. rewrite !ent_type, !ent_r. unfold at_, ang, off. field.
    + rewrite (pairs_sum (fun v w => 1/2 * H i v w)) by apply (HB i Hi). rewrite (others_perm (fun v w => 1/2 * H i v w) _ _ (PM i Hi)). fold (others L i).
      rewrite <- rsumf_scale. apply rsumf_ext. intros v _. rewrite <- rsumf_scale. auto.
Qed.
(** one atom: transfer function and pairs together *)
Section Atom.
Variables (gF : R) (i : nat).
Hypothesis Hi : (lo <= i < hi)%nat.
Notation G v := (vscale gF (dgrad i v)).
Lemma both_loops : adds ci (fun s => force_pairs bld f df in2 g dg gF ci c i (nb c i) (fold_left (trans_body bld ddens reach gF ci c i) (nb c i) s))
  (fun a => vsum (fun v => vsub (if Nat.eqb a i then G v else v0) (if Nat.eqb (fst v) a then G v else v0)) (L i)) 0
  (fun k => if (Nat.ltb k 6 && son)%bool then - rsumf (fun v => stress_of (dvec pos b i v) (G v) k) (L i) else 0).
Proof.
  assert (A1 := adds_fold ci (fun s v => trans_body bld ddens reach gF ci c i s (ent i v)) _ _ _ (B i) (fun v Hv => trans_adds gF i v (NO i v Hi Hv))).
  assert (A2 := adds_fold ci (fun s p => tri_body bld f df in2 g dg gF ci c i (ent i (fst p)) s (ent i (snd p))) _ _ _ (pairs (B i))
    (fun p Hp => trip_adds gF i (fst p) (snd p) (NO i _ Hi (proj1 (pairs_in _ _ Hp))) (NO i _ Hi (proj2 (pairs_in _ _ Hp))))).
  apply (adds_ext ci _ _ _ _ _ _ _ _ (adds_comp ci _ _ _ _ _ _ _ _ A1 A2)).
  - intros s. rewrite (NB i Hi).
    rewrite (fold_pairs (fun _ => true) (tri_body bld f df in2 g dg gF ci c i) (force_pairs bld f df in2 g dg gF ci c i)) by auto.
    rewrite pairs_map, !fold_map. auto.
  - intros a. apply by_sprod. intros u. rewrite sprod_add, !sprod_sumf.
    pose (y := fun v w => gF * sprod u (T i v w)). pose (z := fun v w => (if Nat.eqb a i then y v w else 0) - (if Nat.eqb (fst v) a then y v w else 0)).
    transitivity (rsumf (fun v => (if Nat.eqb a i then gF * sprod u (tgrad i v) else 0) - (if Nat.eqb (fst v) a then gF * sprod u (tgrad i v) else 0)) (L i) +
      rsumf (fun v => rsumf (z v) (others L i v)) (L i)).
    + f_equal.
      * rewrite <- (rsumf_perm _ _ _ (PM i Hi)). apply rsumf_ext. intros v _. rewrite sprod_sub, !sprod_if, !sprod_scale. auto.
      * transitivity (rsumf (fun p => z (fst p) (snd p) + z (snd p) (fst p)) (pairs (B i))).
        { apply rsumf_ext. intros p _. rewrite !sprod_sub, !sprod_if, !sprod_add, !sprod_scale. unfold z, y.
          destruct (Nat.eqb a i), (Nat.eqb (fst (fst p)) a), (Nat.eqb (fst (snd p)) a); ring. }
        rewrite pairs_sum by apply (HB i Hi). apply (others_perm z _ _ (PM i Hi)).
    + rewrite <- rsumf_plus. apply rsumf_ext. intros v _. rewrite sprod_sub, !sprod_if, !sprod_scale. unfold density_grad. fold (tgrad i v). rewrite sprod_add, sprod_sum.
      unfold z, y. rewrite rsumf_minus, !rsumf_if, !rsumf_scale. destruct (Nat.eqb a i), (Nat.eqb (fst v) a); ring.
  - rewrite !rsumf_zero by auto. ring.
  - intros k. destruct (Nat.ltb k 6 && son)%bool; [|rewrite !rsumf_zero by auto; ring].
    pose (z := fun v w => -1 * (gF * stress_of (dvec pos b i v) (T i v w) k)).
    transitivity (rsumf (fun v => -1 * (gF * stress_of (dvec pos b i v) (tgrad i v) k)) (L i) + rsumf (fun v => rsumf (z v) (others L i v)) (L i)).
    + f_equal.
      * rewrite <- (rsumf_perm _ _ _ (PM i Hi)). apply rsumf_ext. intros v _. rewrite stress_scale. ring.
      * transitivity (rsumf (fun p => z (fst p) (snd p) + z (snd p) (fst p)) (pairs (B i))).
        { apply rsumf_ext. intros p _. rewrite !stress_scale. unfold z. ring. }
        rewrite pairs_sum by apply (HB i Hi). apply (others_perm z _ _ (PM i Hi)).
    + rewrite <- rsumf_plus.
      transitivity (-1 * rsumf (fun v => stress_of (dvec pos b i v) (G v) k) (L i)); [|ring]. rewrite <- rsumf_scale. apply rsumf_ext. intros v _.
      rewrite stress_scale. unfold density_grad. fold (tgrad i v). rewrite stress_add, stress_sum. unfold z. rewrite !rsumf_scale. ring.
Qed.
End Atom.
Notation ld i := (list_density dens reach f in2 g c i (nb c i)).
Notation dat i := (datom bld phi dphi in0 ddens reach f df in2 g dg F dF FA dFA fbegin fend fstep ci c i (ld i)).
Notation be := (bond_energy c pos b phi in0).
Notation bf := (bond_force c pos b dphi in0).
Lemma energy_adds : forall x, adds ci (add_energy ci x) (fun _ => v0) x (fun _ => 0).
Proof.
  intros x. constructor; intros; cbn [add_energy frc en str err]; auto.
  - vring.
  - unfold setf. destruct (Nat.eqb_spec d ci) as [->|]; ring.
  - destruct (Nat.eqb d ci); ring.
Qed.
Lemma datom_adds : forall i, (lo <= i < hi)%nat -> adds ci (dat i)
  (fun a => if uf c then vadd (if Nat.eqb a i then pair_force c pos b dphi in0 L i else v0)
     (vsum (fun v => vsub (if Nat.eqb a i then MG i v else v0) (if Nat.eqb (fst v) a then MG i v else v0)) (L i)) else v0)
  (1/2 * rsumf (be i) (L i) + Ec (typ c i) (rho i))
  (fun k => if (Nat.ltb k 6 && son && uf c)%bool then
     - (1/2 * rsumf (fun v => stress_of (dvec pos b i v) (bf i v) k) (L i)) - rsumf (fun v => stress_of (dvec pos b i v) (MG i v) k) (L i) else 0).
Proof.
  intros i Hi. rewrite (density_eq i Hi).
  pose proof (pair_adds c pos b rcut ci FG L HL B NB HB phi dphi in0 DS IS 1 (uf c) son
      (fun i s e => AngModel.pair_body (base bld) phi dphi in0 ci c i s e) (fun i v Hi Hv => ang_pair_adds (base bld) phi dphi in0 c pos b ci i v (NO i v Hi Hv)) i Hi) as A.
  pose proof (adds_comp ci _ _ _ _ _ _ _ _ A (energy_adds (Ec (typ c i) (rho i)))) as A1.
  unfold datom. cbv zeta. destruct (uf c) eqn:U.
  - pose proof (adds_comp ci _ _ _ _ _ _ _ _ A1 (both_loops (dEc (typ c i) (rho i)) i Hi)) as A2.
    apply (adds_ext ci _ _ _ _ _ _ _ _ A2); auto.
    + intros a. rewrite andb_true_r. unfold meam_grad. destruct (Nat.eqb a i); vring.
    + field.
    + intros k. rewrite !andb_true_r. unfold meam_grad. destruct (Nat.ltb k 6 && son)%bool; field.
  - apply (adds_ext ci _ _ _ _ _ _ _ _ A1); auto.
    + intros a. rewrite andb_false_r. vring.
    + field.
    + intros k. rewrite !andb_false_r. ring.
Qed.
Notation MF := (meam_force c pos b dens ddens reach f df in2 g dg dEc L).
Notation ME := (meam_energy c pos b dens reach f in2 g Ec L).
Notation MV := (meam_virial c pos b dens ddens reach f df in2 g dg dEc L).
Theorem meam_atoms_adds : adds ci (for_up lo hi (fun i => dat i))
  (fun a => if inside c a then (if uf c then vadd (pair_force c pos b dphi in0 L a) (MF a) else v0) else v0)
  (pair_energy c pos b phi in0 L + ME)
  (fun k => if (Nat.ltb k 6 && son && uf c)%bool then pair_virial c pos b dphi in0 L k + MV k else 0).
Proof.
  apply (adds_ext ci _ _ _ _ _ _ _ _ (adds_up ci _ _ _ _ lo (inconf c) datom_adds)); auto.
  - intros a. apply by_sprod. intros u. rewrite sprod_sumf, !sprod_if, sprod_add. destruct (uf c).
    2: { rewrite rsumf_zero; [destruct (inside c a); auto|]. intros. apply sprod_0. }
    pose (M := fun i v => sprod u (MG i v)).
    assert (Q : rsumf (fun i => sprod u (vadd (if Nat.eqb a i then pair_force c pos b dphi in0 L i else v0)
        (vsum (fun v => vsub (if Nat.eqb a i then MG i v else v0) (if Nat.eqb (fst v) a then MG i v else v0)) (L i)))) sq' =
      rsumf (fun i => if Nat.eqb i a then sprod u (pair_force c pos b dphi in0 L i) + rsumf (M i) (L i) else 0) sq' -
      rsumf (fun i => rsumf (fun v => if Nat.eqb (fst v) a then M i v else 0) (L i)) sq').
    { rewrite <- rsumf_minus. apply rsumf_ext. intros i _. rewrite sprod_add, sprod_if, sprod_sum, (Nat.eqb_sym i a).
      rewrite (rsumf_ext _ (fun v => (if Nat.eqb a i then M i v else 0) - (if Nat.eqb (fst v) a then M i v else 0)))
        by (intros; rewrite sprod_sub, !sprod_if; auto).
      rewrite rsumf_minus, rsumf_if. destruct (Nat.eqb a i); ring. }
    rewrite Q. destruct (inside c a) eqn:I.
    + apply inside_true in I. rewrite (pick (fun i => sprod u (pair_force c pos b dphi in0 L i) + rsumf (M i) (L i))); [|apply seq_NoDup|apply in_seq; lia].
      unfold meam_force. rewrite sprod_sub, !sprod_sum. unfold Rminus. rewrite Rplus_assoc. f_equal. f_equal. f_equal.
      apply rsumf_ext. intros i _. rewrite sprod_sum. apply rsumf_ext. intros v _. rewrite sprod_if. auto.
    + assert (NI : ~ (lo <= a < hi)%nat) by (intros H0; apply inside_true in H0; congruence).
      rewrite !rsumf_zero; [ring| |].
      * intros i Hi. apply in_seq in Hi. apply rsumf_zero. intros [j m] Hv. apply (HL i ltac:(lia)) in Hv. cbn [fst]. destruct (Nat.eqb_spec j a); auto. lia.
      * intros i Hi. apply in_seq in Hi. destruct (Nat.eqb_spec i a); auto. lia.
  - rewrite rsumf_plus, rsumf_scale. unfold meam_energy. f_equal.
  - intros k. destruct (Nat.ltb k 6 && son && uf c)%bool; [|apply rsumf_zero; auto]. unfold pair_virial, meam_virial.
    rewrite rsumf_minus. 
    rewrite (rsumf_ext (fun i => - (1/2 * rsumf (fun v => stress_of (dvec pos b i v) (bf i v) k) (L i))) (fun i => -(1/2) * rsumf (fun v => stress_of (dvec pos b i v) (bf i v) k) (L i))) by (intros; ring).
    rewrite rsumf_scale. ring.
Qed.
(** forces sum to zero *)
Theorem meam_newton : vsum MF sq' = v0.
Proof.
  apply by_sprod. intros u. rewrite sprod_sum, sprod_0.
  apply (zero_sum c pos b rcut L HL _ (fun a => rsumf (fun i => rsumf (fun v => if Nat.eqb (fst v) a then sprod u (MG i v) else 0) (L i)) sq') (fun a v => sprod u (MG a v))); auto.
  intros a. unfold meam_force. rewrite sprod_sub, !sprod_sum. f_equal. apply rsumf_ext. intros i _. rewrite sprod_sum. apply rsumf_ext. intros v _. apply sprod_if.
Qed.
End Meam.
