(** The textbook force of a three-body model is the negative gradient of the energy, for
    terms f(r1) f(r2) g(cos). *)
From Coq Require Import Reals ZArith List Bool Lia Lra Permutation.
From Verif Require Import Vec NbrModel NbrProof NbrProof2 PairModel PairProof PairSpec PairProof2 BondProof GradProof ThreeSpec ThreeProof.
Import ListNotations.
Local Open Scope R_scope.

Lemma others_swap : forall (L : nat -> list (nat * image)) (t : nat * image -> nat * image -> R) i,
  rsumf (fun v => rsumf (fun w => t w v) (others L i v)) (L i) = rsumf (fun v => rsumf (t v) (others L i v)) (L i).
Proof.
  intros L t i. unfold others.
  rewrite (rsumf_ext _ (fun v => rsumf (fun w => if negb (same v w) then t w v else 0) (L i))) by (intros; apply rsumf_filter).
  rewrite (rsumf_swap (fun v w => if negb (same v w) then t w v else 0)). apply rsumf_ext. intros v _. rewrite rsumf_filter. apply rsumf_ext. intros w _.
  assert (E : same w v = same v w). { destruct (same v w) eqn:E; [apply same_spec in E; subst; apply same_refl|]. apply same_neq. intros ->. rewrite same_refl in E. discriminate. }
  rewrite E. auto.
Qed.

Section Grad.
Variables (c : conf) (pos : nat -> vec) (bx : box) (rcut : nat -> nat -> R).
Hypothesis FG : full_geometry c pos bx rcut.
Notation lo := (cnfstart c).
Notation hi := (cnfstart c + inconf c)%nat.
Variable L : nat -> list (nat * image).
Hypothesis HL : forall a, (lo <= a < hi)%nat -> all_neighbors c pos bx rcut a (L a).
Variables (a : nat) (u : vec).
Hypothesis Ha : (lo <= a < hi)%nat.
Variables f f' : nat -> nat -> R -> R.
Variables g g' : nat -> nat -> nat -> R -> R.
Hypothesis GS : forall i j k x, g i j k x = g i k j x.
Hypothesis GS' : forall i j k x, g' i j k x = g' i k j x.
Definition ph (i j k : nat) (r1 r2 x : R) : R := f i j r1 * f i k r2 * g i j k x.
Definition ph1 (i j k : nat) (r1 r2 x : R) : R := f' i j r1 * f i k r2 * g i j k x.
Definition phc (i j k : nat) (r1 r2 x : R) : R := f i j r1 * f i k r2 * g' i j k x.
Hypothesis HF : forall i v, (lo <= i < hi)%nat -> In v (L i) ->
  derivable_pt_lim (f (typ c i) (typ c (fst v))) (dist pos bx i v) (f' (typ c i) (typ c (fst v)) (dist pos bx i v)).
Hypothesis HG : forall i v w, (lo <= i < hi)%nat -> In v (L i) -> In w (L i) -> v <> w ->
  derivable_pt_lim (g (typ c i) (typ c (fst v)) (typ c (fst w))) (cosine pos bx i v w) (g' (typ c i) (typ c (fst v)) (typ c (fst w)) (cosine pos bx i v w)).

Lemma cos_sym : forall i v w, cosine pos bx i v w = cosine pos bx i w v.
Proof. intros. unfold cosine. rewrite (Rmult_comm (dist pos bx i w)). f_equal. unfold sprod. ring. Qed.
Lemma at_sym : forall i v w, at_ c pos bx ph i v w = at_ c pos bx ph i w v.
Proof. intros. unfold at_, ph. rewrite (cos_sym i w v), (GS _ (typ c (fst w))). ring. Qed.

Notation k := (kap a).
Notation ds := (dist pos bx).
Notation dv := (dvec pos bx).
Lemma geoL : exists nbh, geometry (with_nb c nbh) pos bx rcut.
Proof. apply half_exists. auto. Qed.
Lemma no_over : forall i v, (lo <= i < hi)%nat -> In v (L i) -> dv i v <> v0.
Proof. intros i v Hi Hv. destruct geoL as (nbh & GEO). apply (no_overlap (with_nb c nbh) pos bx rcut GEO L HL i v Hi Hv). Qed.
Lemma dist_deriv' : forall i v, (lo <= i < hi)%nat -> In v (L i) ->
  derivable_pt_lim (fun t => dist (moved pos a u t) bx i v) 0 (k i v * (sprod u (dv i v) / ds i v)).
Proof. intros i v Hi Hv. destruct geoL as (nbh & GEO). apply (dist_deriv (with_nb c nbh) pos bx rcut GEO L HL a u i v Hi Hv). Qed.
Lemma moved_d0 : forall i v, dist (moved pos a u 0) bx i v = ds i v.
Proof. intros. unfold dist. rewrite moved_dvec. f_equal. vring. Qed.
Lemma moved_c0 : forall i v w, cosine (moved pos a u 0) bx i v w = cosine pos bx i v w.
Proof.
  intros. unfold cosine. rewrite !moved_d0, !moved_dvec. f_equal. unfold sprod; simpl. ring.
Qed.
Lemma sprod_deriv : forall x y kx ky, derivable_pt_lim (fun t => sprod (vadd x (vscale (t * kx) u)) (vadd y (vscale (t * ky) u))) 0 (kx * sprod u y + ky * sprod u x).
Proof.
  intros x y kx ky.
  apply (deriv_ext (fun t => sprod x y + (kx * sprod u y + ky * sprod u x) * t + (kx * ky * sprod u u) * (t * t))).
  { intros s. unfold sprod; simpl. ring. }
  apply (deriv_eq _ _ (0 + (kx * sprod u y + ky * sprod u x) * 1 + (kx * ky * sprod u u) * (1 * 0 + 0 * 1))); [|ring].
  apply (derivable_pt_lim_plus (fun t => sprod x y + (kx * sprod u y + ky * sprod u x) * t)).
  - apply (derivable_pt_lim_plus (fun _ => sprod x y)); [apply derivable_pt_lim_const|].
    apply (derivable_pt_lim_scal (fun t => t)). apply derivable_pt_lim_id.
  - apply (derivable_pt_lim_scal (fun t => t * t)). apply (derivable_pt_lim_mult (fun t => t) (fun t => t)); apply derivable_pt_lim_id.
Qed.
Definition dcos (i : nat) (v w : nat * image) : R :=
  sprod u (dv i w) / (ds i v * ds i w) - cosine pos bx i v w * sprod u (dv i v) / (ds i v * ds i v).
Lemma cos_deriv : forall i v w, (lo <= i < hi)%nat -> In v (L i) -> In w (L i) ->
  derivable_pt_lim (fun t => cosine (moved pos a u t) bx i v w) 0 (k i v * dcos i v w + k i w * dcos i w v).
Proof.
  intros i v w Hi Hv Hw.
  assert (P1 := dist_pos pos bx i v (no_over i v Hi Hv)). assert (P2 := dist_pos pos bx i w (no_over i w Hi Hw)).
  pose (n1 := fun t => sprod (vadd (dv i v) (vscale (t * k i v) u)) (vadd (dv i w) (vscale (t * k i w) u))).
  pose (n2 := fun t => dist (moved pos a u t) bx i v * dist (moved pos a u t) bx i w).
  apply (deriv_ext (fun t => n1 t / n2 t)).
  { intros s. unfold cosine, n1, n2. rewrite !moved_dvec. auto. }
  assert (N20 : n2 0 = ds i v * ds i w) by (unfold n2; rewrite !moved_d0; auto).
  assert (N10 : n1 0 = sprod (dv i v) (dv i w)) by (unfold n1, sprod; simpl; ring).
  assert (NZ : n2 0 <> 0) by (rewrite N20; apply Rgt_not_eq, Rmult_lt_0_compat; auto).
  eapply deriv_eq.
  - apply (derivable_pt_lim_div n1 n2 0 (k i v * sprod u (dv i w) + k i w * sprod u (dv i v))
      (k i v * (sprod u (dv i v) / ds i v) * ds i w + ds i v * (k i w * (sprod u (dv i w) / ds i w)))); auto.
    + apply sprod_deriv.
    + eapply deriv_eq; [apply (derivable_pt_lim_mult (fun t => dist (moved pos a u t) bx i v) (fun t => dist (moved pos a u t) bx i w)); apply dist_deriv'; auto|].
      rewrite !moved_d0. ring.
  - rewrite N20, N10. unfold dcos. rewrite (cos_sym i w v). unfold cosine, Rsqr. field. split; lra.
Qed.
Notation T := (tri_grad c pos bx ph1 phc).
Lemma term_deriv : forall i v w, (lo <= i < hi)%nat -> In v (L i) -> In w (L i) -> v <> w ->
  derivable_pt_lim (fun t => at_ c (moved pos a u t) bx ph i v w) 0 (k i v * sprod u (T i v w) + k i w * sprod u (T i w v)).
Proof.
  intros i v w Hi Hv Hw N.
  assert (P1 := dist_pos pos bx i v (no_over i v Hi Hv)). assert (P2 := dist_pos pos bx i w (no_over i w Hi Hw)).
  set (ti := typ c i). set (tv := typ c (fst v)). set (tw := typ c (fst w)).
  assert (D1 : derivable_pt_lim (fun t => f ti tv (dist (moved pos a u t) bx i v)) 0 (f' ti tv (ds i v) * (k i v * (sprod u (dv i v) / ds i v)))).
  { apply (derivable_pt_lim_comp (fun t => dist (moved pos a u t) bx i v) (f ti tv)); [apply dist_deriv'; auto|]. rewrite moved_d0. apply HF; auto. }
  assert (D2 : derivable_pt_lim (fun t => f ti tw (dist (moved pos a u t) bx i w)) 0 (f' ti tw (ds i w) * (k i w * (sprod u (dv i w) / ds i w)))).
  { apply (derivable_pt_lim_comp (fun t => dist (moved pos a u t) bx i w) (f ti tw)); [apply dist_deriv'; auto|]. rewrite moved_d0. apply HF; auto. }
  assert (D3 : derivable_pt_lim (fun t => g ti tv tw (cosine (moved pos a u t) bx i v w)) 0 (g' ti tv tw (cosine pos bx i v w) * (k i v * dcos i v w + k i w * dcos i w v))).
  { apply (derivable_pt_lim_comp (fun t => cosine (moved pos a u t) bx i v w) (g ti tv tw)); [apply cos_deriv; auto|]. rewrite moved_c0. apply HG; auto. }
  eapply deriv_eq.
  - unfold at_, ph. fold ti tv tw. apply (derivable_pt_lim_mult (fun t => f ti tv (dist (moved pos a u t) bx i v) * f ti tw (dist (moved pos a u t) bx i w))); [|exact D3].
    apply (derivable_pt_lim_mult (fun t => f ti tv (dist (moved pos a u t) bx i v)) (fun t => f ti tw (dist (moved pos a u t) bx i w))); [exact D1|exact D2].
  - cbv beta. rewrite moved_c0, !moved_d0. unfold tri_grad, at_, ph1, phc, dcos. fold ti tv tw. rewrite (cos_sym i w v), (GS ti tw tv), (GS' ti tw tv).
    set (x := cosine pos bx i v w). generalize (g ti tv tw x) (g' ti tv tw x) (f ti tv (ds i v)) (f ti tw (ds i w)) (f' ti tv (ds i v)) (f' ti tw (ds i w)).
    clearbody x. generalize (k i v) (k i w). intros. unfold sprod, vadd, vscale; cbn [vx vy vz].
    generalize dependent (ds i v). generalize dependent (ds i w). generalize (dv i v) (dv i w). intros. field. split; lra.
Qed.
Theorem three_gradient : derivable_pt_lim (fun t => three_energy c (moved pos a u t) bx ph L) 0 (- sprod u (three_force c pos bx ph1 phc L a)).
Proof.
  apply (deriv_eq _ _ (rsumf (fun i => 1/2 * rsumf (fun v => rsumf (fun w => k i v * sprod u (T i v w) + k i w * sprod u (T i w v)) (others L i v)) (L i)) (seq lo (inconf c)))).
  - unfold three_energy. apply (deriv_sum _ (fun i t => 1/2 * rsumf (fun v => rsumf (at_ c (moved pos a u t) bx ph i v) (others L i v)) (L i))).
    intros i Hi. apply in_seq in Hi. apply (derivable_pt_lim_scal (fun t => rsumf (fun v => rsumf (at_ c (moved pos a u t) bx ph i v) (others L i v)) (L i))).
    apply (deriv_sum _ (fun v t => rsumf (at_ c (moved pos a u t) bx ph i v) (others L i v))). intros v Hv.
    apply (deriv_sum _ (fun w t => at_ c (moved pos a u t) bx ph i v w)). intros w Hw. apply filter_In in Hw. destruct Hw as [Hw NW].
    apply term_deriv; auto. intros ->. rewrite same_refl in NW. discriminate.
  - transitivity (rsumf (fun i => rsumf (fun v => k i v * rsumf (fun w => sprod u (T i v w)) (others L i v)) (L i)) (seq lo (inconf c))).
    + apply rsumf_ext. intros i _.
      rewrite (rsumf_ext _ (fun v => rsumf (fun w => k i v * sprod u (T i v w)) (others L i v) + rsumf (fun w => k i w * sprod u (T i w v)) (others L i v)))
        by (intros; apply rsumf_plus).
      rewrite rsumf_plus, (others_swap L (fun v w => k i v * sprod u (T i v w)) i).
      rewrite (rsumf_ext (fun v => rsumf (fun w => k i v * sprod u (T i v w)) (others L i v)) (fun v => k i v * rsumf (fun w => sprod u (T i v w)) (others L i v))) by (intros; apply rsumf_scale).
      field.
    + set (Q := fun i v => rsumf (fun w => sprod u (T i v w)) (others L i v)).
      transitivity (rsumf (fun i => rsumf (fun v => if Nat.eqb (fst v) a then Q i v else 0) (L i) + (-1) * (if Nat.eqb i a then rsumf (Q i) (L i) else 0)) (seq lo (inconf c))).
      * apply rsumf_ext. intros i _. fold (Q i).
        rewrite (rsumf_ext _ (fun v => (if Nat.eqb (fst v) a then Q i v else 0) + (- (if Nat.eqb i a then 1 else 0)) * Q i v)).
        -- rewrite rsumf_plus, rsumf_scale. destruct (Nat.eqb i a); ring.
        -- intros v _. unfold kap. fold (Q i v). destruct (Nat.eqb (fst v) a); ring.
      * rewrite rsumf_plus, rsumf_scale, (pick (fun i => rsumf (Q i) (L i))); [|apply seq_NoDup|apply in_seq; lia].
        unfold three_force.
        assert (E : forall x y, sprod u (vsub x y) = sprod u x - sprod u y) by (intros; unfold sprod; simpl; ring).
        rewrite E, !sprod_vsum.
        rewrite (rsumf_ext (fun x => sprod u (vsum _ _)) (Q a)) by (intros; apply sprod_vsum).
        rewrite (rsumf_ext (fun i => sprod u (vsum _ (L i))) (fun i => rsumf (fun v => if Nat.eqb (fst v) a then Q i v else 0) (L i))); [ring|].
        intros i _. rewrite sprod_vsum. apply rsumf_ext. intros v _. destruct (Nat.eqb (fst v) a); [apply sprod_vsum|]. unfold sprod; simpl; ring.
Qed.
End Grad.
