(** The textbook ADP force is the negative gradient of the ADP energy. *)
From Coq Require Import Reals ZArith List Bool Lia Lra.
From Verif Require Import Vec NbrModel NbrProof NbrProof2 NbrProof3 PairModel PairProof PairSpec PairProof2 PairProof3 BondProof EamSpec GradProof AdpSpec.
Import ListNotations.
Local Open Scope R_scope.

Section Grad.
Variables (c : conf) (pos : nat -> vec) (bx : box) (rcut : nat -> nat -> R).
Hypothesis GEO : geometry c pos bx rcut.
Notation lo := (cnfstart c).
Notation hi := (cnfstart c + inconf c)%nat.
Variable L : nat -> list (nat * image).
Hypothesis HL : forall a, (lo <= a < hi)%nat -> all_neighbors c pos bx rcut a (L a).
Variables (a : nat) (z : vec).
Hypothesis Ha : (lo <= a < hi)%nat.
Notation mv t := (moved pos a z t).
Notation kapa := (kap a).
Notation drz := (dr pos bx z).

Lemma co_deriv : forall i v k, derivable_pt_lim (fun t => co (dvec (mv t) bx i v) k) 0 (kapa i v * co z k).
Proof.
  intros i v k. apply (deriv_ext (fun t => co (dvec pos bx i v) k + t * (kapa i v * co z k))).
  - intros t. rewrite moved_dvec. unfold co. destruct k as [|[|]]; cbn [vadd vscale vx vy vz]; ring.
  - apply (deriv_eq _ _ (0 + (1 * (kapa i v * co z k) + 0 * 0))); [|ring].
    apply (derivable_pt_lim_plus (fun _ => co (dvec pos bx i v) k)); [apply derivable_pt_lim_const|].
    apply (derivable_pt_lim_mult (fun t => t) (fun _ => kapa i v * co z k)); [apply derivable_pt_lim_id|apply derivable_pt_lim_const].
Qed.
(** sum of squares of sums over bonds *)
Lemma sq_grad : forall (f : nat -> nat * image -> R -> R) (h : nat -> nat * image -> R),
  (forall i v, (lo <= i < hi)%nat -> In v (L i) -> derivable_pt_lim (f i v) 0 (kapa i v * h i v)) ->
  derivable_pt_lim (fun t => rsumf (fun i => sq (rsumf (fun v => f i v t) (L i))) (seq lo (inconf c))) 0
    (2 * rsumf (fun v => rsumf (fun x => f (fst v) x 0) (L (fst v)) * h (fst v) (a, neg (snd v)) - rsumf (fun x => f a x 0) (L a) * h a v) (L a)).
Proof.
  intros f h HF. set (G := fun i => rsumf (fun x => f i x 0) (L i)).
  apply (deriv_eq _ _ (2 * rsumf (fun i => rsumf (fun v => kapa i v * (G i * h i v)) (L i)) (seq lo (inconf c)))).
  2:{ f_equal. exact (kap_sum c pos bx rcut GEO L HL a Ha (fun i v => G i * h i v)). }
  rewrite <- rsumf_scale.
  apply (deriv_sum _ (fun i t => sq (rsumf (fun v => f i v t) (L i)))). intros i Hi. apply in_seq in Hi.
  assert (D : derivable_pt_lim (fun t => rsumf (fun v => f i v t) (L i)) 0 (rsumf (fun v => kapa i v * h i v) (L i))).
  { apply (deriv_sum _ (fun v t => f i v t)). intros v Hv. apply HF; auto; lia. }
  apply (deriv_eq _ _ (rsumf (fun v => kapa i v * h i v) (L i) * G i + G i * rsumf (fun v => kapa i v * h i v) (L i))).
  - unfold sq. apply (derivable_pt_lim_mult (fun t => rsumf (fun v => f i v t) (L i)) (fun t => rsumf (fun v => f i v t) (L i)) 0 _ _ D D).
  - rewrite (rsumf_ext (fun v => kapa i v * (G i * h i v)) (fun v => G i * (kapa i v * h i v))) by (intros; ring). rewrite rsumf_scale. ring.
Qed.

Variables u du : nat -> nat -> R -> R.
Variable u_range : nat -> nat -> R -> bool.
Variables w dw : nat -> nat -> R -> R.
Variable w_range : nat -> nat -> R -> bool.
Hypothesis US : forall s t r, u s t r = u t s r.
Hypothesis dUS : forall s t r, du s t r = du t s r.
Hypothesis URS : forall s t r, u_range s t r = u_range t s r.
Hypothesis WS : forall s t r, w s t r = w t s r.
Hypothesis dWS : forall s t r, dw s t r = dw t s r.
Hypothesis WRS : forall s t r, w_range s t r = w_range t s r.
(** the functions, cut off, are differentiable where they are used *)
Hypothesis HU : forall i v, (lo <= i < hi)%nat -> In v (L i) ->
  derivable_pt_lim (fun r => if u_range (typ c i) (typ c (fst v)) r then u (typ c i) (typ c (fst v)) r else 0) (dist pos bx i v) (cut c pos bx du u_range i v).
Hypothesis HW : forall i v, (lo <= i < hi)%nat -> In v (L i) ->
  derivable_pt_lim (fun r => if w_range (typ c i) (typ c (fst v)) r then w (typ c i) (typ c (fst v)) r else 0) (dist pos bx i v) (cut c pos bx dw w_range i v).
Notation cu := (cut c pos bx u u_range).
Notation cdu := (cut c pos bx du u_range).
Notation cw := (cut c pos bx w w_range).
Notation cdw := (cut c pos bx dw w_range).
Notation d i v := (dvec pos bx i v).

Lemma cut_deriv : forall f f' rg, (forall i v, (lo <= i < hi)%nat -> In v (L i) -> derivable_pt_lim (fun r => if (rg : nat -> nat -> R -> bool) (typ c i) (typ c (fst v)) r then (f : nat -> nat -> R -> R) (typ c i) (typ c (fst v)) r else 0) (dist pos bx i v) (cut c pos bx f' rg i v)) ->
  forall i v, (lo <= i < hi)%nat -> In v (L i) -> derivable_pt_lim (fun t => cut c (mv t) bx f rg i v) 0 (kapa i v * (cut c pos bx f' rg i v * drz i v)).
Proof.
  intros f f' rg H i v Hi Hv. unfold cut at 1. apply (bond_deriv c pos bx rcut GEO L HL a z (fun r => if rg (typ c i) (typ c (fst v)) r then f (typ c i) (typ c (fst v)) r else 0)); auto.
Qed.
Definition hU (k : nat) (i : nat) (v : nat * image) : R := cdu i v * drz i v * co (d i v) k + cu i v * co z k.
Definition hW (k l : nat) (i : nat) (v : nat * image) : R :=
  cdw i v * drz i v * (co (d i v) k * co (d i v) l) + cw i v * (co z k * co (d i v) l + co (d i v) k * co z l).
Lemma cut0 : forall f rg i v, cut c (mv 0) bx f rg i v = cut c pos bx f rg i v.
Proof. intros. unfold cut. rewrite moved_dist0. auto. Qed.
Lemma fU_deriv : forall k i v, (lo <= i < hi)%nat -> In v (L i) -> derivable_pt_lim (fun t => cut c (mv t) bx u u_range i v * co (dvec (mv t) bx i v) k) 0 (kapa i v * hU k i v).
Proof.
  intros k i v Hi Hv.
  apply (deriv_eq _ _ (kapa i v * (cdu i v * drz i v) * co (dvec (mv 0) bx i v) k + cut c (mv 0) bx u u_range i v * (kapa i v * co z k))).
  - apply (derivable_pt_lim_mult (fun t => cut c (mv t) bx u u_range i v) (fun t => co (dvec (mv t) bx i v) k) 0 _ _ (cut_deriv u du u_range HU i v Hi Hv) (co_deriv i v k)).
  - rewrite moved_0, cut0. unfold hU. ring.
Qed.
Lemma fW_deriv : forall k l i v, (lo <= i < hi)%nat -> In v (L i) ->
  derivable_pt_lim (fun t => cut c (mv t) bx w w_range i v * (co (dvec (mv t) bx i v) k * co (dvec (mv t) bx i v) l)) 0 (kapa i v * hW k l i v).
Proof.
  intros k l i v Hi Hv.
  apply (deriv_eq _ _ (kapa i v * (cdw i v * drz i v) * (co (dvec (mv 0) bx i v) k * co (dvec (mv 0) bx i v) l) + cut c (mv 0) bx w w_range i v * (kapa i v * co z k * co (dvec (mv 0) bx i v) l + co (dvec (mv 0) bx i v) k * (kapa i v * co z l)))).
  - apply (derivable_pt_lim_mult (fun t => cut c (mv t) bx w w_range i v) (fun t => co (dvec (mv t) bx i v) k * co (dvec (mv t) bx i v) l) 0 _ _ (cut_deriv w dw w_range HW i v Hi Hv)).
    apply (derivable_pt_lim_mult (fun t => co (dvec (mv t) bx i v) k) (fun t => co (dvec (mv t) bx i v) l) 0 _ _ (co_deriv i v k) (co_deriv i v l)).
  - rewrite moved_0, cut0. unfold hW. ring.
Qed.
Lemma dv_rev : forall j n, dvec pos bx j (a, neg n) = vscale (-1) (d a (j, n)).
Proof. intros. unfold dvec. cbn [fst snd]. apply displacement_neg. Qed.
Lemma cut_rev : forall f g, (forall s t r, f s t r = f t s r) -> (forall s t r, g s t r = g t s r) -> forall j n, cut c pos bx f g j (a, neg n) = cut c pos bx f g a (j, n).
Proof. intros f g HF HG j n. unfold cut. cbn [fst]. rewrite (dist_sym pos bx a j n), (HG (typ c j)), (HF (typ c j)). auto. Qed.
Lemma hU_rev : forall k j n, hU k j (a, neg n) = hU k a (j, n).
Proof.
  intros k j n. unfold hU. rewrite (cut_rev u u_range US URS), (cut_rev du u_range dUS URS), dr_neg, dv_rev. unfold co. destruct k as [|[|]]; cbn [vscale vx vy vz]; ring.
Qed.
Lemma hW_rev : forall k l j n, hW k l j (a, neg n) = - hW k l a (j, n).
Proof.
  intros k l j n. unfold hW. rewrite (cut_rev w w_range WS WRS), (cut_rev dw w_range dWS WRS), dr_neg, dv_rev. unfold co. destruct k as [|[|]], l as [|[|]]; cbn [vscale vx vy vz]; ring.
Qed.
Notation dip := (dipole c pos bx u u_range L).
Notation quad := (quadrupole c pos bx w w_range L).
Notation nuo := (nu_of c pos bx w w_range L).
Lemma dip_co : forall (p : nat -> vec) i k, (k < 3)%nat -> co (dipole c p bx u u_range L i) k = rsumf (fun v => cut c p bx u u_range i v * co (dvec p bx i v) k) (L i).
Proof. intros p i k K. unfold dipole, co. destruct k as [|[|[|]]]; try lia; auto. Qed.
Lemma energy_parts : forall p, adp_energy c p bx u u_range w w_range L =
  1/2 * rsumf (fun k => rsumf (fun i => sq (rsumf (fun v => cut c p bx u u_range i v * co (dvec p bx i v) k) (L i))) (seq lo (inconf c))) (seq 0 3) +
  1/2 * rsumf (fun k => rsumf (fun l => rsumf (fun i => sq (rsumf (fun v => cut c p bx w w_range i v * (co (dvec p bx i v) k * co (dvec p bx i v) l)) (L i))) (seq lo (inconf c))) (seq 0 3)) (seq 0 3) -
  1/6 * rsumf (fun i => sq (rsumf (fun v => cut c p bx w w_range i v * (co (dvec p bx i v) 0 * co (dvec p bx i v) 0) + cut c p bx w w_range i v * (co (dvec p bx i v) 1 * co (dvec p bx i v) 1) +
     cut c p bx w w_range i v * (co (dvec p bx i v) 2 * co (dvec p bx i v) 2)) (L i))) (seq lo (inconf c)).
Proof.
  intros p. unfold adp_energy. f_equal; [f_equal|]; f_equal.
  - rewrite (rsumf_swap (fun k i => sq (rsumf (fun v => cut c p bx u u_range i v * co (dvec p bx i v) k) (L i)))). apply rsumf_ext. intros i _.
    rewrite (rsumf_ext (fun k => sq (rsumf (fun v => cut c p bx u u_range i v * co (dvec p bx i v) k) (L i))) (fun k => sq (co (dipole c p bx u u_range L i) k))).
    + unfold rsumf; cbn [seq map]; unfold Vec.rsum; cbn [fold_right]. unfold sqv, co, sq. ring.
    + intros k K. apply in_seq in K. rewrite dip_co by lia. auto.
  - rewrite (rsumf_swap (fun i k => rsumf (fun l => sq (quadrupole c p bx w w_range L i k l)) (seq 0 3))). apply rsumf_ext. intros k _.
    rewrite (rsumf_swap (fun i l => sq (quadrupole c p bx w w_range L i k l))). auto.
  - apply rsumf_ext. intros i _. unfold nu_of, quadrupole. rewrite !rsumf_plus. auto.
Qed.

Theorem adp_gradient : derivable_pt_lim (fun t => adp_energy c (mv t) bx u u_range w w_range L) 0 (- sprod z (adp_force c pos bx u du u_range w dw w_range L a)).
Proof.
  apply (deriv_ext _ _ _ _ (fun t => eq_sym (energy_parts (mv t)))).
  set (fU := fun k i v t => cut c (mv t) bx u u_range i v * co (dvec (mv t) bx i v) k).
  set (fW := fun k l i v t => cut c (mv t) bx w w_range i v * (co (dvec (mv t) bx i v) k * co (dvec (mv t) bx i v) l)).
  set (fN := fun i v t => fW 0%nat 0%nat i v t + fW 1%nat 1%nat i v t + fW 2%nat 2%nat i v t).
  assert (U0 : forall k i, (k < 3)%nat -> rsumf (fun x => fU k i x 0) (L i) = co (dip i) k).
  { intros k i K. rewrite dip_co by auto. apply rsumf_ext. intros x _. unfold fU. rewrite cut0, moved_0. auto. }
  assert (W0 : forall k l i, rsumf (fun x => fW k l i x 0) (L i) = quad i k l).
  { intros k l i. apply rsumf_ext. intros x _. unfold fW. rewrite cut0, moved_0. auto. }
  assert (N0 : forall i, rsumf (fun x => fN i x 0) (L i) = nuo i).
  { intros i. unfold fN, nu_of. rewrite !rsumf_plus, !W0. auto. }
  set (gU := fun k v => co (dip (fst v)) k * hU k (fst v) (a, neg (snd v)) - co (dip a) k * hU k a v).
  set (gW := fun k l v => quad (fst v) k l * hW k l (fst v) (a, neg (snd v)) - quad a k l * hW k l a v).
  set (hN := fun i v => hW 0 0 i v + hW 1 1 i v + hW 2 2 i v).
  set (gN := fun v => nuo (fst v) * hN (fst v) (a, neg (snd v)) - nuo a * hN a v).
  apply (deriv_eq _ _ (1/2 * rsumf (fun k => 2 * rsumf (gU k) (L a)) (seq 0 3) + 1/2 * rsumf (fun k => rsumf (fun l => 2 * rsumf (gW k l) (L a)) (seq 0 3)) (seq 0 3) - 1/6 * (2 * rsumf gN (L a)))).
  - apply (derivable_pt_lim_minus (fun t => 1/2 * rsumf (fun k => rsumf (fun i => sq (rsumf (fun v => fU k i v t) (L i))) (seq lo (inconf c))) (seq 0 3) +
      1/2 * rsumf (fun k => rsumf (fun l => rsumf (fun i => sq (rsumf (fun v => fW k l i v t) (L i))) (seq lo (inconf c))) (seq 0 3)) (seq 0 3))
      (fun t => 1/6 * rsumf (fun i => sq (rsumf (fun v => fN i v t) (L i))) (seq lo (inconf c)))).
    + apply (derivable_pt_lim_plus (fun t => 1/2 * rsumf (fun k => rsumf (fun i => sq (rsumf (fun v => fU k i v t) (L i))) (seq lo (inconf c))) (seq 0 3))).
      * apply (derivable_pt_lim_scal (fun t => rsumf (fun k => rsumf (fun i => sq (rsumf (fun v => fU k i v t) (L i))) (seq lo (inconf c))) (seq 0 3))).
        apply (deriv_sum _ (fun k t => rsumf (fun i => sq (rsumf (fun v => fU k i v t) (L i))) (seq lo (inconf c)))). intros k K. apply in_seq in K.
        apply (deriv_eq _ _ _ _ (sq_grad (fU k) (hU k) (fU_deriv k))). f_equal. apply rsumf_ext. intros v _. unfold gU. rewrite !U0 by lia. auto.
      * apply (derivable_pt_lim_scal (fun t => rsumf (fun k => rsumf (fun l => rsumf (fun i => sq (rsumf (fun v => fW k l i v t) (L i))) (seq lo (inconf c))) (seq 0 3)) (seq 0 3))).
        apply (deriv_sum _ (fun k t => rsumf (fun l => rsumf (fun i => sq (rsumf (fun v => fW k l i v t) (L i))) (seq lo (inconf c))) (seq 0 3))). intros k K.
        apply (deriv_sum _ (fun l t => rsumf (fun i => sq (rsumf (fun v => fW k l i v t) (L i))) (seq lo (inconf c)))). intros l K2.
        apply (deriv_eq _ _ _ _ (sq_grad (fW k l) (hW k l) (fW_deriv k l))). f_equal. apply rsumf_ext. intros v _. unfold gW. rewrite !W0. auto.
    + apply (derivable_pt_lim_scal (fun t => rsumf (fun i => sq (rsumf (fun v => fN i v t) (L i))) (seq lo (inconf c)))).
      assert (ND : forall i v, (lo <= i < hi)%nat -> In v (L i) -> derivable_pt_lim (fN i v) 0 (kapa i v * hN i v)).
      { intros i v Hi Hv. apply (deriv_eq _ _ (kapa i v * hW 0 0 i v + kapa i v * hW 1 1 i v + kapa i v * hW 2 2 i v)); [|unfold hN; ring].
        apply (derivable_pt_lim_plus (fun t => fW 0%nat 0%nat i v t + fW 1%nat 1%nat i v t) (fW 2%nat 2%nat i v)); [|apply fW_deriv; auto].
        apply (derivable_pt_lim_plus (fW 0%nat 0%nat i v) (fW 1%nat 1%nat i v)); apply fW_deriv; auto. }
      apply (deriv_eq _ _ _ _ (sq_grad fN hN ND)). f_equal. apply rsumf_ext. intros v _. unfold gN. rewrite !N0. auto.
  - unfold adp_force. rewrite sprod_vsum.
    transitivity (rsumf (fun v => -1 * sprod z (adp_bond c pos bx u du u_range w dw w_range L a v)) (L a)); [|rewrite rsumf_scale; ring].
    rewrite (rsumf_scale 2 (fun k => rsumf (gU k) (L a))). rewrite (rsumf_swap (fun k v => gU k v)).
    rewrite (rsumf_ext (fun k => rsumf (fun l => 2 * rsumf (gW k l) (L a)) (seq 0 3)) (fun k => 2 * rsumf (fun v => rsumf (fun l => gW k l v) (seq 0 3)) (L a))).
    2:{ intros k _. rewrite (rsumf_scale 2). f_equal. apply (rsumf_swap (fun l v => gW k l v)). }
    rewrite (rsumf_scale 2 (fun k => rsumf (fun v => rsumf (fun l => gW k l v) (seq 0 3)) (L a))). rewrite (rsumf_swap (fun k v => rsumf (fun l => gW k l v) (seq 0 3))).
    match goal with |- 1/2 * (2 * ?A) + 1/2 * (2 * ?B) - 1/6 * (2 * ?C) = _ => transitivity (A + B + (-1/3) * C); [field|] end.
    rewrite <- (rsumf_scale (-1/3)), <- !rsumf_plus. apply rsumf_ext. intros [j n] _.
    unfold gU, gW, gN, hN. cbn [fst snd]. unfold rsumf; cbn [seq map]; unfold Vec.rsum; cbn [fold_right]. rewrite !hU_rev, !hW_rev.
    assert (QS : forall i k l, quad i k l = quad i l k) by (intros; unfold quadrupole; apply rsumf_ext; intros; ring).
    assert (RR : dist pos bx a (j, n) * dist pos bx a (j, n) = sprod (d a (j, n)) (d a (j, n))).
    { unfold dist, norm. apply sqrt_sqrt. apply sprod_self_nonneg. }
    unfold adp_bond, dipole_bond, quadrupole_bond, quad_mul. cbn [fst]. rewrite RR. unfold hU, hW, dr, Rdiv.
    set (m1 := dip a). set (m2 := dip j). clearbody m1 m2.
    set (n1 := nuo a). set (n2 := nuo j). clearbody n1 n2.
    rewrite !(QS _ 1%nat 0%nat), !(QS _ 2%nat 0%nat), !(QS _ 2%nat 1%nat).
    set (q00 := quad a 0%nat 0%nat). set (q01 := quad a 0%nat 1%nat). set (q02 := quad a 0%nat 2%nat). set (q11 := quad a 1%nat 1%nat). set (q12 := quad a 1%nat 2%nat). set (q22 := quad a 2%nat 2%nat).
    set (p00 := quad j 0%nat 0%nat). set (p01 := quad j 0%nat 1%nat). set (p02 := quad j 0%nat 2%nat). set (p11 := quad j 1%nat 1%nat). set (p12 := quad j 1%nat 2%nat). set (p22 := quad j 2%nat 2%nat).
    clearbody q00 q01 q02 q11 q12 q22 p00 p01 p02 p11 p12 p22.
    set (x := d a (j, n)). set (ri := / dist pos bx a (j, n)). set (c1 := cu a (j, n)). set (c2 := cdu a (j, n)). set (c3 := cw a (j, n)). set (c4 := cdw a (j, n)).
    clearbody x ri c1 c2 c3 c4. destruct x as [x1 x2 x3], z as [z1 z2 z3], m1 as [e1 e2 e3], m2 as [f1 f2 f3]. unfold co, sprod, vadd, vsub, vscale. cbn [vx vy vz]. ring.
Qed.
End Grad.
