(** Forces of charges and dipoles are the negative gradient of the energy. *)
From Coq Require Import Reals ZArith List Bool Lia Lra.
From Verif Require Import Vec NbrModel NbrProof NbrProof2 NbrProof3 PairModel PairProof PairSpec PairProof2 PairProof3 BondProof BoProof EamSpec GradProof FuncModel FuncProof3 ElSpec ElModel ElProof3.
Import ListNotations.
Local Open Scope R_scope.

Definition cutf (rc : R) (f : R -> R) (x : R) : R := if Rlt_dec x rc then f x else 0.
(** functions that vanish with their slope at the cutoff may be cut off there *)
Lemma cutf_deriv : forall rc f f' x, derivable_pt_lim f x f' -> (x = rc -> f rc = 0 /\ f' = 0) -> derivable_pt_lim (cutf rc f) x (if Rlt_dec x rc then f' else 0).
Proof.
  intros rc f f' x D Z. destruct (Rtotal_order x rc) as [LT|[EQ|GT]].
  - destruct (Rlt_dec x rc); [|lra]. intros e He. destruct (D e He) as [dl Hd].
    assert (M : 0 < Rmin dl (rc - x)) by (apply Rmin_pos; [apply cond_pos|lra]). exists (mkposreal _ M). intros h H0 H1. cbn [pos] in H1.
    unfold cutf. destruct (Rlt_dec x rc); [|lra]. assert (A1 : Rabs h < dl) by (eapply Rlt_le_trans; [exact H1|apply Rmin_l]). assert (A2 : Rabs h < rc - x) by (eapply Rlt_le_trans; [exact H1|apply Rmin_r]).
    apply Rabs_def2 in A2. destruct (Rlt_dec (x + h) rc); [|lra]. apply Hd; auto.
  - subst x. destruct (Z eq_refl) as [F0 ->]. destruct (Rlt_dec rc rc); [lra|]. intros e He. destruct (D e He) as [dl Hd]. exists dl. intros h H0 H1. specialize (Hd h H0 H1).
    unfold cutf. destruct (Rlt_dec rc rc); [lra|]. destruct (Rlt_dec (rc + h) rc).
    + rewrite F0 in Hd. exact Hd.
    + unfold Rdiv. rewrite !Rminus_0_r, Rmult_0_l, Rabs_R0. auto.
  - destruct (Rlt_dec x rc); [lra|]. intros e He. assert (M : 0 < x - rc) by lra. exists (mkposreal _ M). intros h H0 H1. cbn [pos] in H1. apply Rabs_def2 in H1.
    unfold cutf. destruct (Rlt_dec x rc); [lra|]. destruct (Rlt_dec (x + h) rc); [lra|]. unfold Rdiv. rewrite !Rminus_0_r, Rmult_0_l, Rabs_R0. auto.
Qed.

Lemma sprod_comm : forall x y, sprod x y = sprod y x.
Proof. intros. unfold sprod. ring. Qed.
Section Grad.
Variables (c : conf) (pos : nat -> vec) (bx : box) (rcut : nat -> nat -> R).
Hypothesis GEO : geometry c pos bx rcut.
Notation lo := (cnfstart c).
Notation hi := (cnfstart c + inconf c)%nat.
Variable L : nat -> list (nat * image).
Hypothesis HL : forall a, (lo <= a < hi)%nat -> all_neighbors c pos bx rcut a (L a).
Variables (a : nat) (u : vec).
Hypothesis Ha : (lo <= a < hi)%nat.
Notation mv t := (moved pos a u t).
Notation kapa := (kap a).
Notation drz := (dr pos bx u).
Notation d i v := (dvec pos bx i v).
Notation r i v := (dist pos bx i v).
Variables (charge : nat -> R) (rc : R).

(** ** charges: a pair potential *)
Variables f g h : R -> R.
Notation cphi := (fun s t x => charge s * charge t * f x).
Notation cdphi := (fun s t x => charge s * charge t * (x * g x)).
Notation cin := (fun (_ _ : nat) x => if Rlt_dec x rc then true else false).
Lemma coulomb_is_pair : forall q, coulomb_energy c q bx charge f rc L = pair_energy c q bx cphi cin L.
Proof.
  intros q. reflexivity.
Qed.
Lemma coulomb_bond_is_pair : forall i v, (lo <= i < hi)%nat -> In v (L i) -> coulomb_bond c pos bx charge g rc i v = bond_force c pos bx cdphi cin i v.
Proof.
  intros i v Hi Hv. unfold coulomb_bond, within, bond_force, active. pose proof (no_overlap c pos bx rcut GEO L HL i v Hi Hv) as NO.
  assert (RN : r i v <> 0) by (intros Z; apply NO; apply norm_0; exact Z).
  destruct (Rlt_dec (r i v) rc); auto. apply vec_eq; simpl; field; auto.
Qed.
Lemma coulomb_force_is_pair : forall i, (lo <= i < hi)%nat -> coulomb_force c pos bx charge g rc L i = pair_force c pos bx cdphi cin L i.
Proof. intros i Hi. unfold coulomb_force, pair_force. apply EamProof3.vsum_ext. intros v V. apply coulomb_bond_is_pair; auto. Qed.
Lemma coulomb_virial_is_pair : forall k, coulomb_virial c pos bx charge g rc L k = pair_virial c pos bx cdphi cin L k.
Proof.
  intros k. unfold coulomb_virial, pair_virial. do 2 f_equal. apply rsumf_ext. intros i Hi. apply in_seq in Hi. apply rsumf_ext. intros v V. rewrite coulomb_bond_is_pair; auto; lia.
Qed.
(** the functions, cut off, are differentiable where they are used *)
Hypothesis HF : forall i v, (lo <= i < hi)%nat -> In v (L i) -> derivable_pt_lim (cutf rc f) (r i v) (cutf rc (fun x => x * g x) (r i v)).
Theorem coulomb_gradient : derivable_pt_lim (fun t => coulomb_energy c (mv t) bx charge f rc L) 0 (- sprod u (coulomb_force c pos bx charge g rc L a)).
Proof.
  apply (deriv_ext (fun t => pair_energy c (mv t) bx cphi cin L)); [intros t; symmetry; apply coulomb_is_pair|]. rewrite coulomb_force_is_pair by auto.
  apply (pair_gradient c pos bx rcut GEO L HL a u Ha cphi cdphi cin).
  - intros. ring.
  - auto.
  - intros i v Hi Hv. apply (deriv_ext (fun x => charge (typ c i) * charge (typ c (fst v)) * cutf rc f x)).
    { intros x. unfold cutf. destruct (Rlt_dec x rc); ring. }
    apply (deriv_eq _ _ (charge (typ c i) * charge (typ c (fst v)) * cutf rc (fun x => x * g x) (r i v))).
    + apply derivable_pt_lim_scal. apply HF; auto.
    + unfold cutf. destruct (Rlt_dec (r i v) rc); ring.
Qed.

(** ** dipoles *)
Variable alpha : nat -> R.
Variables dpb dpc : nat -> nat -> R.
Hypothesis BS : forall s t, dpb s t = dpb t s.
Hypothesis CS : forall s t, dpc s t = dpc t s.
Variable p : nat -> vec.
Hypothesis HG : forall i v, (lo <= i < hi)%nat -> In v (L i) -> derivable_pt_lim (cutf rc g) (r i v) (cutf rc (fun x => x * h x) (r i v)).
Notation M := (mom c alpha p).
Notation lev := (lever c charge alpha p).
Lemma sprod_deriv : forall w i v, derivable_pt_lim (fun t => sprod w (dvec (mv t) bx i v)) 0 (kapa i v * sprod w u).
Proof.
  intros w i v. apply (deriv_ext (fun t => sprod w (d i v) + t * (kapa i v * sprod w u))).
  - intros t. rewrite moved_dvec. unfold sprod. cbn [vadd vscale vx vy vz]. ring.
  - apply (deriv_eq _ _ (0 + (1 * (kapa i v * sprod w u) + 0 * 0))); [|ring].
    apply (derivable_pt_lim_plus (fun _ => sprod w (d i v))); [apply derivable_pt_lim_const|].
    apply (derivable_pt_lim_mult (fun t => t) (fun _ => kapa i v * sprod w u)); [apply derivable_pt_lim_id|apply derivable_pt_lim_const].
Qed.
Lemma r_pos : forall i v, (lo <= i < hi)%nat -> In v (L i) -> 0 < r i v.
Proof.
  intros i v Hi Hv. pose proof (no_overlap c pos bx rcut GEO L HL i v Hi Hv) as NO. unfold dist, norm. apply sqrt_lt_R0. apply norm_pos. auto.
Qed.
Definition dampf (i : nat) (v : nat * image) (x : R) : R := if damped c dpb dpc i v then fst (shortrange_term x (dpb (typ c i) (typ c (fst v))) (dpc (typ c i) (typ c (fst v)))) else 0.
Lemma dampf_deriv : forall i v, (lo <= i < hi)%nat -> In v (L i) -> derivable_pt_lim (dampf i v) (r i v) (r i v * ddamp c pos bx dpb dpc i v).
Proof.
  intros i v Hi Hv. unfold dampf, ddamp. destruct (damped c dpb dpc i v).
  - apply shortrange_deriv. apply r_pos; auto.
  - apply (deriv_eq _ _ 0); [apply derivable_pt_lim_const|ring].
Qed.
Notation G i v := (cutf rc g (r i v)).
Notation H i v := (cutf rc h (r i v)).
Notation D i v := (damp c pos bx dpb dpc i v).
Notation D' i v := (ddamp c pos bx dpb dpc i v).
Lemma mixed_deriv : forall i v, (lo <= i < hi)%nat -> In v (L i) ->
  derivable_pt_lim (fun t => mixed_pair c (mv t) bx charge g rc alpha dpb dpc p i v) 0 (kapa i v * sprod u (mixed_bond c pos bx charge g h rc alpha dpb dpc p i v)).
Proof.
  intros i v Hi Hv. pose proof (r_pos i v Hi Hv) as RP.
  apply (deriv_ext (fun t => (cutf rc g (dist (mv t) bx i v) * (1 + dampf i v (dist (mv t) bx i v))) * sprod (lev i v) (dvec (mv t) bx i v))).
  { intros t. unfold mixed_pair, within, cutf, damp, dampf. destruct (Rlt_dec _ _); [auto|ring]. }
  assert (A : derivable_pt_lim (fun x => cutf rc g x * (1 + dampf i v x)) (r i v) (cutf rc (fun x => x * h x) (r i v) * (1 + dampf i v (r i v)) + cutf rc g (r i v) * (0 + r i v * D' i v))).
  { apply (derivable_pt_lim_mult (cutf rc g) (fun x => 1 + dampf i v x)); [apply HG; auto|].
    apply (derivable_pt_lim_plus (fun _ => 1) (dampf i v)); [apply derivable_pt_lim_const|apply dampf_deriv; auto]. }
  pose proof (bond_deriv c pos bx rcut GEO L HL a u _ _ i v Hi Hv A) as B.
  eapply deriv_eq.
  - apply (derivable_pt_lim_mult (fun t => cutf rc g (dist (mv t) bx i v) * (1 + dampf i v (dist (mv t) bx i v))) (fun t => sprod (lev i v) (dvec (mv t) bx i v)) 0 _ _ B (sprod_deriv (lev i v) i v)).
  - rewrite moved_0, moved_dist0. unfold mixed_bond, within, cutf, dr. change (dampf i v (r i v)) with (D i v).
    destruct (Rlt_dec (r i v) rc); [|rewrite sprod_0; unfold Rdiv; ring]. rewrite sprod_add, !sprod_scale. rewrite (sprod_comm u (lev i v)). field. lra.
Qed.
Lemma two_deriv : forall i v, (lo <= i < hi)%nat -> In v (L i) ->
  derivable_pt_lim (fun t => dipole_pair c (mv t) bx g rc alpha p i v) 0 (kapa i v * sprod u (dipole_bond c pos bx g h rc alpha p i v)).
Proof.
  intros i v Hi Hv. pose proof (r_pos i v Hi Hv) as RP. set (s := M i). set (w := M (fst v)).
  apply (deriv_ext (fun t => (cutf rc g (dist (mv t) bx i v) * (3 * / (dist (mv t) bx i v * dist (mv t) bx i v))) * (sprod s (dvec (mv t) bx i v) * sprod w (dvec (mv t) bx i v)) - sprod s w * cutf rc g (dist (mv t) bx i v))).
  { intros t. unfold dipole_pair, within, cutf. fold s w. destruct (Rlt_dec _ _); unfold Rdiv; ring. }
  assert (A : derivable_pt_lim (fun x => cutf rc g x * (3 * / (x * x))) (r i v) (cutf rc (fun x => x * h x) (r i v) * (3 * / (r i v * r i v)) + cutf rc g (r i v) * ((0 * (r i v * r i v) - (1 * r i v + r i v * 1) * 3) / Rsqr (r i v * r i v)))).
  { apply (derivable_pt_lim_mult (cutf rc g) (fun x => 3 * / (x * x))); [apply HG; auto|].
    apply (derivable_pt_lim_div (fun _ => 3) (fun x => x * x)).
    - apply derivable_pt_lim_const.
    - apply (derivable_pt_lim_mult (fun x => x) (fun x => x)); apply derivable_pt_lim_id.
    - intros Z. assert (0 < r i v * r i v) by (apply Rmult_lt_0_compat; auto). lra. }
  pose proof (bond_deriv c pos bx rcut GEO L HL a u _ _ i v Hi Hv A) as B.
  pose proof (bond_deriv c pos bx rcut GEO L HL a u _ _ i v Hi Hv (HG i v Hi Hv)) as B2.
  eapply deriv_eq.
  - apply (derivable_pt_lim_minus (fun t => (cutf rc g (dist (mv t) bx i v) * (3 * / (dist (mv t) bx i v * dist (mv t) bx i v))) * (sprod s (dvec (mv t) bx i v) * sprod w (dvec (mv t) bx i v)))
      (fun t => sprod s w * cutf rc g (dist (mv t) bx i v))).
    + apply (derivable_pt_lim_mult (fun t => cutf rc g (dist (mv t) bx i v) * (3 * / (dist (mv t) bx i v * dist (mv t) bx i v))) (fun t => sprod s (dvec (mv t) bx i v) * sprod w (dvec (mv t) bx i v)) 0 _ _ B
      (derivable_pt_lim_mult (fun t => sprod s (dvec (mv t) bx i v)) (fun t => sprod w (dvec (mv t) bx i v)) 0 _ _ (sprod_deriv s i v) (sprod_deriv w i v))).
    + apply derivable_pt_lim_scal. exact B2.
  - rewrite moved_0, moved_dist0. unfold dipole_bond, within, cutf, dr. fold s w. cbv zeta.
    destruct (Rlt_dec (r i v) rc); [|rewrite sprod_0; unfold Rdiv; ring]. rewrite sprod_add, !sprod_scale, sprod_add, !sprod_scale. rewrite (sprod_comm u s), (sprod_comm u w), (sprod_comm u (d i v)). unfold Rsqr. field. lra.
Qed.
Theorem dip_gradient : derivable_pt_lim (fun t => dip_energy c (mv t) bx charge g rc L alpha dpb dpc p) 0 (- sprod u (dip_force c pos bx charge g h rc L alpha dpb dpc p a)).
Proof.
  apply (deriv_eq _ _ (1/2 * rsumf (fun i => rsumf (fun v => kapa i v * sprod u (dip_bond c pos bx charge g h rc alpha dpb dpc p i v)) (L i)) (seq lo (inconf c)))).
  - unfold dip_energy. apply (derivable_pt_lim_scal (fun t => rsumf (fun i => rsumf (dip_pair c (mv t) bx charge g rc alpha dpb dpc p i) (L i)) (seq lo (inconf c)))).
    apply (deriv_sum _ (fun i t => rsumf (dip_pair c (mv t) bx charge g rc alpha dpb dpc p i) (L i))). intros i Hi. apply in_seq in Hi.
    apply (deriv_sum _ (fun v t => dip_pair c (mv t) bx charge g rc alpha dpb dpc p i v)). intros v Hv. unfold dip_pair.
    eapply deriv_eq; [apply (derivable_pt_lim_plus _ _ _ _ _ (mixed_deriv i v ltac:(lia) Hv) (two_deriv i v ltac:(lia) Hv))|].
    unfold dip_bond. rewrite sprod_add. ring.
  - rewrite (kap_sum c pos bx rcut GEO L HL a Ha (fun i v => sprod u (dip_bond c pos bx charge g h rc alpha dpb dpc p i v))). unfold dip_force. rewrite sprod_vsum.
    rewrite (rsumf_ext _ (fun v => -2 * sprod u (dip_bond c pos bx charge g h rc alpha dpb dpc p a v))).
    + rewrite rsumf_scale. field.
    + intros [j n] _. cbn [fst snd]. rewrite (XB_neg c pos bx charge alpha dpb dpc BS CS g h rc p a j n), sprod_scale. ring.
Qed.
End Grad.
