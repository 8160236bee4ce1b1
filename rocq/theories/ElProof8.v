(** The energy as a function of the dipoles, and how far the dipoles of the routine are from self-consistency. *)
From Coq Require Import Reals ZArith List Bool Lia Lra.
From Verif Require Import Vec NbrModel NbrProof NbrProof2 NbrProof3 PairModel PairProof PairSpec PairProof2 PairProof3 BondProof BoProof EamSpec GradProof FuncModel FuncProof3 ElSpec ElModel ElProof3 ElProof7.
Import ListNotations.
Local Open Scope R_scope.

Lemma poly_deriv : forall x y z, derivable_pt_lim (fun t => x + (t * y + t * t * z)) 0 y.
Proof.
  intros x y z. apply (deriv_eq _ _ (0 + ((1 * y + 0 * 0) + ((1 * 0 + 0 * 1) * z + (0 * 0) * 0)))); [|ring].
  apply (derivable_pt_lim_plus (fun _ => x) (fun t => t * y + t * t * z)); [apply derivable_pt_lim_const|].
  apply (derivable_pt_lim_plus (fun t => t * y) (fun t => t * t * z)).
  - apply (derivable_pt_lim_mult (fun t => t) (fun _ => y)); [apply derivable_pt_lim_id|apply derivable_pt_lim_const].
  - apply (derivable_pt_lim_mult (fun t => t * t) (fun _ => z)); [|apply derivable_pt_lim_const]. apply (derivable_pt_lim_mult (fun t => t) (fun t => t)); apply derivable_pt_lim_id.
Qed.
(** dipole of atom [a] changed *)
Definition turned (p : nat -> vec) (a : nat) (w : vec) (t : R) (b : nat) : vec := if Nat.eqb b a then vadd (p b) (vscale t w) else p b.

Section Slope.
Variables (c : conf) (pos : nat -> vec) (bx : box) (rcut : nat -> nat -> R).
Hypothesis GEO : geometry c pos bx rcut.
Notation lo := (cnfstart c).
Notation hi := (cnfstart c + inconf c)%nat.
Variable L : nat -> list (nat * image).
Hypothesis HL : forall a, (lo <= a < hi)%nat -> all_neighbors c pos bx rcut a (L a).
Notation d i v := (dvec pos bx i v).
Notation r i v := (dist pos bx i v).
Variables (charge : nat -> R) (rc : R).
Variable g : R -> R.
Variable alpha : nat -> R.
Variables dpb dpc : nat -> nat -> R.
Hypothesis BS : forall s t, dpb s t = dpb t s.
Hypothesis CS : forall s t, dpc s t = dpc t s.
Variable p : nat -> vec.
Variables (a : nat) (w : vec).
Hypothesis Ha : (lo <= a < hi)%nat.
Hypothesis PA : alpha (typ c a) <> 0.
Notation M := (mom c alpha p).
Notation D i v := (damp c pos bx dpb dpc i v).
Notation WI := (within pos bx rc).
Definition del (b : nat) : R := if Nat.eqb b a then 1 else 0.
Lemma turned_mom : forall t b, mom c alpha (turned p a w t) b = vadd (M b) (vscale (t * del b) w).
Proof.
  intros t b. unfold mom, turned, del, zero. destruct (Nat.eqb_spec b a) as [->|N].
  - destruct (Req_EM_T (alpha (typ c a)) 0); [contradiction|]. vring.
  - destruct (Req_EM_T (alpha (typ c b)) 0); vring.
Qed.
Definition PA1 (i : nat) (v : nat * image) : R := if WI i v then
  - (charge (typ c (fst v)) * g (r i v) * (1 + D i v) * sprod w (d i v)) + g (r i v) * (3 * sprod w (d i v) * sprod (M (fst v)) (d i v) / (r i v * r i v) - sprod w (M (fst v))) else 0.
Definition PB1 (i : nat) (v : nat * image) : R := if WI i v then
  charge (typ c i) * g (r i v) * (1 + D i v) * sprod w (d i v) + g (r i v) * (3 * sprod w (d i v) * sprod (M i) (d i v) / (r i v * r i v) - sprod w (M i)) else 0.
Lemma pair_turn : forall i v, derivable_pt_lim (fun t => dip_pair c pos bx charge g rc alpha dpb dpc (turned p a w t) i v) 0 (del i * PA1 i v + del (fst v) * PB1 i v).
Proof.
  intros i v. unfold dip_pair, mixed_pair, dipole_pair, lever, PA1, PB1. destruct (WI i v).
  - apply (deriv_ext (fun t => dip_pair c pos bx charge g rc alpha dpb dpc p i v * 0 +
      (g (r i v) * (1 + D i v) * sprod (vsub (vscale (charge (typ c i)) (M (fst v))) (vscale (charge (typ c (fst v))) (M i))) (d i v) +
       g (r i v) * (3 * sprod (M i) (d i v) * sprod (M (fst v)) (d i v) / (r i v * r i v) - sprod (M i) (M (fst v)))) +
      (t * (del i * (- (charge (typ c (fst v)) * g (r i v) * (1 + D i v) * sprod w (d i v)) + g (r i v) * (3 * sprod w (d i v) * sprod (M (fst v)) (d i v) / (r i v * r i v) - sprod w (M (fst v)))) +
            del (fst v) * (charge (typ c i) * g (r i v) * (1 + D i v) * sprod w (d i v) + g (r i v) * (3 * sprod w (d i v) * sprod (M i) (d i v) / (r i v * r i v) - sprod w (M i)))) +
       t * t * (del i * del (fst v) * (g (r i v) * (3 * sprod w (d i v) * sprod w (d i v) / (r i v * r i v) - sprod w w)))))).
    + intros t. rewrite !turned_mom. unfold sprod, Rdiv. cbn [vadd vsub vscale vx vy vz]. ring.
    + apply poly_deriv.
  - apply (deriv_eq _ _ 0); [|ring]. apply (deriv_ext (fun _ => 0)); [intros; ring|apply derivable_pt_lim_const].
Qed.
Lemma PB_rev : forall j n, PB1 j (a, neg n) = PA1 a (j, n).
Proof.
  intros j n. unfold PA1, PB1. rewrite (within_neg pos bx rc a j n), (dd_neg pos bx a j n), (dist_sym pos bx a j n).
  assert (DE : D a (j, n) = D j (a, neg n)).
  { unfold damp, damped. cbn [fst]. rewrite (dist_sym pos bx a j n), (BS (typ c a) (typ c j)), (CS (typ c a) (typ c j)). auto. }
  rewrite DE. cbn [fst]. destruct (WI j (a, neg n)); auto. unfold sprod, Rdiv. cbn [vscale vx vy vz]. ring.
Qed.
Notation SF := (static_field c pos bx charge g rc L).
Notation DM := (damped_moment c pos bx charge g rc L alpha dpb dpc).
Notation DF := (dipole_field c pos bx g rc L alpha).
Lemma PA_sum : rsumf (PA1 a) (L a) = - sprod w (SF a) - sprod w (DM a) / alpha (typ c a) + sprod w (DF p a).
Proof.
  unfold static_field, damped_moment, dipole_field. rewrite !sprod_sum.
  set (G1 := fun v => sprod w (if WI a v then vscale (charge (typ c (fst v)) * g (r a v)) (d a v) else v0)).
  set (G2 := fun v => sprod w (if WI a v then vscale (alpha (typ c a) * D a v * (charge (typ c (fst v)) * g (r a v))) (d a v) else v0)).
  set (G3 := fun v => sprod w (if WI a v then vscale (g (r a v)) (vsub (vscale (3 * sprod (M (fst v)) (d a v) / (r a v * r a v)) (d a v)) (M (fst v))) else v0)).
  rewrite (rsumf_ext (PA1 a) (fun v => -1 * G1 v + - / alpha (typ c a) * G2 v + G3 v)).
  - rewrite !rsumf_plus, !rsumf_scale. unfold Rdiv. ring.
  - intros v _. unfold PA1, G1, G2, G3. destruct (WI a v); [|rewrite sprod_0; ring]. unfold sprod, Rdiv. cbn [vadd vsub vscale vx vy vz]. set (ir := / (r a v * r a v)). clearbody ir. field. exact PA.
Qed.
Theorem dip_energy_turn : derivable_pt_lim (fun t => dip_energy c pos bx charge g rc L alpha dpb dpc (turned p a w t)) 0 (- sprod w (SF a) - sprod w (DM a) / alpha (typ c a) + sprod w (DF p a)).
Proof.
  apply (deriv_eq _ _ (1/2 * rsumf (fun i => rsumf (fun v => del i * PA1 i v + del (fst v) * PB1 i v) (L i)) (seq lo (inconf c)))).
  - unfold dip_energy. apply (derivable_pt_lim_scal (fun t => rsumf (fun i => rsumf (dip_pair c pos bx charge g rc alpha dpb dpc (turned p a w t) i) (L i)) (seq lo (inconf c)))).
    apply (deriv_sum _ (fun i t => rsumf (dip_pair c pos bx charge g rc alpha dpb dpc (turned p a w t) i) (L i))). intros i Hi.
    apply (deriv_sum _ (fun v t => dip_pair c pos bx charge g rc alpha dpb dpc (turned p a w t) i v)). intros v Hv. apply pair_turn.
  - rewrite <- PA_sum.
    assert (S1 : rsumf (fun i => rsumf (fun v => del i * PA1 i v) (L i)) (seq lo (inconf c)) = rsumf (PA1 a) (L a)).
    { rewrite (rsumf_ext _ (fun i => if Nat.eqb i a then rsumf (PA1 i) (L i) else 0)).
      - rewrite pick; [auto|apply seq_NoDup|apply in_seq; lia].
      - intros i _. rewrite rsumf_scale. unfold del. destruct (Nat.eqb i a); ring. }
    assert (S2 : rsumf (fun i => rsumf (fun v => del i * PB1 i v) (L i)) (seq lo (inconf c)) = rsumf (PB1 a) (L a)).
    { rewrite (rsumf_ext _ (fun i => if Nat.eqb i a then rsumf (PB1 i) (L i) else 0)).
      - rewrite pick; [auto|apply seq_NoDup|apply in_seq; lia].
      - intros i _. rewrite rsumf_scale. unfold del. destruct (Nat.eqb i a); ring. }
    pose proof (kap_sum c pos bx rcut GEO L HL a Ha PB1) as K. unfold kap in K.
    rewrite (rsumf_ext _ (fun i => rsumf (fun v => del (fst v) * PB1 i v) (L i) + -1 * rsumf (fun v => del i * PB1 i v) (L i))) in K.
    + rewrite rsumf_plus, rsumf_scale, S2 in K.
      rewrite (rsumf_ext (fun v => PB1 (fst v) (a, neg (snd v)) - PB1 a v) (fun v => PA1 a v + -1 * PB1 a v)) in K.
      * rewrite rsumf_plus, rsumf_scale in K.
        rewrite (rsumf_ext _ (fun i => rsumf (fun v => del i * PA1 i v) (L i) + rsumf (fun v => del (fst v) * PB1 i v) (L i))) by (intros; apply rsumf_plus).
        rewrite rsumf_plus, S1. lra.
      * intros [j n] _. cbn [fst snd]. rewrite PB_rev. ring.
    + intros i _. rewrite <- rsumf_scale, <- rsumf_plus. apply rsumf_ext. intros v _. unfold del. ring.
Qed.
Theorem dip_self_turn : derivable_pt_lim (fun t => dip_self c alpha (turned p a w t)) 0 (sprod w (p a) / alpha (typ c a)).
Proof.
  unfold dip_self.
  apply (deriv_eq _ _ (rsumf (fun i => if Nat.eqb i a then sprod w (p a) / alpha (typ c a) else 0) (seq lo (inconf c)))).
  - apply (deriv_sum _ (fun i t => if zero (alpha (typ c i)) then 0 else sprod (turned p a w t i) (turned p a w t i) / (2 * alpha (typ c i)))). intros i _.
    unfold turned, zero. destruct (Nat.eqb_spec i a) as [->|N].
    + destruct (Req_EM_T (alpha (typ c a)) 0); [contradiction|].
      apply (deriv_ext (fun t => sprod (p a) (p a) / (2 * alpha (typ c a)) + (t * (sprod w (p a) / alpha (typ c a)) + t * t * (sprod w w / (2 * alpha (typ c a)))))).
      * intros t. unfold sprod. cbn [vadd vscale vx vy vz]. field. auto.
      * apply poly_deriv.
    + destruct (Req_EM_T (alpha (typ c i)) 0); apply derivable_pt_lim_const.
  - rewrite pick; [auto|apply seq_NoDup|apply in_seq; lia].
Qed.
(** slope of the energy in the dipole of atom a *)
Theorem dip_slope : derivable_pt_lim (fun t => dip_energy c pos bx charge g rc L alpha dpb dpc (turned p a w t) + dip_self c alpha (turned p a w t)) 0
  (sprod w (vsub (p a) (moment_of c pos bx charge g rc L alpha dpb dpc (fun b => vscale (-1) (DF p b)) a)) / alpha (typ c a)).
Proof.
  eapply deriv_eq; [apply (derivable_pt_lim_plus _ _ _ _ _ dip_energy_turn dip_self_turn)|].
  unfold moment_of. unfold sprod. cbn [vadd vsub vscale vx vy vz]. field. auto.
Qed.
(** dipoles that agree with the fields of the routine *)
Theorem dip_slope_fixed : p a = moment_of c pos bx charge g rc L alpha dpb dpc (DF p) a ->
  derivable_pt_lim (fun t => dip_energy c pos bx charge g rc L alpha dpb dpc (turned p a w t) + dip_self c alpha (turned p a w t)) 0 (2 * sprod w (DF p a)).
Proof.
  intros E. eapply deriv_eq; [apply dip_slope|]. rewrite E. unfold moment_of. unfold sprod. cbn [vadd vsub vscale vx vy vz]. field. auto.
Qed.
End Slope.

(** root mean square deviation of dipoles from those their own fields induce *)
Definition inconsistency (c : conf) (pos : nat -> vec) (bx : box) (charge : nat -> R) (g : R -> R) (rc : R) (L : nat -> list (nat * image)) (alpha : nat -> R) (dpb dpc : nat -> nat -> R) (p : nat -> vec) : R :=
  sqrt (rsumf (fun a => if zero (alpha (typ c a)) then 0 else
      sqv (vsub (p a) (moment_of c pos bx charge g rc L alpha dpb dpc (dipole_field c pos bx g rc L alpha p) a))) (seq (cnfstart c) (inconf c)) / (3 * INR (inconf c))).
Theorem step_inconsistency : forall c pos bx charge g rc L alpha dpb dpc mix e0 k, (k = 0%nat \/ mix = 0) ->
  inconsistency c pos bx charge g rc L alpha dpb dpc (step_moment c pos bx charge g rc L alpha dpb dpc mix e0 k) = step_change c pos bx charge g rc L alpha dpb dpc mix e0 k.
Proof.
  intros c pos bx charge g rc L alpha dpb dpc mix e0 k H. unfold inconsistency, step_change. do 2 f_equal. apply rsumf_ext. intros a _. destruct (zero (alpha (typ c a))); auto.
  f_equal. cbn [iterate fst]. unfold step_moment. set (X := dipole_field _ _ _ _ _ _ _ _). clearbody X. unfold moment_of, mixed. destruct H as [-> | ->].
  - cbn [iterate fst]. vring.
  - destruct k; vring.
Qed.
