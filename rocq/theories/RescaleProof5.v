(** Rescaling leaves energies unchanged, for cubic embedding functions and common grids. *)
From Coq Require Import Reals ZArith List Bool Lia Lra.
From Verif Require Import Vec NbrModel NbrProof NbrProof2 NbrProof3 LoopUtil PairModel PairProof PairSpec PairProof2 PairProof3 ForceLoop BondProof
  EamModel EamProof EamSpec EamProof2 EamProof3 SplineModel SplineProof SplineProof2 RescaleModel RescaleSpec RescaleProof RescaleProof2 RescaleProof3 RescaleProof4.
Import ListNotations.
Local Open Scope R_scope.

Lemma bonds_reverse : forall c pos b rcut, geometry c pos b rcut -> forall L,
  (forall a, (cnfstart c <= a < cnfstart c + inconf c)%nat -> all_neighbors c pos b rcut a (L a)) -> forall G : nat -> nat * image -> R,
  rsumf (fun a => rsumf (G a) (L a)) (seq (cnfstart c) (inconf c)) =
  rsumf (fun a => rsumf (fun v => G (fst v) (a, neg (snd v))) (L a)) (seq (cnfstart c) (inconf c)).
Proof.
  intros c pos b rcut GEO L HL G. destruct (nb_half c pos b rcut GEO) as (scale & NB & AN).
  assert (E : forall H : nat -> nat * image -> R, rsumf (fun a => rsumf (H a) (L a)) (seq (cnfstart c) (inconf c)) =
    rsumf (fun a => rsumf (H a) (all_bonds (cnfstart c) (inconf c) pos (typ c) b rcut scale a)) (seq (cnfstart c) (inconf c))).
  { intros H. apply rsumf_ext. intros a Ha. apply in_seq in Ha. apply rsumf_perm. apply (all_neighbors_perm c pos b rcut a); [apply HL; lia|apply AN; lia]. }
  rewrite (E G), (E (fun a v => G (fst v) (a, neg (snd v)))).
  exact (reverse_total (cnfstart c) (inconf c) pos (typ c) b rcut scale (geo_sym _ _ _ _ GEO) G).
Qed.

Section Main.
Variables (fmt3 : bool) (p0 : pot) (nt : nat) (a : R) (lo hi : nat -> R).
Let p := init fmt3 p0.
Let p' := update fmt3 p true a lo hi.
Let P' := init fmt3 p'.
Variables c0 c1 c2 c3 : nat -> R.
(** columns of one layout; transfer functions that end with 0; pair functions on the grid of
    the transfer functions; cubic embedding functions; end slopes that stay slopes *)
Record nice : Prop := {
  n_tr : forall t, (t < nt)%nat -> ok fmt3 (tr p0 t) /\ sane (sl (tr p0 t)) /\ (sl (tr p0 t) < E29 -> sl (tr p0 t) * a <= NATURAL) /\
    vals (tr p0 t) (npts (tr p0 t) - 1)%nat = 0;
  n_ph : forall s t, (s <= t < nt)%nat -> ok fmt3 (ph p0 s t) /\ same_grid (ph p0 s t) (tr p0 s) /\ same_grid (ph p0 s t) (tr p0 t) /\
    ((sl (ph p0 s t) < E29 /\ sl (ph p' s t) <= NATURAL) \/
     (E30 <= sl (ph p0 s t) /\ E30 <= sl (tr p0 s) /\ E30 <= sl (tr p0 t)));
  n_em : forall t, (t < nt)%nat -> ok fmt3 (em p0 t) /\ cubic_column (em p0 t) (c0 t) (c1 t) (c2 t) (c3 t) /\ lo t < hi t /\
    forall u, u = lo t \/ u = (lo t + hi t) / 2 \/ u = hi t ->
      Rabs (cub1 (c1 t) (c2 t) (c3 t) u) < E29 / 2 /\ Rabs (cub1 (c1 t) (c2 t) (c3 t) u / a) < E29 / 2 }.
Hypothesis NICE : nice.
Hypothesis A : 0 < a.
Definition lamt (t : nat) : R := lambda fmt3 (spl fmt3 true (scaled_em true a (lo t) (hi t) (resampled (em p t) (lo t) (hi t)))).

Lemma tr_new : forall t, (t < nt)%nat -> forall r, begin (col (tr p0 t)) <= r < endr (col (tr p0 t)) ->
  or0 (ev fmt3 (tr P' t) r) = a * or0 (ev fmt3 (tr p t) r).
Proof.
  intros t T r Hr. destruct (n_tr NICE t T) as (O & S & M & _).
  destruct (scaled_eval fmt3 a (tr p0 t) O S M (tr P' t) (or_intror eq_refl) r Hr) as (v & d & V & _ & V' & _).
  change (tr p t) with (spl fmt3 false (tr p0 t)). rewrite V, V'. auto.
Qed.
Lemma vals_last_scaled : forall t, (t < nt)%nat -> vals (tr p' t) (npts (tr p' t) - 1)%nat = 0.
Proof.
  intros t T. destruct (n_tr NICE t T) as (O & S & M & Z). change (npts (tr p' t)) with (npts (tr p0 t)).
  change (vals (tr p' t) (npts (tr p0 t) - 1)%nat) with (vals (scaled_tr a (spl fmt3 false (tr p0 t))) (npts (tr p0 t) - 1)%nat).
  pose proof (ok_n2 fmt3 _ O). rewrite (scaled_vals fmt3 a (tr p0 t) O) by (change (npts (spl fmt3 false (tr p0 t))) with (npts (tr p0 t)); lia).
  change (vals (spl fmt3 false (tr p0 t))) with (vals (tr p0 t)). rewrite Z. ring.
Qed.
Lemma ph_new : forall s t, (s <= t < nt)%nat -> forall r, begin (col (ph p0 s t)) <= r < endr (col (ph p0 s t)) ->
  or0 (ev fmt3 (ph P' s t) r) = or0 (ev fmt3 (ph p s t) r) + lamt s * or0 (ev fmt3 (tr P' t) r) + lamt t * or0 (ev fmt3 (tr P' s) r).
Proof.
  intros s t ST r Hr. destruct (n_ph NICE s t ST) as (O & GS & GT & EN). destruct E29_NATURAL as (E1 & E2 & E3).
  destruct (n_tr NICE s ltac:(lia)) as (OS & SS & MS & _). destruct (n_tr NICE t ltac:(lia)) as (OT & ST' & MT & _).
  destruct (same_begin fmt3 _ _ O OS GS) as [BS ES]. destruct (same_begin fmt3 _ _ O OT GT) as [BT ET].
  assert (TN : forall q, (q < nt)%nat -> E30 <= sl (tr p0 q) -> NATURAL < sl (tr p' q)).
  { intros q Q H. change (NATURAL < sl (scaled_tr a (spl fmt3 false (tr p0 q)))). unfold scaled_tr. cbn [sl]. change (sl (spl fmt3 false (tr p0 q))) with (sl (tr p0 q)).
    destruct (Rlt_dec (sl (tr p0 q)) E30); lra. }
  destruct (gauge_eval fmt3 (lamt s) (lamt t) (tr p' s) (tr p' t) (ph p0 s t) O OS OT
    (spl_solved fmt3 false (scaled_tr a (spl fmt3 false (tr p0 s))) OS) (spl_solved fmt3 false (scaled_tr a (spl fmt3 false (tr p0 t))) OT) GS GT
    (vals_last_scaled s ltac:(lia)) (vals_last_scaled t ltac:(lia))) with (h := ph P' s t) (r := r) as (v & d & vs & ds & vt & dt & V & _ & VS & _ & VT & _ & VH & _); auto.
  { destruct EN as [(U1 & U2)|(U1 & U2 & U3)]; [left; auto|right; split; [lra|split; apply TN; auto; lia]]. }
  destruct (scaled_eval fmt3 a (tr p0 s) OS SS MS (tr P' s) (or_intror eq_refl) r ltac:(lra)) as (w1 & x1 & W1 & _ & W1' & _).
  destruct (scaled_eval fmt3 a (tr p0 s) OS SS MS (tr p' s) (or_introl eq_refl) r ltac:(lra)) as (y1 & z1 & Y1 & _ & Y1' & _).
  destruct (scaled_eval fmt3 a (tr p0 t) OT ST' MT (tr P' t) (or_intror eq_refl) r ltac:(lra)) as (w2 & x2 & W2 & _ & W2' & _).
  destruct (scaled_eval fmt3 a (tr p0 t) OT ST' MT (tr p' t) (or_introl eq_refl) r ltac:(lra)) as (y2 & z2 & Y2 & _ & Y2' & _).
  rewrite W1 in Y1. injection Y1 as <-. rewrite W2 in Y2. injection Y2 as <-. rewrite Y1' in VS. injection VS as <-. rewrite Y2' in VT. injection VT as <-.
  rewrite VH, W1', W2'. change (ph p s t) with (spl fmt3 false (ph p0 s t)). rewrite V. cbn [or0]. ring.
Qed.
Lemma em_new : forall t, (t < nt)%nat -> forall u, lo t <= u < hi t -> begin (col (em p0 t)) <= u < endr (col (em p0 t)) ->
  or0 (ev fmt3 (em P' t) (a * u)) = or0 (ev fmt3 (em p t) u) - lamt t * (a * u).
Proof.
  intros t T u HU HB. destruct (n_em NICE t T) as (O & C & LH & SM).
  destruct (embed_cubic fmt3 a (lo t) (hi t) (em p0 t) O A LH (c0 t) (c1 t) (c2 t) (c3 t) C SM) as (_ & _ & _ & G).
  destruct (G u HU) as [G1 _]. destruct (f_eval fmt3 (em p0 t) O (c0 t) (c1 t) (c2 t) (c3 t) C) as (_ & F).
  destruct (F u HB) as [F1 _]. change (em p t) with (spl fmt3 true (em p0 t)). rewrite F1.
  change (em P' t) with (gauged fmt3 a (lo t) (hi t) (em p0 t) (lam fmt3 a (lo t) (hi t) (em p0 t))). rewrite G1. cbn [or0]. reflexivity.
Qed.

Section Conf.
Variables (c : conf) (pos : nat -> vec) (bx : box) (rcut : nat -> nat -> R).
Hypothesis GEO : geometry c pos bx rcut.
Notation clo := (cnfstart c).
Notation chi := (cnfstart c + inconf c)%nat.
Variable L : nat -> list (nat * image).
Hypothesis HL : forall x, (clo <= x < chi)%nat -> all_neighbors c pos bx rcut x (L x).
Hypothesis TYPES : forall x, (clo <= x < chi)%nat -> (typ c x < nt)%nat.
(** no distance below the tables *)
Hypothesis FAR : forall x v t, (clo <= x < chi)%nat -> In v (L x) -> (t < nt)%nat -> begin (col (tr p0 t)) <= dist pos bx x v.
Lemma nb_in : forall x v, (clo <= x < chi)%nat -> In v (L x) -> (clo <= fst v < chi)%nat.
Proof. intros x [j n] Hx Hv. destruct (HL x Hx) as (_ & I). apply I in Hv. simpl. tauto. Qed.

Definition rho_new (t : nat) (r : R) : R := if reach_of P' 0 t r then dens_of fmt3 P' 0 t r else 0.
Lemma rho_scaled : forall x v t, (clo <= x < chi)%nat -> In v (L x) -> (t < nt)%nat ->
  rho_new t (dist pos bx x v) = a * (if reach_of p 0 t (dist pos bx x v) then dens_of fmt3 p 0 t (dist pos bx x v) else 0).
Proof.
  intros x v t Hx Hv T. unfold rho_new, reach_of, dens_of, below_end. change (endr (col (tr P' t))) with (endr (col (tr p0 t))).
  change (endr (col (tr p t))) with (endr (col (tr p0 t))). destruct (Rlt_dec (dist pos bx x v) (endr (col (tr p0 t)))); [|ring].
  apply tr_new; auto.
Qed.
Lemma density_new : forall x, (clo <= x < chi)%nat ->
  density c pos bx (dens_of fmt3 P') (reach_of P') L 0 x = a * density c pos bx (dens_of fmt3 p) (reach_of p) L 0 x.
Proof.
  intros x Hx. unfold density. rewrite <- rsumf_scale. apply rsumf_ext. intros v Hv.
  exact (rho_scaled x v (typ c (fst v)) Hx Hv (TYPES _ (nb_in x v Hx Hv))).
Qed.
Lemma bond_new : forall x v, (clo <= x < chi)%nat -> In v (L x) ->
  bond_energy c pos bx (phi_of fmt3 P') (range_of P') x v = bond_energy c pos bx (phi_of fmt3 p) (range_of p) x v +
  (lamt (typ c x) * rho_new (typ c (fst v)) (dist pos bx x v) + lamt (typ c (fst v)) * rho_new (typ c x) (dist pos bx x v)).
Proof.
  intros x v Hx Hv. pose proof (TYPES x Hx) as TX. pose proof (TYPES _ (nb_in x v Hx Hv)) as TV.
  set (s := typ c x) in *. set (t := typ c (fst v)) in *. set (r := dist pos bx x v).
  unfold bond_energy, active. fold s t r. unfold range_of, below_end, phi_of, rho_new, reach_of, dens_of, below_end.
  set (i := Nat.min s t). set (j := Nat.max s t). assert (IJ : (i <= j < nt)%nat) by (unfold i, j; lia).
  destruct (n_ph NICE i j IJ) as (O & GI & GJ & _). destruct (n_tr NICE i ltac:(lia)) as (OI & _). destruct (n_tr NICE j ltac:(lia)) as (OJ & _).
  destruct (same_begin fmt3 _ _ O OI GI) as [BI EI]. destruct (same_begin fmt3 _ _ O OJ GJ) as [BJ EJ].
  assert (IJc : (i = s /\ j = t) \/ (i = t /\ j = s)) by (unfold i, j; lia).
  assert (ES : endr (col (tr p0 s)) = endr (col (ph p0 i j))) by (clearbody i j; destruct IJc as [[E1 _]|[_ E1]]; rewrite <- E1; auto).
  assert (ET : endr (col (tr p0 t)) = endr (col (ph p0 i j))) by (clearbody i j; destruct IJc as [[_ E1]|[E1 _]]; rewrite <- E1; auto).
  change (endr (col (tr P' t))) with (endr (col (tr p0 t))). change (endr (col (tr P' s))) with (endr (col (tr p0 s))).
  change (endr (col (ph P' i j))) with (endr (col (ph p0 i j))). change (endr (col (ph p i j))) with (endr (col (ph p0 i j))). rewrite ES, ET.
  destruct (Rlt_dec r (endr (col (ph p0 i j)))); [|ring].
  rewrite (ph_new i j IJ r) by (split; [rewrite BI; apply FAR; auto; lia|auto]).
  clearbody i j. destruct IJc as [[-> ->]|[-> ->]]; ring.
Qed.

Theorem energy_unchanged :
  (forall x, (clo <= x < chi)%nat -> let u := density c pos bx (dens_of fmt3 p) (reach_of p) L 0 x in
     lo (typ c x) <= u < hi (typ c x) /\ begin (col (em p0 (typ c x))) <= u < endr (col (em p0 (typ c x)))) ->
  total_energy fmt3 P' c pos bx L = total_energy fmt3 p c pos bx L.
Proof.
  intros D. unfold total_energy, pair_energy, embed_energy.
  set (X := rsumf (fun x => rsumf (fun v => lamt (typ c x) * rho_new (typ c (fst v)) (dist pos bx x v)) (L x)) (seq clo (inconf c))).
  assert (PE : rsumf (fun x => rsumf (bond_energy c pos bx (phi_of fmt3 P') (range_of P') x) (L x)) (seq clo (inconf c)) =
    rsumf (fun x => rsumf (bond_energy c pos bx (phi_of fmt3 p) (range_of p) x) (L x)) (seq clo (inconf c)) + (X + X)).
  { assert (XR : X = rsumf (fun x => rsumf (fun v => lamt (typ c (fst v)) * rho_new (typ c x) (dist pos bx x v)) (L x)) (seq clo (inconf c))).
    { unfold X. rewrite (bonds_reverse c pos bx rcut GEO L HL). apply rsumf_ext. intros x _. apply rsumf_ext. intros [j n] _. cbn [fst snd].
      rewrite (dist_sym pos bx x j n). auto. }
    rewrite XR at 2. unfold X. rewrite <- !rsumf_plus. apply rsumf_ext. intros x Hx. apply in_seq in Hx. rewrite <- !rsumf_plus. apply rsumf_ext. intros v Hv.
    apply bond_new; auto. }
  assert (EE : rsumf (fun x => rsumf (fun k => F_of fmt3 P' k (typ c x) (density c pos bx (dens_of fmt3 P') (reach_of P') L k x)) (seq 0 1)) (seq clo (inconf c)) =
    rsumf (fun x => rsumf (fun k => F_of fmt3 p k (typ c x) (density c pos bx (dens_of fmt3 p) (reach_of p) L k x)) (seq 0 1)) (seq clo (inconf c)) + -1 * X).
  { unfold X. rewrite <- rsumf_scale, <- rsumf_plus. apply rsumf_ext. intros x Hx. apply in_seq in Hx. cbn [seq]. unfold rsumf at 1 2; cbn [map rsum].
    destruct (D x Hx) as [D1 D2]. unfold F_of. rewrite (density_new x Hx), (em_new _ (TYPES x Hx) _ D1 D2), <- (density_new x Hx).
    rewrite rsumf_scale. change (rsumf (fun v => rho_new (typ c (fst v)) (dist pos bx x v)) (L x)) with (density c pos bx (dens_of fmt3 P') (reach_of P') L 0 x). simpl. ring. }
  rewrite PE, EE. lra.
Qed.
End Conf.
End Main.
