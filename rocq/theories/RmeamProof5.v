(** Rescaling of MEAM potentials: the whole routine; where densities or energies change. *)
From Coq Require Import Reals ZArith List Bool Lia Lra.
From Verif Require Import Vec NbrModel NbrProof3 LoopUtil PairModel PairSpec PairProof3 ThreeSpec ThreeProof AngSpec MeamSpec SwProof4 SwProof5 AngProof2 MeamProof5
  SplineModel SplineProof SplineProof2 SplineProof3 SplineProof4 SplineProof5
  RescaleModel RescaleProof2 RescaleProof3 RescaleProof4 RescaleProof6 RescaleProof9 RmeamModel RmeamSpec RmeamProof RmeamProof2 RmeamProof3 RmeamProof4.
Import ListNotations.
Local Open Scope R_scope.

Lemma at_slot_ev : forall fmt3 h r, ok fmt3 h -> begin (col h) <= r < endr (col h) -> ev fmt3 h r = Some (at_slot fmt3 h r).
Proof.
  intros fmt3 h r (LI & E) Hr. unfold ev, at_slot. destruct fmt3.
  - destruct (E eq_refl) as (EQ & _). destruct (ed_slot_neighbour (col h) (val h) EQ r ltac:(lra)) as (k & b & -> & _ & _ & _ & V & _). rewrite V. auto.
  - destruct (slot_ne (col h) r) as [[k b] st] eqn:S. destruct (ne_slot (col h) (val h) LI r k b st S) as (_ & _ & _ & _ & V & _). rewrite V. auto.
Qed.

(** ** the whole routine *)
Section Whole.
Variables fmt3 slots : bool.
Variables (nt : nat) (cs : nat -> conf) (nconf : nat) (r0 : nat -> R) (p0 : mpot) (upper : R) (flag : bool).
Let p := m_init p0.
Let s := m_found fmt3 slots p cs nconf r0.
Let a := factor nt (m_embed p) upper s.
Let q := m_init (snd (m_rescale fmt3 slots nt cs nconf r0 p0 upper flag)).
Theorem m_not_needed : needed nt (m_embed p) upper s flag = false -> m_rescale fmt3 slots nt cs nconf r0 p0 upper flag = (0, p).
Proof. intros H. unfold m_rescale. fold p. fold s. rewrite H. auto. Qed.
Theorem m_needed : needed nt (m_embed p) upper s flag = true ->
  m_rescale fmt3 slots nt cs nconf r0 p0 upper flag = (a, m_update p (upwards nt s) a (left_of (m_embed p) s) (right_of (m_embed p) s)).
Proof. intros H. unfold m_rescale. fold p. fold s. rewrite H. auto. Qed.

Hypothesis CONT : forall ci, cnfstart (cs (S ci)) = (cnfstart (cs ci) + inconf (cs ci))%nat.
Variables (pos : nat -> vec) (bx : nat -> box) (rcut : nat -> nat -> R).
Hypothesis FG : forall ci, (ci < nconf)%nat -> full_geometry (cs ci) pos (bx ci) rcut.
Variable L : nat -> nat -> list (nat * image).
Hypothesis HL : forall ci x, atom_of cs nconf ci x -> all_neighbors (cs ci) pos (bx ci) rcut x (L ci x).
Hypothesis TYP : forall ci x, atom_of cs nconf ci x -> (typ (cs ci) x < nt)%nat.
Hypothesis PRESENT : forall t, (t < nt)%nat -> exists ci x, atom_of cs nconf ci x /\ typ (cs ci) x = t.
Hypothesis BIG : forall ci x, atom_of cs nconf ci x -> Rabs (table_density fmt3 slots p (cs ci) pos (bx ci) (L ci) x) < 10 ^ 100.
Hypothesis STEP : forall t, (t < nt)%nat -> 0 < step (col (mem p0 t)).
Hypothesis UP : 0 < upper.
Hypothesis NT : (0 < nt)%nat.
Hypothesis NEED : needed nt (m_embed p) upper s flag = true.
Hypothesis OKS : columns_ok fmt3 p0 nt a.
(** no atom on top of another *)
Lemma apart : forall ci x v, atom_of cs nconf ci x -> In v (L ci x) -> (typ (cs ci) (fst v) < nt)%nat /\ dvec pos (bx ci) x v <> v0.
Proof.
  intros ci x v X IN. destruct (HL ci x X) as [_ I]. destruct v as [j n]. apply I in IN. destruct IN as [J B]. split; [apply TYP; split; [apply X|exact J]|].
  destruct X as [C X]. destruct (nb_full (cs ci) pos (bx ci) rcut (FG ci C)) as (BB & NB & HB & NO). apply (NO x (j, n)); auto.
  apply HB; auto.
Qed.
Theorem m_densities : slots = true -> forall ci x, atom_of cs nconf ci x ->
  let u := table_density fmt3 slots p (cs ci) pos (bx ci) (L ci) x in
  let v := table_density fmt3 slots q (cs ci) pos (bx ci) (L ci) x in
  v = fst (m_rescale fmt3 slots nt cs nconf r0 p0 upper flag) * u /\ Rabs v < upper /\ 
  begin (col (mem q (typ (cs ci) x))) < v < endr (col (mem q (typ (cs ci) x))).
Proof.
  intros SL ci x X. cbv zeta. unfold q. rewrite m_needed by auto. cbn [fst snd].
  assert (D : table_density fmt3 slots (m_init (m_update p (upwards nt s) a (left_of (m_embed p) s) (right_of (m_embed p) s))) (cs ci) pos (bx ci) (L ci) x =
    a * table_density fmt3 slots p (cs ci) pos (bx ci) (L ci) x).
  { rewrite SL. apply (density_scaled fmt3 p0 nt); auto. intros v. apply apart; auto. }
  rewrite D. split; [auto|].
  destruct (factor_sign fmt3 slots nt cs nconf r0 p0 upper CONT pos bx rcut FG L HL TYP PRESENT BIG STEP UP NT) as [_ FS].
  split; [apply FS; auto|].
  exact (new_range fmt3 slots nt cs nconf r0 p0 upper CONT pos bx rcut FG L HL TYP PRESENT BIG STEP UP NT ci x X).
Qed.
(** the embedding functions are cubic on the equidistant points they came with *)
Variables c0 c1 c2 c3 : nat -> R.
Hypothesis CUBIC : forall t, (t < nt)%nat -> ok true (mem p0 t) /\ cubic_column (mem p0 t) (c0 t) (c1 t) (c2 t) (c3 t) /\
  forall u, u = left_of (m_embed p) s t \/ u = (left_of (m_embed p) s t + right_of (m_embed p) s t) / 2 \/ u = right_of (m_embed p) s t ->
    Rabs (cub1 (c1 t) (c2 t) (c3 t) u) < E29 / 2 /\ Rabs (cub1 (c1 t) (c2 t) (c3 t) u / a) < E29 / 2.
Hypothesis TAB : forall ci x, atom_of cs nconf ci x -> let u := table_density fmt3 slots p (cs ci) pos (bx ci) (L ci) x in
  begin (col (mem p0 (typ (cs ci) x))) <= u < endr (col (mem p0 (typ (cs ci) x))).
Theorem m_energy : slots = true -> upwards nt s = true -> forall ci, (ci < nconf)%nat ->
  table_energy fmt3 slots q (cs ci) pos (bx ci) (L ci) = table_energy fmt3 slots p (cs ci) pos (bx ci) (L ci).
Proof.
  intros SL UPW ci C. 
  destruct (factor_sign fmt3 slots nt cs nconf r0 p0 upper CONT pos bx rcut FG L HL TYP PRESENT BIG STEP UP NT) as [[[_ A]|[F _]] _];
    [|fold p in F; fold s in F; congruence]. fold p in A. fold s in A. fold a in A.
  unfold table_energy. f_equal.
  - unfold pair_energy. f_equal. apply rsumf_ext. intros x Hx. apply in_seq in Hx. apply rsumf_ext. intros v IN.
    unfold bond_energy, active. assert (X : atom_of cs nconf ci x) by (split; auto; lia).
    destruct (apart ci x v X IN) as [T _]. unfold q. rewrite m_needed by auto. cbn [snd].
    change (phi_in (m_init (m_update p (upwards nt s) a (left_of (m_embed p) s) (right_of (m_embed p) s)))) with (phi_in p).
    match goal with |- context [if phi_in p ?i ?j ?r then _ else _] => destruct (phi_in p i j r) eqn:E; auto end. unfold phi_in, below_end in E. destruct (Rlt_dec _ _) as [E'|]; [|discriminate].
    unfold phi_at. pose proof (TYP ci x X). apply spl_twice; [apply OKS; lia|]. apply Rlt_le. exact E'.
  - apply rsumf_ext. intros x Hx. apply in_seq in Hx. assert (X : atom_of cs nconf ci x) by (split; auto; lia).
    destruct (m_densities SL ci x X) as (V & _ & R). revert V R. cbv zeta. unfold q. rewrite m_needed by auto. cbn [fst snd]. intros V R. rewrite V in *. clear V.
    set (u := table_density fmt3 slots p (cs ci) pos (bx ci) (L ci) x) in *. set (t := typ (cs ci) x) in *.
    pose proof (TYP ci x X) as T. fold t in T. destruct (CUBIC t T) as (O & CC & SM).
    pose proof (TAB ci x X) as TB. cbv zeta in TB. fold u t in TB.
    destruct (found fmt3 slots cs nconf r0 p0 CONT pos bx rcut FG L HL ci x X) as (_ & FF). fold p s u t in FF. pose proof (STEP t T) as S0.
    assert (LE : left_of (m_embed p) s t = minrho s t - 3 / 10 * step (col (mem p0 t))) by reflexivity.
    assert (RI : right_of (m_embed p) s t = maxrho s t + 3 / 10 * step (col (mem p0 t))) by reflexivity.
    assert (LR : left_of (m_embed p) s t < right_of (m_embed p) s t) by lra.
    unfold F_at. rewrite UPW. 
    destruct (m_embed_cubic fmt3 a (left_of (m_embed p) s t) (right_of (m_embed p) s t) (mem p0 t) O A LR _ _ _ _ CC SM) as (_ & _ & G1 & G2).
    change (mem p t) with (spl true true (mem p0 t)). rewrite (proj1 (G1 u TB)).
    change (mem (m_init (m_update p true a (left_of (m_embed p) s) (right_of (m_embed p) s))) t) with
      (spl true true (scaled_em true a (left_of (m_embed p) s t) (right_of (m_embed p) s t) (resampled (spl true true (mem p0 t)) (left_of (m_embed p) s t) (right_of (m_embed p) s t)))).
    rewrite (proj1 (G2 u ltac:(lra))). auto.
Qed.
End Whole.
