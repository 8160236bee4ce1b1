(** The densities found by the rescaling of MEAM potentials. *)
From Coq Require Import Reals ZArith List Bool Lia Lra Permutation.
From Verif Require Import Vec NbrModel NbrProof NbrProof2 LoopUtil PairModel PairProof PairSpec PairProof2 PairProof3
  ForceLoop BondProof GradProof ThreeSpec ThreeProof ThreeProof2 ThreeProof3 ThreeProof4 AddProof AddProof2 SwModel SwProof AngSpec AngModel AngProof AngProof2
  BoProof EamModel MeamModel MeamSpec MeamProof MeamProof2 SplineModel RescaleModel RmeamModel.
Import ListNotations.
Local Open Scope R_scope.

Section Scan.
Variable dens : nat -> R -> R.
Variable reach : nat -> R -> bool.
Variable f : nat -> nat -> R -> R.
Variable in2 : nat -> nat -> R -> bool.
Variable g : nat -> R -> R.
Notation ld c i := (list_density dens reach f in2 g c i (nb c i)).
Lemma neighbors_spec : forall i l rho, let r := fold_left (m_neighbor dens reach i) l rho in
  r i = rho i + rsumf (fun e => if reach (n_type e) (n_r e) then dens (n_type e) (n_r e) else 0) l /\ forall j, j <> i -> r j = rho j.
Proof.
  intros i l. induction l as [|e l IH]; intros rho; cbn [fold_left].
  - cbv zeta. unfold rsumf; simpl. split; [ring|auto].
  - cbv zeta. destruct (IH (m_neighbor dens reach i rho e)) as [A B]. rewrite A, rsumf_cons. unfold m_neighbor in *. destruct (reach (n_type e) (n_r e)).
    + rewrite setf_eq. split; [ring|]. intros j N. rewrite B by auto. apply setf_neq. auto.
    + split; [ring|]. intros j N. rewrite B; auto.
Qed.
Lemma triples_spec : forall c i l rho, let r := m_triples f in2 g c i l rho in
  r i = rho i + rsumf (fun p => m_f f in2 c i (fst p) * m_f f in2 c i (snd p) * g (typ c i) (sprod (n_dist_r (fst p)) (n_dist_r (snd p)))) (pairs l) /\
  forall j, j <> i -> r j = rho j.
Proof.
  intros c i l rho. cbv zeta. rewrite (fold_pairs (fun _ => true) (m_triple f in2 g c i) (m_triples f in2 g c i)) by auto.
  revert rho. induction (pairs l) as [|p q IH]; intros rho; cbn [fold_left].
  - unfold rsumf; simpl. split; [ring|auto].
  - destruct (IH (m_triple f in2 g c i (fst p) rho (snd p))) as [A B]. rewrite A, rsumf_cons. unfold m_triple in *. rewrite setf_eq. split; [ring|].
    intros j N. rewrite B by auto. apply setf_neq. auto.
Qed.
Lemma m_atom_spec : forall c i s, srho s i = 0 -> let s' := m_atom dens reach f in2 g c i s in
  srho s' i = ld c i /\ (forall j, j <> i -> srho s' j = srho s j) /\ maxrho s' = maxrho s /\ minrho s' = minrho s.
Proof.
  intros c i s Z. cbv zeta. unfold m_atom. cbn [srho maxrho minrho].
  destruct (neighbors_spec i (nb c i) (srho s)) as [A B]. destruct (triples_spec c i (nb c i) (fold_left (m_neighbor dens reach i) (nb c i) (srho s))) as [C D].
  split; [|split; [|auto]].
  - rewrite C, A, Z. unfold list_density. unfold m_f, MeamModel.fv. ring.
  - intros j N. rewrite D, B; auto.
Qed.

(** values seen so far, by type *)
Definition bounds (V : nat -> R -> Prop) (s : scan) : Prop := forall t,
  (forall x, V t x -> minrho s t <= x <= maxrho s t) /\ (maxrho s t = - 10 ^ 100 \/ V t (maxrho s t)) /\ (minrho s t = 10 ^ 100 \/ V t (minrho s t)).
Lemma bounds_step : forall V c i s, bounds V s -> bounds (fun t x => V t x \/ (t = typ c i /\ x = srho s i)) (m_extrema c i s).
Proof.
  intros V c i s B t. destruct (B t) as (B1 & B2 & B3). unfold m_extrema. cbn [maxrho minrho].
  destruct (Nat.eq_dec t (typ c i)) as [E|N].
  - rewrite E in *. rewrite !setf_eq. split; [|split].
    + intros x [H|[_ ->]].
      * destruct (B1 x H). split; [apply Rle_trans with (minrho s (typ c i)); auto; apply Rmin_l|apply Rle_trans with (maxrho s (typ c i)); auto; apply Rmax_l].
      * split; [apply Rmin_r|apply Rmax_r].
    + unfold Rmax. destruct (Rle_dec _ _); [right; right; auto|]. destruct B2; auto.
    + unfold Rmin. destruct (Rle_dec _ _); [|right; right; auto]. destruct B3; auto.
  - rewrite !setf_neq by auto. split; [|split].
    + intros x [H|[H _]]; [auto|contradiction].
    + destruct B2; auto.
    + destruct B3; auto.
Qed.
Lemma bounds_ext : forall V W s, (forall t x, V t x <-> W t x) -> bounds V s -> bounds W s.
Proof.
  intros V W s E B t. destruct (B t) as (B1 & B2 & B3). split; [|split].
  - intros x H. apply B1, E, H.
  - rewrite <- E. auto.
  - rewrite <- E. auto.
Qed.

Lemma m_config_spec : forall c V s, bounds V s -> let s' := m_config dens reach f in2 g c s in
  (forall a, (cnfstart c <= a < cnfstart c + inconf c)%nat -> srho s' a = ld c a) /\
  (forall a, (a < cnfstart c \/ cnfstart c + inconf c <= a)%nat -> srho s' a = srho s a) /\
  bounds (fun t x => V t x \/ exists a, (cnfstart c <= a < cnfstart c + inconf c)%nat /\ t = typ c a /\ x = ld c a) s'.
Proof.
  intros c V s B. cbv zeta. unfold m_config. set (lo := cnfstart c). set (hi := (lo + inconf c)%nat).
  set (s1 := for_up lo hi m_zero s).
  assert (Z : (forall a, (lo <= a < hi)%nat -> srho s1 a = 0) /\ (forall a, (a < lo \/ hi <= a)%nat -> srho s1 a = srho s a) /\ maxrho s1 = maxrho s /\ minrho s1 = minrho s).
  { apply (for_up_inv (fun k s1 => (forall a, (lo <= a < k)%nat -> srho s1 a = 0) /\ (forall a, (a < lo \/ k <= a)%nat -> srho s1 a = srho s a) /\ maxrho s1 = maxrho s /\ minrho s1 = minrho s)).
    - unfold hi; lia.
    - split; [intros; lia|auto].
    - intros i s' Hi (A & C & D & E). unfold m_zero. cbn [srho maxrho minrho]. split; [|split; [|auto]].
      + intros a Ha. destruct (Nat.eq_dec a i) as [->|N]; [apply setf_eq|]. rewrite setf_neq by auto. apply A. lia.
      + intros a Ha. rewrite setf_neq by lia. apply C. lia. }
  destruct Z as (Z1 & Z2 & Z3 & Z4).
  set (s2 := for_up lo hi (m_atom dens reach f in2 g c) s1).
  assert (Y : (forall a, (lo <= a < hi)%nat -> srho s2 a = ld c a) /\ (forall a, (hi <= a < hi)%nat -> srho s2 a = 0) /\ (forall a, (a < lo \/ hi <= a)%nat -> srho s2 a = srho s a) /\ maxrho s2 = maxrho s /\ minrho s2 = minrho s).
  { apply (for_up_inv (fun k s2 => (forall a, (lo <= a < k)%nat -> srho s2 a = ld c a) /\ (forall a, (k <= a < hi)%nat -> srho s2 a = 0) /\ (forall a, (a < lo \/ hi <= a)%nat -> srho s2 a = srho s a) /\ maxrho s2 = maxrho s /\ minrho s2 = minrho s)).
    - unfold hi; lia.
    - split; [intros; lia|]. split; [auto|]. split; [auto|]. split; auto.
    - intros i s' Hi (A & C & D & E & G). destruct (m_atom_spec c i s' (C i ltac:(lia))) as (P & Q & R & T).
      split; [|split; [|split; [|split; congruence]]].
      + intros a Ha. destruct (Nat.eq_dec a i) as [->|N]; [exact P|]. rewrite Q by auto. apply A. lia.
      + intros a Ha. rewrite Q by lia. apply C. lia.
      + intros a Ha. rewrite Q by lia. auto. }
  destruct Y as (Y1 & _ & Y2 & Y3 & Y4).
  assert (X : srho (for_up lo hi (m_extrema c) s2) = srho s2 /\ bounds (fun t x => V t x \/ exists a, (lo <= a < hi)%nat /\ t = typ c a /\ x = ld c a) (for_up lo hi (m_extrema c) s2)).
  { apply (for_up_inv (fun k s3 => srho s3 = srho s2 /\ bounds (fun t x => V t x \/ exists a, (lo <= a < k)%nat /\ t = typ c a /\ x = ld c a) s3)).
    - unfold hi; lia.
    - split; [auto|]. apply (bounds_ext V).
      + intros t x. split; [auto|]. intros [H|(a & H & _)]; [auto|lia].
      + intros t. rewrite Y3, Y4. apply B.
    - intros i s' Hi (A & C). split; [exact A|]. apply (bounds_ext _ _ _) with (2 := bounds_step _ c i s' C). intros t x. rewrite A, (Y1 i Hi). split.
      + intros [[H|(a & H & K)]|[-> ->]]; [auto| |].
        * right. exists a. split; [lia|auto].
        * right. exists i. split; [lia|auto].
      + intros [H|(a & H & K1 & K2)]; [auto|]. destruct (Nat.eq_dec a i) as [->|N]; [auto|]. left. right. exists a. split; [lia|auto]. }
  destruct X as [X1 X2]. split; [|split].
  - intros a Ha. rewrite X1. auto.
  - intros a Ha. rewrite X1. auto.
  - exact X2.
Qed.

Variables (cs : nat -> conf) (nconf : nat).
Hypothesis CONT : forall ci, cnfstart (cs (S ci)) = (cnfstart (cs ci) + inconf (cs ci))%nat.
Lemma starts_mono : forall i j, (i < j)%nat -> (cnfstart (cs i) + inconf (cs i) <= cnfstart (cs j))%nat.
Proof. intros i j H. induction H; [rewrite CONT; lia|]. rewrite CONT. lia. Qed.
Lemma m_scan_lists : forall rho, let s := m_scan dens reach f in2 g cs nconf rho in
  (forall ci a, (ci < nconf)%nat -> (cnfstart (cs ci) <= a < cnfstart (cs ci) + inconf (cs ci))%nat -> srho s a = ld (cs ci) a) /\
  bounds (fun t x => exists ci a, (ci < nconf)%nat /\ (cnfstart (cs ci) <= a < cnfstart (cs ci) + inconf (cs ci))%nat /\ t = typ (cs ci) a /\ x = ld (cs ci) a) s.
Proof.
  intros rho. cbv zeta. unfold m_scan.
  apply (for_up_inv (fun k s => (forall ci a, (ci < k)%nat -> (cnfstart (cs ci) <= a < cnfstart (cs ci) + inconf (cs ci))%nat -> srho s a = ld (cs ci) a) /\
    bounds (fun t x => exists ci a, (ci < k)%nat /\ (cnfstart (cs ci) <= a < cnfstart (cs ci) + inconf (cs ci))%nat /\ t = typ (cs ci) a /\ x = ld (cs ci) a) s)).
  - lia.
  - split; [intros; lia|]. intros t. cbn [maxrho minrho]. split; [|auto]. intros x (ci & a & H & _). lia.
  - intros k s Hk [A B]. destruct (m_config_spec (cs k) _ s B) as (C & D & E). split.
    + intros ci a Hc Ha. destruct (Nat.eq_dec ci k) as [->|N]; [auto|]. rewrite D; [apply A; auto; lia|]. left. pose proof (starts_mono ci k ltac:(lia)). lia.
    + apply (bounds_ext _ _ _) with (2 := E). intros t x. split.
      * intros [(ci & a & H & K)|(a & H & K)]; [exists ci, a; split; [lia|auto]|exists k, a; split; [lia|]; destruct K; auto].
      * intros (ci & a & H & K1 & K2 & K3). destruct (Nat.eq_dec ci k) as [->|N]; [right; exists a; auto|]. left. exists ci, a. split; [lia|auto].
Qed.

Variables (pos : nat -> vec) (bx : nat -> box) (rcut : nat -> nat -> R).
Hypothesis FG : forall ci, (ci < nconf)%nat -> full_geometry (cs ci) pos (bx ci) rcut.
Variable L : nat -> nat -> list (nat * image).
Hypothesis HL : forall ci a, (ci < nconf)%nat -> (cnfstart (cs ci) <= a < cnfstart (cs ci) + inconf (cs ci))%nat -> all_neighbors (cs ci) pos (bx ci) rcut a (L ci a).
Notation rho ci := (meam_density (cs ci) pos (bx ci) dens reach f in2 g (L ci)).
Lemma list_textbook : forall ci a, (ci < nconf)%nat -> (cnfstart (cs ci) <= a < cnfstart (cs ci) + inconf (cs ci))%nat -> ld (cs ci) a = rho ci a.
Proof.
  intros ci i H Hi. destruct (nb_full (cs ci) pos (bx ci) rcut (FG ci H)) as (B & NB & HB & NO).
  exact (density_eq dens reach f in2 g (cs ci) pos (bx ci) rcut (L ci) (fun a => HL ci a H) B NB HB NO i Hi).
Qed.
Theorem m_scan_textbook : forall r0, let s := m_scan dens reach f in2 g cs nconf r0 in
  (forall ci a, (ci < nconf)%nat -> (cnfstart (cs ci) <= a < cnfstart (cs ci) + inconf (cs ci))%nat ->
     srho s a = rho ci a /\ minrho s (typ (cs ci) a) <= rho ci a <= maxrho s (typ (cs ci) a)) /\
  (forall t, (maxrho s t = - 10 ^ 100 \/ exists ci a, (ci < nconf)%nat /\ (cnfstart (cs ci) <= a < cnfstart (cs ci) + inconf (cs ci))%nat /\ typ (cs ci) a = t /\ maxrho s t = rho ci a) /\
     (minrho s t = 10 ^ 100 \/ exists ci a, (ci < nconf)%nat /\ (cnfstart (cs ci) <= a < cnfstart (cs ci) + inconf (cs ci))%nat /\ typ (cs ci) a = t /\ minrho s t = rho ci a)).
Proof.
  intros r0. cbv zeta. destruct (m_scan_lists r0) as [A B]. split.
  - intros ci a Hc Ha. rewrite <- list_textbook by auto. split; [auto|]. destruct (B (typ (cs ci) a)) as (B1 & _). apply B1. exists ci, a. auto.
  - intros t. destruct (B t) as (_ & B2 & B3). split; [destruct B2 as [B2|(ci & a & H & K & T & X)]|destruct B3 as [B3|(ci & a & H & K & T & X)]]; auto;
    right; exists ci, a; rewrite <- list_textbook by auto; auto.
Qed.
(** a type without atoms *)
Theorem m_scan_absent : forall r0 t, let s := m_scan dens reach f in2 g cs nconf r0 in
  (forall ci a, (ci < nconf)%nat -> (cnfstart (cs ci) <= a < cnfstart (cs ci) + inconf (cs ci))%nat -> typ (cs ci) a <> t) ->
  maxrho s t = - 10 ^ 100 /\ minrho s t = 10 ^ 100.
Proof.
  intros r0 t. cbv zeta. intros N. destruct (m_scan_lists r0) as [_ B]. destruct (B t) as (_ & B2 & B3). split.
  - destruct B2 as [B2|(ci & a & H & K & T & X)]; auto. exfalso. apply (N ci a); auto.
  - destruct B3 as [B3|(ci & a & H & K & T & X)]; auto. exfalso. apply (N ci a); auto.
Qed.
End Scan.
