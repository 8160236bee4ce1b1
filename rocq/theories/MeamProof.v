(** The MEAM force routine: what its loops add. *)
From Coq Require Import Reals ZArith List Bool Lia Lra Permutation.
From Verif Require Import Vec NbrModel NbrProof NbrProof2 LoopUtil PairModel PairProof PairSpec PairProof2 PairProof3
  ForceLoop BondProof GradProof ThreeSpec ThreeProof ThreeProof2 ThreeProof3 ThreeProof4 AddProof AddProof2 SwModel SwProof AngSpec AngModel AngProof AngProof2
  BoProof EamModel MeamModel MeamSpec.
Import ListNotations.
Local Open Scope R_scope.

Section Meam.
Variable bld : ebuild.
Variables phi dphi : nat -> nat -> R -> R.
Variable in0 : nat -> nat -> R -> bool.
Variables dens ddens : nat -> R -> R.
Variable reach : nat -> R -> bool.
Variables f df : nat -> nat -> R -> R.
Variable in2 : nat -> nat -> R -> bool.
Variables g dg : nat -> R -> R.
Variables F dF FA dFA : nat -> R -> R.
Variables fbegin fend fstep : nat -> R.
Notation cont t := (continued (RESCALE bld) (APOT bld) (F t) (dF t) (FA t) (dFA t) (fbegin t) (fend t) (fstep t)).
Definition Ec (t : nat) (x : R) : R := fst (cont t x).
Definition dEc (t : nat) (x : R) : R := snd (cont t x).
(** what is counted for the mean density and for the limiting constraint *)
Definition kept (t : nat) (x : R) : R := if RESCALE bld then clamped (fbegin t) (fend t) x else x.
Definition over (t : nat) (x : R) : R := if RESCALE bld then DUMMY_WEIGHT * 10 * sq (excess (fbegin t) (fend t) x) else 0.

Section Config.
Variables (ci : nat) (c : conf).
Notation fv := (MeamModel.fv f in2 c).
Notation fd := (MeamModel.fd df in2 c).
(** density of the lists *)
Definition list_density (i : nat) (l : list neigh) : R :=
  rsumf (fun e => if reach (n_type e) (n_r e) then dens (n_type e) (n_r e) else 0) l +
  rsumf (fun p => fv i (fst p) * fv i (snd p) * g (typ c i) (sprod (n_dist_r (fst p)) (n_dist_r (snd p)))) (pairs l).

(** [t] is [s] with density changed by x at i and deviation vector d *)
Definition moved_to (i : nat) (x : R) (d : dev) (s t : mst) : Prop :=
  mdv t = d /\ mrho t i = mrho s i + x /\ (forall j, j <> i -> mrho t j = mrho s j) /\ mgrad t = mgrad s /\ mlim t = mlim s /\ mrsum t = mrsum s /\ mdum t = mdum s.
Lemma second_spec : forall i l s,
  moved_to i (rsumf (fun e => if reach (n_type e) (n_r e) then dens (n_type e) (n_r e) else 0) l)
    (fold_left (AngModel.pair_body (base bld) phi dphi in0 ci c i) l (mdv s)) s
    (fold_left (MeamModel.second_neighbor bld phi dphi in0 dens reach ci c i) l s).
Proof.
  intros i l. induction l as [|e l IH]; intros s; cbn [fold_left].
  - unfold moved_to. unfold rsumf; simpl. repeat split; auto. ring.
  - destruct (IH (MeamModel.second_neighbor bld phi dphi in0 dens reach ci c i s e)) as (A & B & C & D & E & G & K). unfold moved_to. rewrite A, B, D, E, G, K, rsumf_cons. clear A B D E G K.
    unfold MeamModel.second_neighbor in *. destruct (reach (n_type e) (n_r e)); cbn [with_mdv add_rho mdv mrho mgrad mlim mrsum mdum] in *.
    + rewrite setf_eq. repeat split; auto; [ring|]. intros j N. rewrite C by auto. apply setf_neq. auto.
    + repeat split; auto. ring.
Qed.
Lemma density_spec : forall i l s,
  moved_to i (rsumf (fun p => fv i (fst p) * fv i (snd p) * g (typ c i) (sprod (n_dist_r (fst p)) (n_dist_r (snd p)))) (pairs l)) (mdv s) s
    (MeamModel.density_pairs f in2 g c i l s).
Proof.
  intros i l s.
  rewrite (fold_pairs (fun _ => true) (MeamModel.tri_density f in2 g c i) (MeamModel.density_pairs f in2 g c i)) by auto.
  revert s. induction (pairs l) as [|p q IH]; intros s; cbn [fold_left].
  - unfold moved_to. unfold rsumf; simpl. repeat split; auto. ring.
  - destruct (IH (MeamModel.tri_density f in2 g c i (fst p) s (snd p))) as (A & B & C & D & E & G & K). unfold moved_to. rewrite A, B, D, E, G, K, rsumf_cons. clear A B D E G K.
    unfold MeamModel.tri_density, add_rho in *. cbn [mdv mrho mgrad mlim mrsum mdum] in *. rewrite setf_eq. repeat split; auto; [ring|]. intros j N. rewrite C by auto. apply setf_neq. auto.
Qed.
Notation embed_at := (MeamModel.embed_at bld F dF FA dFA fbegin fend fstep).
Lemma embed_cont : forall t x, embed_at t (kept t x) = cont t x.
Proof.
  intros t x. unfold MeamModel.embed_at, EamModel.embed, continued, kept, clamped. destruct (RESCALE bld); [auto|]. destruct (APOT bld); [|reflexivity].
  destruct (Rlt_dec x (fbegin t)), (Rle_dec (fbegin t) x), (Rlt_dec (fend t) x), (Rle_dec x (fend t)), (Rlt_dec x (1/10)), (Rle_dec (1/10) x); auto; lra.
Qed.
Lemma embed_spec : forall i s, let t := typ c i in let x := mrho s i in
  let s' := MeamModel.embed_atom bld F dF FA dFA fbegin fend fstep ci c i s in
  mdv s' = mk_dev (frc (mdv s)) (setf (en (mdv s)) ci (en (mdv s) ci + Ec t x)) (str (mdv s)) (err (mdv s)) /\
  mrho s' i = kept t x /\ (forall j, j <> i -> mrho s' j = mrho s j) /\ mgrad s' i = dEc t x /\
  mlim s' ci = mlim s ci + over t x /\ (forall d, d <> ci -> mlim s' d = mlim s d) /\ mrsum s' = mrsum s + kept t x /\ mdum s' = mdum s.
Proof.
  intros i s t x s'.
  pose (s1 := if RESCALE bld then MeamModel.clamp fbegin fend ci t i s else s).
  assert (Q : mdv s1 = mdv s /\ mrho s1 i = kept t x /\ (forall j, j <> i -> mrho s1 j = mrho s j) /\ mgrad s1 = mgrad s /\
    mlim s1 ci = mlim s ci + over t x /\ (forall d, d <> ci -> mlim s1 d = mlim s d) /\ mrsum s1 = mrsum s /\ mdum s1 = mdum s).
  { unfold s1, kept, over. destruct (RESCALE bld); [|repeat split; auto; ring]. unfold MeamModel.clamp, clamped, excess. fold x.
    destruct (Rlt_dec x (fbegin t)); [|destruct (Rlt_dec (fend t) x)]; cbn [mdv mrho mgrad mlim mrsum mdum];
      try (rewrite !setf_eq; repeat split; auto; intros; apply setf_neq; auto). repeat split; auto. unfold sq. ring. }
  destruct Q as (Q1 & Q2 & Q3 & Q4 & Q5 & Q6 & Q7 & Q8).
  assert (E : s' = let '(v, d) := embed_at t (mrho s1 i) in
    mk_mst (mk_dev (frc (mdv s1)) (setf (en (mdv s1)) ci (en (mdv s1) ci + v)) (str (mdv s1)) (err (mdv s1))) (mrho s1) (setf (mgrad s1) i d) (mlim s1) (mrsum s1 + mrho s1 i) (mdum s1)) by reflexivity.
  clearbody s'. rewrite Q2, embed_cont in E. unfold Ec, dEc. destruct (cont t x) as [v d]. subst s'. cbn [fst snd mdv mrho mgrad mlim mrsum mdum].
  rewrite Q1, Q5, Q7, Q8, setf_eq. repeat split; auto.
Qed.
(** the deviation vector through one atom of density x *)
Definition add_energy (x : R) (d : dev) : dev := mk_dev (frc d) (setf (en d) ci (en d ci + x)) (str d) (err d).
Definition datom (i : nat) (x : R) (d : dev) : dev :=
  let d := add_energy (Ec (typ c i) x) (fold_left (AngModel.pair_body (base bld) phi dphi in0 ci c i) (nb c i) d) in
  if uf c then MeamModel.force_pairs bld f df in2 g dg (dEc (typ c i) x) ci c i (nb c i)
                 (fold_left (MeamModel.trans_body bld ddens reach (dEc (typ c i) x) ci c i) (nb c i) d)
  else d.
Notation atom := (MeamModel.atom_body bld phi dphi in0 dens ddens reach f df in2 g dg F dF FA dFA fbegin fend fstep ci c).
Lemma atom_spec : forall i s, mrho s i = 0 -> let t := typ c i in let x := list_density i (nb c i) in
  mdv (atom i s) = datom i x (mdv s) /\ mrho (atom i s) i = kept t x /\ (forall j, j <> i -> mrho (atom i s) j = mrho s j) /\
  mlim (atom i s) ci = mlim s ci + over t x /\ (forall d, d <> ci -> mlim (atom i s) d = mlim s d) /\
  mrsum (atom i s) = mrsum s + kept t x /\ mdum (atom i s) = mdum s.
Proof.
  intros i s Z t x.
  destruct (second_spec i (nb c i) s) as (A1 & A2 & A3 & A4 & A5 & A6 & A7).
  unfold MeamModel.atom_body. cbv zeta. set (s1 := fold_left (MeamModel.second_neighbor bld phi dphi in0 dens reach ci c i) (nb c i) s) in *.
  destruct (density_spec i (nb c i) s1) as (B1 & B2 & B3 & B4 & B5 & B6 & B7). set (s2 := MeamModel.density_pairs f in2 g c i (nb c i) s1) in *.
  assert (X : mrho s2 i = x) by (rewrite B2, A2, Z; unfold x, list_density; ring).
  destruct (embed_spec i s2) as (C1 & C2 & C3 & C4 & C5 & C6 & C7 & C8). set (s3 := MeamModel.embed_atom bld F dF FA dFA fbegin fend fstep ci c i s2) in *.
  rewrite X in *. fold t in C1, C2, C4, C5, C7.
  assert (G : mdv s3 = add_energy (Ec t x) (fold_left (AngModel.pair_body (base bld) phi dphi in0 ci c i) (nb c i) (mdv s))).
  { rewrite C1, B1, A1. reflexivity. }
  assert (RR : mrho s3 i = kept t x /\ (forall j, j <> i -> mrho s3 j = mrho s j) /\ mlim s3 ci = mlim s ci + over t x /\ (forall d, d <> ci -> mlim s3 d = mlim s d) /\
    mrsum s3 = mrsum s + kept t x /\ mdum s3 = mdum s).
  { split; [auto|]. split; [intros j N; rewrite C3, B3, A3; auto|]. split; [rewrite C5, B5, A5; auto|]. split; [intros d N; rewrite C6, B5, A5; auto|].
    split; [rewrite C7, B6, A6; auto|rewrite C8, B7, A7; auto]. }
  unfold datom. fold t. rewrite <- G, <- C4. destruct (uf c); [|auto]. cbn [with_mdv mdv mrho mlim mrsum mdum]. auto.
Qed.
Notation lo := (cnfstart c).
Notation hi := (cnfstart c + inconf c)%nat.
Notation ld i := (list_density i (nb c i)).
Lemma atoms_spec : forall s, (forall j, (lo <= j < hi)%nat -> mrho s j = 0) -> let s' := for_up lo hi atom s in
  mdv s' = for_up lo hi (fun i => datom i (ld i)) (mdv s) /\
  (forall j, (lo <= j < hi)%nat -> mrho s' j = kept (typ c j) (ld j)) /\
  mlim s' ci = mlim s ci + rsumf (fun i => over (typ c i) (ld i)) (seq lo (inconf c)) /\ (forall d, d <> ci -> mlim s' d = mlim s d) /\
  mrsum s' = mrsum s + rsumf (fun i => kept (typ c i) (ld i)) (seq lo (inconf c)) /\ mdum s' = mdum s.
Proof.
  intros s Z. cbv zeta.
  assert (G : forall n, (n <= inconf c)%nat -> let s' := for_up lo (lo + n) atom s in
    mdv s' = for_up lo (lo + n) (fun i => datom i (ld i)) (mdv s) /\
    (forall j, (lo <= j < lo + n)%nat -> mrho s' j = kept (typ c j) (ld j)) /\ (forall j, (lo + n <= j < hi)%nat -> mrho s' j = 0) /\
    mlim s' ci = mlim s ci + rsumf (fun i => over (typ c i) (ld i)) (seq lo n) /\ (forall d, d <> ci -> mlim s' d = mlim s d) /\
    mrsum s' = mrsum s + rsumf (fun i => kept (typ c i) (ld i)) (seq lo n) /\ mdum s' = mdum s).
  { induction n as [|n IH]; intros N.
    - rewrite !Nat.add_0_r, !for_up_nil. unfold rsumf; simpl. repeat split; auto; try ring; intros; try lia; apply Z; lia.
    - rewrite <- !plus_n_Sm, !for_up_S by lia. cbv zeta in IH. destruct (IH ltac:(lia)) as (A & B & C & D & E & H & K).
      destruct (atom_spec (lo + n)%nat (for_up lo (lo + n) atom s) (C (lo + n)%nat ltac:(lia))) as (P1 & P2 & P3 & P4 & P5 & P6 & P7).
      cbv zeta. rewrite P1, A, P4, D, P6, H, P7, K, seq_S, !rsumf_snoc. split; [auto|]. split; [|split; [|split; [ring|split; [|split; [ring|auto]]]]].
      + intros j Hj. destruct (Nat.eq_dec j (lo + n)) as [->|N1]; [auto|]. rewrite P3 by auto. apply B. lia.
      + intros j Hj. rewrite P3 by lia. apply C. lia.
      + intros d N1. rewrite P5, E; auto. }
  destruct (G (inconf c) (le_n _)) as (A & B & C & D). auto.
Qed.

(** the configuration *)
Notation mcalc := (MeamModel.config_body bld phi dphi in0 dens ddens reach f df in2 g dg F dF FA dFA fbegin fend fstep).
Variables (eweight sweight : R) (limit_0 : nat -> R).
Definition sum_over : R := rsumf (fun i => over (typ c i) (ld i)) (seq lo (inconf c)).
Definition sum_kept : R := rsumf (fun i => kept (typ c i) (ld i)) (seq lo (inconf c)).
Definition final_limit : R := let x := - limit_0 ci + sum_over in if RESCALE bld then x * conf_weight c else x.
Lemma reset_all : forall s, let s' := for_up lo hi (MeamModel.reset_rho c) s in
  mdv s' = for_up lo hi (reset_atom c) (mdv s) /\ (forall j, (lo <= j < hi)%nat -> mrho s' j = 0) /\ mlim s' = mlim s /\ mrsum s' = mrsum s /\ mdum s' = mdum s.
Proof.
  intros s. cbv zeta.
  assert (G : forall n, let s' := for_up lo (lo + n) (MeamModel.reset_rho c) s in
    mdv s' = for_up lo (lo + n) (reset_atom c) (mdv s) /\ (forall j, (lo <= j < lo + n)%nat -> mrho s' j = 0) /\ mlim s' = mlim s /\ mrsum s' = mrsum s /\ mdum s' = mdum s).
  { induction n as [|n IH].
    - rewrite !Nat.add_0_r, !for_up_nil. repeat split; auto. intros; lia.
    - rewrite <- !plus_n_Sm, !for_up_S by lia. cbv zeta in *. destruct IH as (A & B & C & D & E).
      set (q := for_up lo (lo + n) (MeamModel.reset_rho c) s) in *. clearbody q. unfold MeamModel.reset_rho. cbn [mdv mrho mlim mrsum mdum].
      rewrite A, C, D, E. repeat split; auto. intros j Hj. destruct (Nat.eq_dec j (lo + n)) as [->|N1]; [apply setf_eq|]. rewrite setf_neq by auto. apply B. lia. }
  apply (G (inconf c)).
Qed.
Lemma config_spec : forall s, let s' := mcalc eweight sweight limit_0 ci c s in
  let d := gconfig (base bld) eweight sweight (fun _ => 0) ci c (AngProof2.all_used c) (for_up lo hi (fun i => datom i (ld i))) (mdv s) in
  mdv s' = (if RESCALE bld then mk_dev (frc d) (en d) (str d) (err d + sq final_limit) else d) /\
  (forall j, (lo <= j < hi)%nat -> mrho s' j = kept (typ c j) (ld j)) /\
  mlim s' ci = final_limit /\ (forall k, k <> ci -> mlim s' k = mlim s k) /\ mrsum s' = mrsum s + sum_kept /\ mdum s' = mdum s.
Proof.
  intros s. cbv zeta. unfold MeamModel.config_body. cbv zeta.
  set (s0 := mk_mst (reset_conf (base bld) (fun _ => 0) ci c (mdv s)) (mrho s) (mgrad s) (setf (mlim s) ci (- limit_0 ci)) (mrsum s) (mdum s)).
  destruct (reset_all s0) as (A1 & A2 & A3 & A4 & A5). set (s1 := for_up lo hi (MeamModel.reset_rho c) s0) in *.
  destruct (atoms_spec s1 A2) as (B1 & B2 & B3 & B4 & B5 & B6). set (s2 := for_up lo hi atom s1) in *.
  rewrite A3 in B3, B4. rewrite A4 in B5. rewrite A5 in B6. cbn [s0 mlim mrsum mdum] in B3, B4, B5, B6. rewrite setf_eq in B3. fold sum_over in B3. fold sum_kept in B5.
  assert (G : score_stress_all (base bld) sweight ci c (score_energy eweight ci c (for_up lo hi (score_atom_all (base bld) c) (mdv s2))) =
    gconfig (base bld) eweight sweight (fun _ => 0) ci c (AngProof2.all_used c) (for_up lo hi (fun i => datom i (ld i))) (mdv s)).
  { rewrite B1, A1. unfold gconfig, score_stress_all, score_stress. cbn [AngProof2.all_used uf us]. rewrite !andb_true_r. reflexivity. }
  rewrite G. set (d := gconfig _ _ _ _ _ _ _ _ _). clearbody d. unfold final_limit. destruct (RESCALE bld); cbn [mdv mrho mlim mrsum mdum with_mdv].
  - rewrite setf_eq, B3. repeat split; auto. intros k N. rewrite setf_neq, B4, setf_neq by auto. auto.
  - repeat split; auto. intros k N. rewrite B4, setf_neq by auto. auto.
Qed.
End Config.
End Meam.
