(** Angular potentials with charges: what the loops add. *)
From Coq Require Import Reals ZArith List Bool Lia Lra Permutation.
From Verif Require Import Vec NbrModel NbrProof NbrProof2 LoopUtil PairModel PairProof PairSpec PairProof2 PairProof3
  ForceLoop BondProof GradProof ThreeSpec ThreeProof ThreeProof2 ThreeProof3 ThreeProof4 AddProof AddProof2 SwModel SwProof AngSpec AngModel AngProof
  ElSpec ElModel ElProof ElProof3 AeModel.
Import ListNotations.
Local Open Scope R_scope.

(** ** What a function adds, from the function *)
Definition zero_dev : dev := mk_dev (fun _ => v0) (fun _ => 0) (fun _ _ => 0) 0.
Definition cF (f : dev -> dev) (a : nat) : vec := frc (f zero_dev) a.
Definition cE (ci : nat) (f : dev -> dev) : R := en (f zero_dev) ci.
Definition cS (ci : nat) (f : dev -> dev) (k : nat) : R := str (f zero_dev) ci k.
Lemma adds_unique : forall ci f F E S, adds ci f F E S -> (forall a, F a = cF f a) /\ E = cE ci f /\ forall k, S k = cS ci f k.
Proof.
  intros ci f F E S [A1 A2 A3 A4]. unfold cF, cE, cS. split; [|split].
  - intros a. rewrite A1. cbn [frc zero_dev]. vring.
  - rewrite A2, Nat.eqb_refl. cbn [en zero_dev]. ring.
  - intros k. rewrite A3, Nat.eqb_refl. cbn [str zero_dev]. ring.
Qed.
Lemma adds_canon : forall ci f F E S, adds ci f F E S -> adds ci f (cF f) (cE ci f) (cS ci f).
Proof. intros ci f F E S A. destruct (adds_unique ci f F E S A) as (X & Y & Z). eapply adds_ext; [exact A|auto|auto|auto|auto]. Qed.

Lemma adds_fold_ex : forall ci {A} (body : dev -> A -> dev) l, (forall x, In x l -> exists F E S, adds ci (fun s => body s x) F E S) ->
  exists F E S, adds ci (fun s => fold_left body l s) F E S.
Proof.
  intros ci A body l. induction l as [|x l IH]; intros HB.
  - exists (fun _ => v0), 0, (fun _ => 0). apply adds_id.
  - destruct (HB x) as (F & E & S & P); [left; auto|]. destruct IH as (F' & E' & S' & P').
    { intros y Y. apply HB. right. auto. }
    do 3 eexists. cbn [fold_left]. exact (adds_comp ci (fun s => body s x) (fun s => fold_left body l s) _ _ _ _ _ _ P P').
Qed.

Section Ae.
Variable bld : build.
Variables phi dphi : nat -> nat -> R -> R.
Variable in0 : nat -> nat -> R -> bool.
Variables f df : nat -> nat -> R -> R.
Variable in1 : nat -> nat -> R -> bool.
Variables g dg : nat -> R -> R.
Variable charge : nat -> R.
Variables fel gel : R -> R.
Variables dp_cut self_coef : R.
Hypothesis DS : forall s t r, dphi s t r = dphi t s r.
Hypothesis IS : forall s t r, in0 s t r = in0 t s r.
Variables (c : conf) (pos : nat -> vec) (b : box) (rcut : nat -> nat -> R) (ci : nat).
Notation lo := (cnfstart c).
Notation hi := (cnfstart c + inconf c)%nat.
Notation ent i v := (entry pos (typ c) b i (fst v) (snd v)).
Notation son := (STRESS bld && us c)%bool.
Notation cp := (coulomb_pair c pos b charge fel dp_cut).
Notation cb := (coulomb_bond c pos b charge gel dp_cut).
Notation mono := (ae_monopole bld charge fel gel dp_cut ci c).

Lemma mono_adds : forall i v, dvec pos b i v <> v0 -> adds ci (fun s => mono i s (ent i v))
  (fun a => if uf c then vsub (if Nat.eqb a i then vscale (1/2) (cb i v) else v0) (if Nat.eqb (fst v) a then vscale (1/2) (cb i v) else v0) else v0)
  (1/2 * cp i v)
  (fun k => if (Nat.ltb k 6 && son && uf c)%bool then - (1/2 * stress_of (dvec pos b i v) (cb i v) k) else 0).
Proof.
  intros i v D. unfold ae_monopole. rewrite SwProof.ent_type, ThreeProof.ent_r. unfold coulomb_pair, coulomb_bond, within.
  set (r := dist pos b i v). set (qi := charge (typ c i)). set (qv := charge (typ c (fst v))). set (d := dvec pos b i v).
  assert (NO : forall X, X = v0 -> adds ci (fun s => s)
    (fun a => if uf c then vsub (if Nat.eqb a i then vscale (1/2) X else v0) (if Nat.eqb (fst v) a then vscale (1/2) X else v0) else v0) (1/2 * 0)
    (fun k => if (Nat.ltb k 6 && son && uf c)%bool then - (1/2 * stress_of d X k) else 0)).
  { intros X ->. constructor; intros; auto.
    - destruct (uf c), (Nat.eqb a i), (Nat.eqb (fst v) a); vring.
    - destruct (Nat.eqb d0 ci); ring.
    - rewrite stress_v0. destruct (Nat.eqb d0 ci), (Nat.ltb k 6 && son && uf c)%bool; ring. }
  destruct (Rlt_dec r dp_cut) as [RL|RL]; cbn [andb]; [|apply NO; auto].
  assert (Z : nz qi || nz qv = false -> qi * qv = 0).
  { intros Q. apply orb_false_iff in Q. destruct Q as [Q _]. apply nz_false in Q. rewrite Q. ring. }
  destruct (nz qi || nz qv)%bool.
  2: { rewrite (Z eq_refl). replace (0 * fel r) with 0 by ring. apply NO. vring. }
  set (X := vscale (qi * qv * gel r) d).
  assert (TE : vscale (1 / 2 * (qi * qv * gel r)) (n_dist (ent i v)) = vscale (1/2) X) by (rewrite (ThreeProof.ent_dist c pos b i v D); unfold X; fold d; vring).
  rewrite TE. destruct (uf c); rewrite ?andb_true_r, ?andb_false_r.
  - constructor; intros; rewrite ?andb_true_r; unfold push, add_en; cbn [frc en str err]; auto.
    + rewrite scatter_spec, SwProof.ent_nr. destruct (Nat.eqb a i), (Nat.eqb (fst v) a); vring.
    + unfold setf. destruct (Nat.eqb_spec d0 ci) as [->|]; ring.
    + rewrite (ThreeProof.ent_dist c pos b i v D). fold d. destruct son; [|rewrite andb_false_r; destruct (Nat.eqb d0 ci); ring]. rewrite andb_true_r.
      unfold setf. destruct (Nat.eqb_spec d0 ci) as [->|]; [|ring]. rewrite stress_scale. destruct (Nat.ltb k 6); ring.
  - constructor; intros; unfold add_en; cbn [frc en str err]; rewrite ?andb_false_r; auto; [vring| |].
    + unfold setf. destruct (Nat.eqb_spec d0 ci) as [->|]; ring.
    + destruct (Nat.eqb d0 ci); ring.
Qed.

(** ** one atom: the sum of the parts of force_ang.c and of the charges *)
Notation pfold i := (fun s => fold_left (AngModel.pair_body bld phi dphi in0 ci c i) (nb c i) s).
Notation mfold i := (fun s => fold_left (mono i) (nb c i) s).
Notation tfold i := (fun s => fold_left (tbody bld f df in1 g dg c ci i) (pairs (nb c i)) s).
Notation nfold i := (fun s => fold_left (ae_neighbor bld phi dphi in0 charge fel gel dp_cut ci c i) (nb c i) s).
Notation ang_atom := (AngModel.atom_body bld phi dphi in0 f df in1 g dg ci c).
Notation atom := (ae_atom bld phi dphi in0 f df in1 g dg charge fel gel dp_cut ci c).
Hypothesis FG : full_geometry c pos b rcut.
Variable L : nat -> list (nat * image).
Hypothesis HL : forall a, (lo <= a < hi)%nat -> all_neighbors c pos b rcut a (L a).

(** what the neighbour loop adds, for any list of entries *)
Lemma neighbor_split : forall i l F E S F' E' S',
  (forall e, In e l -> exists F E S, adds ci (fun s => AngModel.pair_body bld phi dphi in0 ci c i s e) F E S) ->
  (forall e, In e l -> exists F E S, adds ci (fun s => mono i s e) F E S) ->
  adds ci (fun s => fold_left (AngModel.pair_body bld phi dphi in0 ci c i) l s) F E S -> adds ci (fun s => fold_left (mono i) l s) F' E' S' ->
  adds ci (fun s => fold_left (ae_neighbor bld phi dphi in0 charge fel gel dp_cut ci c i) l s) (fun a => vadd (F a) (F' a)) (E + E') (fun k => S k + S' k).
Proof.
  intros i l. induction l as [|e l IH]; intros F E S F' E' S' HP HM A A'.
  - destruct (adds_unique _ _ _ _ _ A) as (X1 & X2 & X3). destruct (adds_unique _ _ _ _ _ A') as (Y1 & Y2 & Y3).
    eapply adds_ext; [apply adds_id|auto| | |].
    + intros a. rewrite X1, Y1. unfold cF. cbn. vring.
    + rewrite X2, Y2. unfold cE. cbn. ring.
    + intros k. rewrite X3, Y3. unfold cS. cbn. ring.
  - destruct (HP e (or_introl eq_refl)) as (F1 & E1 & S1 & P1). destruct (HM e (or_introl eq_refl)) as (F2 & E2 & S2 & P2).
    destruct (adds_fold_ex ci (AngModel.pair_body bld phi dphi in0 ci c i) l (fun e' I => HP e' (or_intror I))) as (F3 & E3 & S3 & P3). destruct (adds_fold_ex ci (mono i) l (fun e' I => HM e' (or_intror I))) as (F4 & E4 & S4 & P4).
    pose proof (IH F3 E3 S3 F4 E4 S4 (fun e' I => HP e' (or_intror I)) (fun e' I => HM e' (or_intror I)) P3 P4) as R.
    pose proof (adds_comp ci (fun s => AngModel.pair_body bld phi dphi in0 ci c i s e) (fun s => fold_left (AngModel.pair_body bld phi dphi in0 ci c i) l s) _ _ _ _ _ _ P1 P3) as U1.
    pose proof (adds_comp ci (fun s => mono i s e) (fun s => fold_left (mono i) l s) _ _ _ _ _ _ P2 P4) as U2.
    pose proof (adds_comp ci (fun s => AngModel.pair_body bld phi dphi in0 ci c i s e) (fun s => mono i s e) _ _ _ _ _ _ P1 P2) as U3.
    pose proof (adds_comp ci _ (fun s => fold_left (ae_neighbor bld phi dphi in0 charge fel gel dp_cut ci c i) l s) _ _ _ _ _ _ U3 R) as U4.
    destruct (adds_unique _ _ _ _ _ A) as (X1 & X2 & X3). destruct (adds_unique _ _ _ _ _ A') as (Y1 & Y2 & Y3).
    destruct (adds_unique _ _ _ _ _ U1) as (X4 & X5 & X6). destruct (adds_unique _ _ _ _ _ U2) as (Y4 & Y5 & Y6).
    eapply adds_ext; [exact U4|intros; reflexivity| | |].
    + intros a. change (cF (fun s => fold_left (AngModel.pair_body bld phi dphi in0 ci c i) l (AngModel.pair_body bld phi dphi in0 ci c i s e)))
        with (cF (fun s => fold_left (AngModel.pair_body bld phi dphi in0 ci c i) (e :: l) s)) in X4.
      change (cF (fun s => fold_left (mono i) l (mono i s e))) with (cF (fun s => fold_left (mono i) (e :: l) s)) in Y4.
      rewrite X1, Y1, <- X4, <- Y4. vring.
    + change (cE ci (fun s => fold_left (AngModel.pair_body bld phi dphi in0 ci c i) l (AngModel.pair_body bld phi dphi in0 ci c i s e)))
        with (cE ci (fun s => fold_left (AngModel.pair_body bld phi dphi in0 ci c i) (e :: l) s)) in X5.
      change (cE ci (fun s => fold_left (mono i) l (mono i s e))) with (cE ci (fun s => fold_left (mono i) (e :: l) s)) in Y5.
      rewrite X2, Y2, <- X5, <- Y5. ring.
    + intros k. change (cS ci (fun s => fold_left (AngModel.pair_body bld phi dphi in0 ci c i) l (AngModel.pair_body bld phi dphi in0 ci c i s e)))
        with (cS ci (fun s => fold_left (AngModel.pair_body bld phi dphi in0 ci c i) (e :: l) s)) in X6.
      change (cS ci (fun s => fold_left (mono i) l (mono i s e))) with (cS ci (fun s => fold_left (mono i) (e :: l) s)) in Y6.
      rewrite X3, Y3, <- X6, <- Y6. ring.
Qed.
(** the triples, for any loop over the neighbours before them *)
Lemma triples_merge : forall i (h : dev -> dev) F E S, adds ci (fun s => fold_left (tbody bld f df in1 g dg c ci i) (pairs (nb c i)) (h s)) F E S ->
  adds ci (fun s => let (s, sum) := AngModel.triples bld f df in1 g dg ci c i (nb c i) (h s, 0) in
    mk_dev (frc s) (setf (en s) ci (en s ci + sum)) (str s) (err s)) F E S.
Proof.
  intros i h F E S [A1 A2 A3 A4].
  set (X := fun s => let (s, sum) := AngModel.triples bld f df in1 g dg ci c i (nb c i) (h s, 0) in
    mk_dev (frc s) (setf (en s) ci (en s ci + sum)) (str s) (err s)).
  assert (K : forall s, let t := fold_left (tbody bld f df in1 g dg c ci i) (pairs (nb c i)) (h s) in
    (forall a, frc (X s) a = frc t a) /\ (forall d, en (X s) d = en t d) /\ (forall d k, str (X s) d k = str t d k) /\ err (X s) = err t).
  { intros s t. unfold X. rewrite ang_triples_fold. set (s1 := h s) in *.
    assert (R0 : rel ci (s1, 0) s1) by (unfold rel; cbn [fst snd]; repeat split; auto; intros d; destruct (Nat.eqb d ci); ring).
    apply (rel_fold bld f df in1 g dg c ci i (pairs (nb c i))) in R0. fold t in R0.
    destruct (fold_left (tstep bld f df in1 g dg c ci i) (pairs (nb c i)) (s1, 0)) as [s2 x]. destruct R0 as (R1 & R2 & R3 & R4).
    cbn [fst snd frc en str err] in *. repeat split; auto. intros d. rewrite R2. unfold setf. destruct (Nat.eqb_spec d ci) as [->|]; [auto|ring]. }
  constructor; intros; destruct (K s) as (K1 & K2 & K3 & K4).
  - rewrite K1. apply A1.
  - rewrite K2. apply A2.
  - rewrite K3. apply A3.
  - rewrite K4. apply A4.
Qed.
Lemma atom_parts : forall i, (lo <= i < hi)%nat -> forall F E S, adds ci (mfold i) F E S ->
  adds ci (ang_atom i) (cF (ang_atom i)) (cE ci (ang_atom i)) (cS ci (ang_atom i)) /\
  adds ci (atom i) (fun a => vadd (cF (ang_atom i) a) (F a)) (cE ci (ang_atom i) + E) (fun k => cS ci (ang_atom i) k + S k).
Proof.
  intros i Hi F E S M. destruct (nb_full c pos b rcut FG) as (B & NB & HB & NO).
  assert (HP : forall e, In e (nb c i) -> exists F E S, adds ci (fun s => AngModel.pair_body bld phi dphi in0 ci c i s e) F E S).
  { intros e I. rewrite (NB i Hi) in I. apply in_map_iff in I. destruct I as (v & <- & V). do 3 eexists. apply ang_pair_adds. apply NO; auto. }
  assert (HM : forall e, In e (nb c i) -> exists F E S, adds ci (fun s => mono i s e) F E S).
  { intros e I. rewrite (NB i Hi) in I. apply in_map_iff in I. destruct I as (v & <- & V). do 3 eexists. apply mono_adds. apply NO; auto. }
  assert (P : exists F E S, adds ci (pfold i) F E S).
  { apply adds_fold_ex. auto. }
  assert (T : exists F E S, adds ci (tfold i) F E S).
  { apply adds_fold_ex. intros p I. rewrite (NB i Hi), pairs_map in I. apply in_map_iff in I. destruct I as (q & <- & Hq). apply pairs_in in Hq. destruct Hq as [Q1 Q2].
    do 3 eexists. apply ang_tbody_adds; apply NO; auto. }
  destruct P as (Fp & Ep & Sp & P). destruct T as (Ft & Et & St & T).
  pose proof (neighbor_split i (nb c i) _ _ _ _ _ _ HP HM P M) as N.
  pose proof (triples_merge i (pfold i) _ _ _ (adds_comp ci (pfold i) (tfold i) _ _ _ _ _ _ P T)) as A1.
  pose proof (triples_merge i (nfold i) _ _ _ (adds_comp ci (nfold i) (tfold i) _ _ _ _ _ _ N T)) as A2.
  change (adds ci (ang_atom i) (fun a => vadd (Fp a) (Ft a)) (Ep + Et) (fun k => Sp k + St k)) in A1.
  split; [exact (adds_canon _ _ _ _ _ A1)|].
  destruct (adds_unique _ _ _ _ _ A1) as (X1 & X2 & X3).
  eapply adds_ext; [exact A2|intros; reflexivity| | |].
  - intros a. rewrite <- X1. cbv beta. vring.
  - rewrite <- X2. ring.
  - intros k. rewrite <- X3. cbv beta. ring.
Qed.
End Ae.
