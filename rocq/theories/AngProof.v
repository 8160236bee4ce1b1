(** The angular force routine: what its loops add. *)
From Coq Require Import Reals ZArith List Bool Lia Lra Permutation.
From Verif Require Import Vec NbrModel NbrProof NbrProof2 LoopUtil PairModel PairProof PairSpec PairProof2 PairProof3
  ForceLoop BondProof GradProof ThreeSpec ThreeProof ThreeProof2 ThreeProof3 ThreeProof4 AddProof AddProof2 SwModel SwProof AngSpec AngModel.
Import ListNotations.
Local Open Scope R_scope.

Section Ang.
Variable bld : build.
Variables phi dphi : nat -> nat -> R -> R.
Variable in0 : nat -> nat -> R -> bool.
Variables f df : nat -> nat -> R -> R.
Variable in1 : nat -> nat -> R -> bool.
Variables g dg : nat -> R -> R.
Hypothesis DS : forall s t r, dphi s t r = dphi t s r.
Hypothesis IS : forall s t r, in0 s t r = in0 t s r.
Variables (c : conf) (pos : nat -> vec) (b : box) (rcut : nat -> nat -> R) (ci : nat).
Notation lo := (cnfstart c).
Notation hi := (cnfstart c + inconf c)%nat.
Notation ent i v := (entry pos (typ c) b i (fst v) (snd v)).
Notation son := (STRESS bld && us c)%bool.
Notation be := (bond_energy c pos b phi in0).
Notation bf := (bond_force c pos b dphi in0).
Notation h := (ang f in1 g).
Notation h1 := (ang1 f df in1 g).
Notation hc := (angc f in1 dg).
Notation T := (tri_grad c pos b h1 hc).
Notation H := (at_ c pos b h).

Lemma ang_pair_adds : forall i v, dvec pos b i v <> v0 -> adds ci (fun s => AngModel.pair_body bld phi dphi in0 ci c i s (ent i v))
  (fun a => if (Nat.eqb a i && uf c)%bool then vscale (wself 1 i v) (bf i v) else v0)
  (1/2 * (wself 1 i v * be i v))
  (fun k => if (Nat.ltb k 6 && son && uf c)%bool then - (1/2 * (wself 1 i v * stress_of (dvec pos b i v) (bf i v) k)) else 0).
Proof.
  intros i v D. pose proof (dist_pos pos b i v D) as P.
  unfold AngModel.pair_body. rewrite ent_type, ent_r, (ent_dist_r c pos b i v D), (ent_dist c pos b i v D).
  assert (W : wself 1 i v = 1) by (unfold wself; destruct (Nat.eqb (fst v) i); auto). rewrite W.
  unfold bond_force, bond_energy, active. set (r := dist pos b i v) in *. set (ti := typ c i). set (tv := typ c (fst v)).
  destruct (in0 ti tv r).
  - assert (FE : vscale (dphi ti tv r) (vscale (/ r) (dvec pos b i v)) = vscale (dphi ti tv r / r) (dvec pos b i v)) by (unfold Rdiv; vring).
    rewrite FE. set (F0 := vscale (dphi ti tv r / r) (dvec pos b i v)).
    destruct (uf c) eqn:U; rewrite ?andb_true_r, ?andb_false_r; constructor; cbn [frc en str err]; intros; rewrite ?andb_true_r, ?andb_false_r; auto.
    + rewrite add_force_spec. destruct (Nat.eqb a i); vring.
    + unfold setf. destruct (Nat.eqb_spec d ci) as [->|]; [|ring]. field.
    + destruct son; [|rewrite ?andb_false_r; destruct (Nat.eqb d ci); cbn [andb]; ring]. rewrite add_stress_spec, ?andb_true_r.
      destruct (Nat.eqb d ci); auto. destruct (Nat.ltb k 6); ring.
    + vring.
    + unfold setf. destruct (Nat.eqb_spec d ci) as [->|]; [|ring]. field.
    + destruct (Nat.eqb d ci); ring.
  - constructor; intros; auto.
    + destruct (Nat.eqb a i && uf c)%bool; vring.
    + destruct (Nat.eqb d ci); ring.
    + destruct (Nat.eqb d ci); [|ring]. rewrite stress_v0. destruct (Nat.ltb k 6 && son && uf c)%bool; ring.
Qed.

(** the body of the loop over pairs of neighbours with the energy added at once *)
Notation tri := (AngModel.tri_body bld f df in1 g dg ci c).
Definition tstep (i : nat) (st : dev * R) (p : neigh * neigh) : dev * R :=
  if in1 (typ c i) (n_type (fst p)) (n_r (fst p)) then tri i (fst p) st (snd p) else st.
Definition merge (st : dev * R) : dev := mk_dev (frc (fst st)) (setf (en (fst st)) ci (en (fst st) ci + snd st)) (str (fst st)) (err (fst st)).
Definition tbody (i : nat) (s : dev) (p : neigh * neigh) : dev := merge (tstep i (s, 0) p).
Definition rel (st : dev * R) (s : dev) : Prop :=
  (forall a, frc (fst st) a = frc s a) /\ (forall d, en s d = en (fst st) d + (if Nat.eqb d ci then snd st else 0)) /\
  (forall d k, str (fst st) d k = str s d k) /\ err (fst st) = err s.
Lemma rel_step : forall i st s p, rel st s -> rel (tstep i st p) (tbody i s p).
Proof.
  intros i [s0 x] s p (A & B & C & D). cbn [fst snd] in *. unfold tbody, tstep.
  assert (ID : rel (s0, x) (merge (s, 0))).
  { unfold rel, merge. cbn [fst snd frc en str err]. repeat split; auto. intros d. unfold setf. destruct (Nat.eqb_spec d ci) as [->|N]; [rewrite B, Nat.eqb_refl; ring|rewrite B; destruct (Nat.eqb_spec d ci); [contradiction|ring]]. }
  destruct (in1 (typ c i) (n_type (fst p)) (n_r (fst p))); [|exact ID].
  unfold AngModel.tri_body. destruct (in1 (typ c i) (n_type (snd p)) (n_r (snd p))); [|exact ID].
  destruct (uf c).
  - unfold rel, merge. cbn [fst snd frc en str err]. repeat split; auto.
    + intros a. rewrite !add_force_spec, A. auto.
    + intros d. unfold setf. destruct (Nat.eqb_spec d ci) as [->|N]; [rewrite B, Nat.eqb_refl; ring|rewrite B; destruct (Nat.eqb_spec d ci); [contradiction|ring]].
    + intros d k. destruct son; [|auto]. rewrite !add_stress_spec, C. auto.
  - unfold rel, merge. cbn [fst snd frc en str err]. repeat split; auto.
    intros d. unfold setf. destruct (Nat.eqb_spec d ci) as [->|N]; [rewrite B, Nat.eqb_refl; ring|rewrite B; destruct (Nat.eqb_spec d ci); [contradiction|ring]].
Qed.
Lemma rel_fold : forall i l st s, rel st s -> rel (fold_left (tstep i) l st) (fold_left (tbody i) l s).
Proof. intros i l. induction l as [|p l IH]; intros st s R; [auto|]. cbn [fold_left]. apply IH, rel_step. auto. Qed.
Lemma ang_triples_fold : forall i l st, AngModel.triples bld f df in1 g dg ci c i l st = fold_left (tstep i) (pairs l) st.
Proof.
  intros i l st. unfold tstep.
  apply (fold_pairs (fun e => in1 (typ c i) (n_type e) (n_r e)) (tri i) (AngModel.triples bld f df in1 g dg ci c i)); auto.
Qed.
(** the loop over the atoms adds what the merged loops add *)
Notation atom := (AngModel.atom_body bld phi dphi in0 f df in1 g dg ci c).
Lemma atom_merge : forall i F E S, adds ci (fun s => fold_left (tbody i) (pairs (nb c i)) (fold_left (AngModel.pair_body bld phi dphi in0 ci c i) (nb c i) s)) F E S ->
  adds ci (atom i) F E S.
Proof.
  intros i F E S [A1 A2 A3 A4].
  assert (K : forall s, let t := fold_left (tbody i) (pairs (nb c i)) (fold_left (AngModel.pair_body bld phi dphi in0 ci c i) (nb c i) s) in
    (forall a, frc (atom i s) a = frc t a) /\ (forall d, en (atom i s) d = en t d) /\ (forall d k, str (atom i s) d k = str t d k) /\ err (atom i s) = err t).
  { intros s t. unfold AngModel.atom_body. rewrite ang_triples_fold. set (s1 := fold_left (AngModel.pair_body bld phi dphi in0 ci c i) (nb c i) s) in *.
    assert (R0 : rel (s1, 0) s1) by (unfold rel; cbn [fst snd]; repeat split; auto; intros d; destruct (Nat.eqb d ci); ring).
    apply (rel_fold i (pairs (nb c i))) in R0. fold t in R0. destruct (fold_left (tstep i) (pairs (nb c i)) (s1, 0)) as [s2 x]. destruct R0 as (R1 & R2 & R3 & R4).
    cbn [fst snd frc en str err] in *. repeat split; auto. intros d. rewrite R2. unfold setf. destruct (Nat.eqb_spec d ci) as [->|]; [auto|ring]. }
  constructor; intros; destruct (K s) as (K1 & K2 & K3 & K4).
  - rewrite K1. apply A1.
  - rewrite K2. apply A2.
  - rewrite K3. apply A3.
  - rewrite K4. apply A4.
Qed.

Lemma T_zero' : forall i v w, in1 (typ c i) (typ c (fst v)) (dist pos b i v) = false \/ in1 (typ c i) (typ c (fst w)) (dist pos b i w) = false -> T i v w = v0.
Proof.
  intros i v w Z. unfold tri_grad, at_, ang1, angc, off. destruct Z as [-> | ->]; unfold Rdiv; vring.
Qed.
Theorem ang_tbody_adds : forall i v w, dvec pos b i v <> v0 -> dvec pos b i w <> v0 -> adds ci (fun s => tbody i s (ent i v, ent i w))
  (fun a => if uf c then vsub (vsub (if Nat.eqb a i then vadd (T i v w) (T i w v) else v0) (if Nat.eqb (fst v) a then T i v w else v0)) (if Nat.eqb (fst w) a then T i w v else v0) else v0)
  (H i v w)
  (fun k => if (Nat.ltb k 6 && son && uf c)%bool then - (stress_of (dvec pos b i v) (T i v w) k + stress_of (dvec pos b i w) (T i w v) k) else 0).
Proof.
  intros i v w D1 D2. pose proof (dist_pos pos b i v D1) as P1. pose proof (dist_pos pos b i w D2) as P2.
  assert (NOTHING : T i v w = v0 -> T i w v = v0 -> H i v w = 0 -> adds ci (fun s => merge (s, 0))
    (fun a => if uf c then vsub (vsub (if Nat.eqb a i then vadd (T i v w) (T i w v) else v0) (if Nat.eqb (fst v) a then T i v w else v0)) (if Nat.eqb (fst w) a then T i w v else v0) else v0)
    (H i v w)
    (fun k => if (Nat.ltb k 6 && son && uf c)%bool then - (stress_of (dvec pos b i v) (T i v w) k + stress_of (dvec pos b i w) (T i w v) k) else 0)).
  { intros -> -> ->. unfold merge. constructor; cbn [fst snd frc en str err]; intros; auto.
    - destruct (uf c), (Nat.eqb a i), (Nat.eqb (fst v) a), (Nat.eqb (fst w) a); vring.
    - unfold setf. destruct (Nat.eqb_spec d ci) as [->|]; ring.
    - destruct (Nat.eqb d ci); [|ring]. rewrite !stress_v0. destruct (Nat.ltb k 6 && son && uf c)%bool; ring. }
  unfold tbody, tstep. cbn [fst snd]. rewrite ent_type, ent_r.
  set (ti := typ c i) in *. set (tv := typ c (fst v)) in *. set (tw := typ c (fst w)) in *.
  destruct (in1 ti tv (dist pos b i v)) eqn:IN1.
  2: { apply NOTHING; [apply T_zero'; auto|apply T_zero'; auto|]. unfold at_, ang, off. fold ti tv tw. rewrite IN1. ring. }
  unfold AngModel.tri_body. rewrite !ent_type, !ent_r, !ent_nr, !ent_inv. fold ti tv tw.
  destruct (in1 ti tw (dist pos b i w)) eqn:IN2.
  2: { apply NOTHING; [apply T_zero'; auto|apply T_zero'; auto|]. unfold at_, ang, off. fold ti tv tw. rewrite IN2. ring. }
  rewrite (ent_cos c pos b i v w D1 D2), (ent_dist c pos b i v D1), (ent_dist c pos b i w D2), (ent_dist_r c pos b i v D1), (ent_dist_r c pos b i w D2).
  unfold fv, fd. rewrite !ent_type, !ent_r. fold ti tv tw. rewrite IN1, IN2.
  set (x := cosine pos b i v w). set (rv := dist pos b i v) in *. set (rw := dist pos b i w) in *. set (dv := dvec pos b i v). set (dw := dvec pos b i w).
  set (fv := f ti tv rv). set (fw := f ti tw rw). set (gv := df ti tv rv). set (gw := df ti tw rw). set (G := g ti x). set (G' := dg ti x).
  assert (E1 : vadd (vscale (G * gv * fw - fv * fw * G' * (1 / rv) * x) (vscale (/ rv) dv)) (vscale (fv * fw * G' * (1 / rv)) (vscale (/ rw) dw)) = T i v w).
  { unfold tri_grad, at_, ang1, angc, off. fold ti tv tw rv rw x. rewrite IN1, IN2. fold fv fw gv gw dv dw G G'. apply vec_eq; simpl; field; lra. }
  assert (E2 : vadd (vscale (G * fv * gw - fv * fw * G' * (1 / rw) * x) (vscale (/ rw) dw)) (vscale (fv * fw * G' * (1 / rw)) (vscale (/ rv) dv)) = T i w v).
  { unfold tri_grad, at_, ang1, angc, off. rewrite (cos_sym' pos b i w v). fold ti tv tw rv rw x. rewrite IN1, IN2. fold fv fw gv gw dv dw G G'. apply vec_eq; simpl; field; lra. }
  assert (HE : H i v w = fv * fw * G) by (unfold at_, ang, off; fold ti tv tw rv rw x; rewrite IN1, IN2; auto). rewrite HE.
  destruct (uf c) eqn:U; unfold merge; rewrite ?andb_true_r, ?andb_false_r; constructor; cbn [fst snd frc en str err]; intros; rewrite ?andb_true_r, ?andb_false_r; auto.
  - rewrite !add_force_spec, E1, E2, (Nat.eqb_sym a (fst v)), (Nat.eqb_sym a (fst w)).
    destruct (Nat.eqb a i), (Nat.eqb (fst v) a), (Nat.eqb (fst w) a); vring.
  - unfold setf. destruct (Nat.eqb_spec d ci) as [->|]; ring.
  - destruct son; [|rewrite ?andb_false_r; destruct (Nat.eqb d ci); cbn [andb]; ring].
    rewrite !add_stress_spec, andb_true_r, E1, E2. destruct (Nat.eqb d ci); [|ring]. destruct (Nat.ltb k 6); ring.
  - vring.
  - unfold setf. destruct (Nat.eqb_spec d ci) as [->|]; ring.
  - destruct (Nat.eqb d ci); ring.
Qed.
Lemma ang_sym : forall i v w, H i v w = H i w v.
Proof. intros. unfold at_, ang. rewrite (cos_sym' pos b i w v). ring. Qed.

Hypothesis FG : full_geometry c pos b rcut.
Variable L : nat -> list (nat * image).
Hypothesis HL : forall a, (lo <= a < hi)%nat -> all_neighbors c pos b rcut a (L a).
Theorem ang_atoms_adds : adds ci (for_up lo hi atom)
  (fun a => if inside c a then (if uf c then vadd (pair_force c pos b dphi in0 L a) (three_force c pos b h1 hc L a) else v0) else v0)
  (pair_energy c pos b phi in0 L + three_energy c pos b h L)
  (fun k => if (Nat.ltb k 6 && son && uf c)%bool then pair_virial c pos b dphi in0 L k + three_virial c pos b h1 hc L k else 0).
Proof.
  destruct (nb_full c pos b rcut FG) as (B & NB & HB & NO).
  eapply (adds_ext ci).
  - apply (both_adds c pos b rcut ci FG L HL B NB HB phi dphi in0 DS IS 1 (uf c) (uf c) son
      (fun i s e => AngModel.pair_body bld phi dphi in0 ci c i s e) (fun i v Hi Hv => ang_pair_adds i v (NO i v Hi Hv))
      h h1 hc ang_sym atom tbody).
    + intros i v w Hi Hv Hw. apply ang_tbody_adds; apply NO; auto.
    + intros i Hi F E S A. apply atom_merge. exact A.
  - auto.
  - intros a. cbv beta. destruct (inside c a); auto. destruct (uf c); auto; vring.
  - field.
  - intros k. cbv beta. destruct (uf c); rewrite ?andb_true_r, ?andb_false_r; [|destruct (Nat.ltb k 6 && son)%bool; ring]. destruct (Nat.ltb k 6 && son)%bool; auto. field.
Qed.
End Ang.
