(** The Stillinger-Weber routine: closed form. *)
From Coq Require Import Reals ZArith List Bool Lia Lra Permutation.
From Verif Require Import Vec NbrModel NbrProof NbrProof2 LoopUtil PairIndexModel PairIndexProof PairModel PairProof PairSpec PairProof2
  ForceLoop LammpsModel ThreeSpec ThreeProof ThreeProof2 AddProof SwSpec SwModel.
Import ListNotations.
Local Open Scope R_scope.

Lemma col_sym : forall n s t, col n s t = col n t s.
Proof. intros. unfold col. rewrite pair_index_sym. auto. Qed.
Lemma add_force_spec : forall f i v a, add_force f i v a = vadd (f a) (if Nat.eqb a i then v else v0).
Proof. exact push_spec. Qed.
Lemma add_stress_spec : forall ci s t d k, add_stress ci s t d k = s d k + (if Nat.eqb d ci then (if Nat.ltb k 6 then - t k else 0) else 0).
Proof. intros. unfold add_stress, setf. destruct (Nat.eqb_spec d ci) as [->|]; [|ring]. destruct (Nat.ltb k 6); ring. Qed.

Section Sw.
Variables (bld : build) (pow0 : R -> R -> R) (V : nat -> nat -> R) (lam : nat -> nat -> nat -> R) (n : nat).
Hypothesis LS : forall i j k, lam i j k = lam i k j.
Definition par (s t : nat) : sw_pair :=
  let k := col n s t in let q := (pcol n + col n s t)%nat in
  mk_sw (V k 0) (V k 1) (V k 2) (V k 3) (V k 4) (V k 5) (V q 0%nat) (V q 1%nat).
Lemma par_sym : forall s t, par s t = par t s.
Proof. intros. unfold par. rewrite (col_sym n s t). auto. Qed.
Lemma two_sym : forall s t r, two par s t r = two par t s r.
Proof. intros. unfold two. rewrite (par_sym s t). auto. Qed.
Lemma two'_sym : forall s t r, two' par s t r = two' par t s r.
Proof. intros. unfold two'. rewrite (par_sym s t), (two_sym s t). auto. Qed.
Lemma two_in_sym : forall s t r, two_in par s t r = two_in par t s r.
Proof. intros. unfold two_in. rewrite (par_sym s t). auto. Qed.

Variables (c : conf) (pos : nat -> vec) (b : box) (rcut : nat -> nat -> R) (ci : nat).
Notation lo := (cnfstart c).
Notation hi := (cnfstart c + inconf c)%nat.
Notation ent i v := (entry pos (typ c) b i (fst v) (snd v)).
Notation son := (STRESS bld && us c)%bool.
Notation be := (bond_energy c pos b (two par) (two_in par)).
Notation bf := (bond_force c pos b (two' par) (two_in par)).
Notation T := (tri_grad c pos b (three1 par lam) (threec par lam)).
Notation H := (at_ c pos b (three par lam)).

Lemma ent_type : forall i v, n_type (ent i v) = typ c (fst v).
Proof. intros i [j m]. auto. Qed.
Lemma ent_nr : forall i v, n_nr (ent i v) = fst v.
Proof. intros i [j m]. auto. Qed.
Lemma ent_inv : forall i v, n_inv_r (ent i v) = 1 / dist pos b i v.
Proof. intros i [j m]. unfold entry, dist, dvec. simpl. rewrite shift_displacement. auto. Qed.
Lemma ent_r2 : forall i v, n_r2 (ent i v) = dist pos b i v * dist pos b i v.
Proof. intros i [j m]. unfold entry, dist, dvec. simpl. rewrite shift_displacement. auto. Qed.

Lemma pair_body_adds : forall i v, dvec pos b i v <> v0 -> adds ci (fun s => pair_body bld pow0 V n ci c i s (ent i v))
  (fun a => if (Nat.eqb a i && uf c)%bool then vscale (wself (1/2) i v) (bf i v) else v0)
  (1/2 * (wself (1/2) i v * be i v))
  (fun k => if (Nat.ltb k 6 && son && uf c)%bool then - (1/2 * (wself (1/2) i v * stress_of (dvec pos b i v) (bf i v) k)) else 0).
Proof.
  intros i v D. pose proof (dist_pos pos b i v D) as P.
  unfold pair_body. rewrite ent_type, ent_nr, ent_r, ent_inv, (ent_dist_r c pos b i v D), (ent_dist c pos b i v D).
  unfold bond_force, bond_energy, active, two_in, wself, two', two. unfold par. cbn [sw_A sw_B sw_p sw_q sw_delta sw_a1].
  set (k := col n (typ c i) (typ c (fst v))). set (r := dist pos b i v) in *.
  destruct (Rlt_dec r (V k 5)) as [IN|OUT].
  - assert (CP : forall y, cpow pow0 r y = Rpower r y) by (intros; unfold cpow; destruct (Rlt_dec 0 r); [auto|contradiction]).
    rewrite !CP. set (pr := Rpower r (- V k 2)). set (qr := Rpower r (- V k 3)). replace (V k 4 * (1 / (r - V k 5))) with (V k 4 / (r - V k 5)) by (field; lra).
    set (ex := exp (V k 4 / (r - V k 5))).
    assert (FE : forall w : R, vscale w (vscale (((- V k 2 * V k 0 * pr + V k 3 * V k 1 * qr) / r * ex - V k 4 / ((r - V k 5) * (r - V k 5)) * ((V k 0 * pr - V k 1 * qr) * ex)) / r) (dvec pos b i v)) =
      vscale ((- ((V k 0 * pr + - V k 1 * qr) * ex) * V k 4 * (1 / (r - V k 5)) * (1 / (r - V k 5)) - ex * (1 / r) * (V k 2 * (V k 0 * pr) + V k 3 * (- V k 1 * qr))) * w) (vscale (/ r) (dvec pos b i v))).
    { intros w. apply vec_eq; simpl; field; lra. }
    assert (W : forall x : R, (if Nat.eqb (fst v) i then x * (1/2) else x) = x * (if Nat.eqb (fst v) i then 1/2 else 1)) by (intros; destruct (Nat.eqb (fst v) i); ring).
    rewrite !W. set (w := if Nat.eqb (fst v) i then 1/2 else 1). clearbody w. specialize (FE w).
    assert (ST : forall k', w * stress_of (dvec pos b i v) (vscale (((- V k 2 * V k 0 * pr + V k 3 * V k 1 * qr) / r * ex - V k 4 / ((r - V k 5) * (r - V k 5)) * ((V k 0 * pr - V k 1 * qr) * ex)) / r) (dvec pos b i v)) k' =
      stress_of (dvec pos b i v) (vscale w (vscale (((- V k 2 * V k 0 * pr + V k 3 * V k 1 * qr) / r * ex - V k 4 / ((r - V k 5) * (r - V k 5)) * ((V k 0 * pr - V k 1 * qr) * ex)) / r) (dvec pos b i v))) k').
    { intros kk. symmetry. apply stress_scale. }
    set (F0 := vscale (((- V k 2 * V k 0 * pr + V k 3 * V k 1 * qr) / r * ex - V k 4 / ((r - V k 5) * (r - V k 5)) * ((V k 0 * pr - V k 1 * qr) * ex)) / r) (dvec pos b i v)) in *.
    destruct (uf c) eqn:U; rewrite ?andb_true_r, ?andb_false_r; constructor; cbn [frc en str err]; intros; rewrite ?andb_true_r, ?andb_false_r; auto.
    + rewrite add_force_spec, FE. destruct (Nat.eqb a i); auto.
    + unfold setf. destruct (Nat.eqb_spec d ci) as [->|]; [|ring]. field.
    + destruct son; [|rewrite ?andb_false_r; destruct (Nat.eqb d ci); cbn [andb]; ring]. rewrite add_stress_spec, ?andb_true_r. rewrite ST, FE. auto.
    + vring.
    + unfold setf. destruct (Nat.eqb_spec d ci) as [->|]; [|ring]. field.
    + destruct (Nat.eqb d ci); ring.
  - constructor; intros; auto.
    + destruct (Nat.eqb a i && uf c)%bool; vring.
    + destruct (Nat.eqb d ci); ring.
    + destruct (Nat.eqb d ci); [|ring]. rewrite stress_v0. destruct (Nat.ltb k0 6 && son && uf c)%bool; ring.
Qed.

(** the body of the loop over pairs of neighbours *)
Definition tbody (i : nat) (s : dev) (p : neigh * neigh) : dev :=
  if (if Rlt_dec (n_r (fst p)) (V (pcol n + col n (typ c i) (n_type (fst p)))%nat 1%nat) then true else false)
  then tri_body bld V lam n ci c i (fst p) s (snd p) else s.
Lemma tri_stress_sym : forall dj dk A B C k, 
  tri_stress dj dk (vadd (vscale A dj) (vscale B dk)) (vadd (vscale C dk) (vscale B dj)) k =
  stress_of dj (vadd (vscale A dj) (vscale B dk)) k + stress_of dk (vadd (vscale C dk) (vscale B dj)) k.
Proof. intros. destruct k as [|[|[|[|[|]]]]]; simpl; field. Qed.
Lemma cut_eq : forall i j r, r < sw_a2 (par i j) -> cut_f V n (col n i j) r = cut par i j r.
Proof.
  intros i j r L. unfold cut_f, cut, reached, par in *. cbn [sw_gamma sw_a2] in *. set (q := (pcol n + col n i j)%nat) in *.
  destruct (Rlt_dec r (V q 1%nat)); [|contradiction]. destruct (Rlt_dec (r - V q 1%nat) _); auto. f_equal. field. lra.
Qed.
Lemma cut_d_eq : forall i j r, 0 < r -> r < sw_a2 (par i j) -> cut_df V n (col n i j) r = cut' par i j r / r.
Proof.
  intros i j r P L. unfold cut_df, cut', reached, par in *. cbn [sw_gamma sw_a2] in *. set (q := (pcol n + col n i j)%nat) in *.
  destruct (Rlt_dec r (V q 1%nat)); [|contradiction]. destruct (Rlt_dec (r - V q 1%nat) _); [|field; lra].
  replace (V q 0%nat * (1 / (r - V q 1%nat))) with (V q 0%nat / (r - V q 1%nat)) by (field; lra). field. lra.
Qed.
Lemma cut_zero : forall i j r, ~ r < sw_a2 (par i j) -> cut par i j r = 0 /\ cut' par i j r = 0.
Proof. intros i j r L. unfold cut, cut', reached. destruct (Rlt_dec r (sw_a2 (par i j))); [contradiction|]. auto. Qed.
Lemma cos_sym' : forall i v w, cosine pos b i v w = cosine pos b i w v.
Proof. intros. unfold cosine. rewrite (Rmult_comm (dist pos b i w)). f_equal. unfold sprod. ring. Qed.
Lemma T_zero : forall i v w, (cut par (typ c i) (typ c (fst w)) (dist pos b i w) = 0 \/ lam (typ c i) (typ c (fst v)) (typ c (fst w)) = 0 \/
    (cut par (typ c i) (typ c (fst v)) (dist pos b i v) = 0 /\ cut' par (typ c i) (typ c (fst v)) (dist pos b i v) = 0)) -> T i v w = v0.
Proof.
  intros i v w Z. unfold tri_grad, at_, three1, threec, bend, bend'. destruct Z as [-> | [-> | [-> ->]]]; unfold Rdiv; vring.
Qed.
Theorem tbody_adds : forall i v w, dvec pos b i v <> v0 -> dvec pos b i w <> v0 -> adds ci (fun s => tbody i s (ent i v, ent i w))
  (fun a => if true then vsub (vsub (if Nat.eqb a i then vadd (T i v w) (T i w v) else v0) (if Nat.eqb (fst v) a then T i v w else v0)) (if Nat.eqb (fst w) a then T i w v else v0) else v0)
  (H i v w)
  (fun k => if (Nat.ltb k 6 && son && true)%bool then - (stress_of (dvec pos b i v) (T i v w) k + stress_of (dvec pos b i w) (T i w v) k) else 0).
Proof.
  intros i v w D1 D2. pose proof (dist_pos pos b i v D1) as P1. pose proof (dist_pos pos b i w D2) as P2.
  assert (NOTHING : T i v w = v0 -> T i w v = v0 -> H i v w = 0 -> adds ci (fun s => s)
    (fun a => if true then vsub (vsub (if Nat.eqb a i then vadd (T i v w) (T i w v) else v0) (if Nat.eqb (fst v) a then T i v w else v0)) (if Nat.eqb (fst w) a then T i w v else v0) else v0)
    (H i v w)
    (fun k => if (Nat.ltb k 6 && son && true)%bool then - (stress_of (dvec pos b i v) (T i v w) k + stress_of (dvec pos b i w) (T i w v) k) else 0)).
  { intros -> -> ->. constructor; intros; auto.
    - destruct (Nat.eqb a i), (Nat.eqb (fst v) a), (Nat.eqb (fst w) a); vring.
    - destruct (Nat.eqb d ci); ring.
    - destruct (Nat.eqb d ci); [|ring]. rewrite !stress_v0. destruct (Nat.ltb k 6 && son && true)%bool; ring. }
  unfold tbody. cbn [fst snd]. rewrite ent_type, ent_r.
  set (ti := typ c i) in *. set (tv := typ c (fst v)) in *. set (tw := typ c (fst w)) in *.
  destruct (Rlt_dec (dist pos b i v) (V (pcol n + col n ti tv)%nat 1%nat)) as [IN1|OUT].
  2: { destruct (cut_zero ti tv (dist pos b i v) OUT) as [Z1 Z2]. apply NOTHING.
    - apply T_zero. fold ti tv tw. tauto.
    - apply T_zero. fold ti tv tw. tauto.
    - unfold at_, three. fold ti tv tw. rewrite Z1. ring. }
  unfold tri_body. rewrite !ent_type, !ent_r, !ent_nr, !ent_r2. fold ti tv tw.
  destruct (Req_EM_T 0 (lam ti tv tw)) as [Z|NZ].
  { apply NOTHING.
    - apply T_zero. fold ti tv tw. auto.
    - apply T_zero. fold ti tv tw. rewrite (LS ti tw tv). auto.
    - unfold at_, three, bend. fold ti tv tw. rewrite <- Z. ring. }
  destruct (Rlt_dec (dist pos b i w) (V (pcol n + col n ti tw)%nat 1%nat)) as [IN2|OUT].
  2: { destruct (cut_zero ti tw (dist pos b i w) OUT) as [Z1 Z2]. apply NOTHING.
    - apply T_zero. fold ti tv tw. tauto.
    - apply T_zero. fold ti tv tw. tauto.
    - unfold at_, three. fold ti tv tw. rewrite Z1. ring. }
  rewrite (ent_cos c pos b i v w D1 D2), (ent_dist c pos b i v D1), (ent_dist c pos b i w D2).
  rewrite (cut_eq ti tv) by exact IN1. rewrite (cut_eq ti tw) by exact IN2. rewrite (cut_d_eq ti tv) by auto. rewrite (cut_d_eq ti tw) by auto.
  set (x := cosine pos b i v w). set (rv := dist pos b i v) in *. set (rw := dist pos b i w) in *. set (dv := dvec pos b i v). set (dw := dvec pos b i w).
  set (fv := cut par ti tv rv). set (fw := cut par ti tw rw). set (gv := cut' par ti tv rv). set (gw := cut' par ti tw rw).
  assert (E1 : vadd (vscale (lam ti tv tw * (x + 1/3) * (x + 1/3) * (gv / rv) * fw - lam ti tv tw * fv * fw * 2 * (x + 1/3) * x * (1 / (rv * rv))) dv)
      (vscale (lam ti tv tw * fv * fw * 2 * (x + 1/3) * (1 / (rv * rw))) dw) = T i v w).
  { unfold tri_grad, at_, three1, threec, bend, bend'. fold ti tv tw rv rw x fv fw gv gw dv dw. apply vec_eq; simpl; field; lra. }
  assert (E2 : vadd (vscale (lam ti tv tw * (x + 1/3) * (x + 1/3) * (gw / rw) * fv - lam ti tv tw * fv * fw * 2 * (x + 1/3) * x * (1 / (rw * rw))) dw)
      (vscale (lam ti tv tw * fv * fw * 2 * (x + 1/3) * (1 / (rv * rw))) dv) = T i w v).
  { unfold tri_grad, at_, three1, threec, bend, bend'. rewrite (cos_sym' i w v). fold ti tv tw. rewrite (LS ti tw tv). fold rv rw x fv fw gv gw dv dw. apply vec_eq; simpl; field; lra. }
  constructor; cbn [frc en str err]; intros; auto.
  - rewrite !add_force_spec, E1, E2, (Nat.eqb_sym a (fst v)), (Nat.eqb_sym a (fst w)).
    destruct (Nat.eqb a i), (Nat.eqb (fst v) a), (Nat.eqb (fst w) a); vring.
  - unfold setf, at_, three, bend. fold ti tv tw rv rw x fv fw. destruct (Nat.eqb_spec d ci) as [->|]; [|ring]. ring.
  - rewrite andb_true_r. destruct son; [|rewrite ?andb_false_r; destruct (Nat.eqb d ci); cbn [andb]; ring].
    rewrite add_stress_spec, andb_true_r. destruct (Nat.eqb d ci); auto. f_equal. destruct (Nat.ltb k 6); auto.
    rewrite tri_stress_sym, E1, E2. auto.
Qed.
Lemma triples_fold : forall i l s, triples bld V lam n ci c i l s = fold_left (tbody i) (pairs l) s.
Proof.
  intros i l s. unfold tbody.
  apply (fold_pairs (fun e => if Rlt_dec (n_r e) (V (pcol n + col n (typ c i) (n_type e))%nat 1%nat) then true else false) (tri_body bld V lam n ci c i) (triples bld V lam n ci c i)).
  - auto.
  - intros x r t. cbn [triples]. destruct (Rlt_dec _ _); auto.
Qed.
Lemma H_sym : forall i v w, H i v w = H i w v.
Proof. intros. unfold at_, three, bend. rewrite (cos_sym' i w v), (LS _ (typ c (fst w))). ring. Qed.

Hypothesis FG : full_geometry c pos b rcut.
Variable L : nat -> list (nat * image).
Hypothesis HL : forall a, (lo <= a < hi)%nat -> all_neighbors c pos b rcut a (L a).
Definition pairF := pair_force c pos b (two' par) (two_in par) L.
Definition triF := three_force c pos b (three1 par lam) (threec par lam) L.
Definition energyE := pair_energy c pos b (two par) (two_in par) L - 1/2 * self_energy c pos b L (two par) (two_in par) + three_energy c pos b (three par lam) L.
Definition pairS (k : nat) := pair_virial c pos b (two' par) (two_in par) L k - 1/2 * self_virial c pos b L (two' par) (two_in par) k.
Definition triS (k : nat) := three_virial c pos b (three1 par lam) (threec par lam) L k.

Theorem atoms_adds : adds ci (for_up lo hi (atom_body bld pow0 V lam n ci c))
  (fun a => if inside c a then vadd (if uf c then pairF a else v0) (triF a) else v0) energyE
  (fun k => if (Nat.ltb k 6 && son)%bool then (if uf c then pairS k else 0) + triS k else 0).
Proof.
  destruct (nb_full c pos b rcut FG) as (B & NB & HB & NO).
  eapply (adds_ext ci).
  - apply (both_adds c pos b rcut ci FG L HL B NB HB (two par) (two' par) (two_in par) two'_sym two_in_sym (1/2) (uf c) true son
      (fun i s e => pair_body bld pow0 V n ci c i s e) (fun i v Hi Hv => pair_body_adds i v (NO i v Hi Hv))
      (three par lam) (three1 par lam) (threec par lam) H_sym (atom_body bld pow0 V lam n ci c) tbody).
    + intros i v w Hi Hv Hw. apply tbody_adds; apply NO; auto.
    + intros i Hi F E S A. apply (adds_ext ci _ _ _ _ _ _ _ _ A); auto. intros s. unfold atom_body. rewrite triples_fold. auto.
  - auto.
  - auto.
  - unfold energyE. field.
  - intros k. cbv beta. destruct (Nat.ltb k 6 && son)%bool; auto. unfold triS. f_equal. destruct (uf c); auto. unfold pairS. field.
Qed.
End Sw.
