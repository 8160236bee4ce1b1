(** Examples for the electrostatic routine: two atoms at distance 1/10. *)
From Coq Require Import Reals ZArith List Bool Lia Lra.
From Verif Require Import Vec NbrModel NbrProof NbrProof2 NbrProof3 LoopUtil PairModel PairProof PairSpec PairProof2 PairProof3 BondProof BoProof GradProof
  SwProof3 SwProof4 FuncModel ElSpec ElModel ElProof ElProof2 ElProof3 ElProof5 ElProof6 ElProof7 ElProof8.
Import ListNotations.
Local Open Scope R_scope.

Definition duo_nb (ty : nat -> nat) (i : nat) : list neigh :=
  match init_neighbors 0 2 elbow ty cube (fun _ _ => 12/100) (1, 1, 1)%Z false i with Neighbors l => l | _ => [] end.
Definition duo (ty : nat -> nat) (f : bool) (k : nat) : conf :=
  if Nat.eqb k 0 then mk_conf 0 2 f true 1 1 (duo_nb ty) ty (fun _ => true) (fun _ => 0) (fun _ => v0) 0 (fun _ => 0)
  else mk_conf 2 0 f true 1 1 (duo_nb ty) ty (fun _ => true) (fun _ => 0) (fun _ => v0) 0 (fun _ => 0).
Definition duo_list (i : nat) : list (nat * image) := match i with 0%nat => [(1%nat, O3)] | _ => [(0%nat, O3)] end.
Lemma duo_cont : forall ty f ci, cnfstart (duo ty f (S ci)) = (cnfstart (duo ty f ci) + inconf (duo ty f ci))%nat.
Proof. intros. destruct ci; simpl; lia. Qed.
Lemma duo_geo : forall ty f, geometry (duo ty f 0) elbow cube (fun _ _ => 12/100).
Proof.
  intros ty f. constructor; cbn [duo Nat.eqb cnfstart inconf conf_vol typ nb].
  - exists cube, 1, (1, 1, 1)%Z. split; [exact cube_box|]. split; [lra|]. split; [exact cube_scale|]. split; [intros; lra|]. intros i Hi. unfold duo_nb.
    pose proof (init_neighbors_spec 0 2 elbow ty cube (fun _ _ => 12/100) (1, 1, 1)%Z false i) as S. cbv zeta in S.
    destruct (init_neighbors _ _ _ _ _ _ _ _ _) as [| | |l]; [|destruct S|destruct S|auto].
    exfalso. destruct S as (j & [[x y] z] & J & W & (NS & O)). apply NS. unfold j_start in J. cbn [Nat.add] in J.
    assert (E : (x, y, z) = O3) by (apply (elbow_near i j); try lia; rewrite O, (proj2 (norm_0 v0) eq_refl); lra).
    split; auto. rewrite E, elbow_displacement in O. apply nil_vec in O. destruct i as [|[|[|]]], j as [|[|[|]]]; auto; try lia; simpl in O; lra.
  - intros i Hi. exists (elbow i). split; [unfold comb, cube; apply vec_eq; simpl; ring|]. destruct i as [|[|[|]]]; simpl; lra.
  - auto.
Qed.
Lemma duo_neighbors : forall ty f a, (a < 2)%nat -> all_neighbors (duo ty f 0) elbow cube (fun _ _ => 12/100) a (duo_list a).
Proof.
  intros ty f a Ha.
  assert (E0 : all_neighbors (mk_conf 0 3 f true 1 1 (duo_nb ty) ty (fun _ => true) (fun _ => 0) (fun _ => v0) 0 (fun _ => 0)) elbow cube (fun _ _ => 12/100) a (elbow_list a)) by (apply elbow_neighbors; auto; lia).
  destruct E0 as [_ IFF]. cbn [duo Nat.eqb cnfstart inconf typ] in IFF. split.
  - destruct a as [|[|]]; try lia; cbn [duo_list]; (constructor; [intros []|constructor]).
  - intros j n. cbn [duo Nat.eqb cnfstart inconf typ]. specialize (IFF j n). destruct a as [|[|]]; try lia; cbn [duo_list elbow_list In] in *; split.
    + intros [Q|[]]. injection Q as <- <-. split; [lia|]. apply IFF; auto.
    + intros [J B]. assert (J3 : (0 <= j < 0 + 3)%nat) by lia. destruct (proj2 IFF (conj J3 B)) as [Q|[Q|[]]]; auto. injection Q as <- <-. lia.
    + intros [Q|[]]. injection Q as <- <-. split; [lia|]. apply IFF; auto.
    + intros [J B]. assert (J3 : (0 <= j < 0 + 3)%nat) by lia. destruct (proj2 IFF (conj J3 B)) as [Q|[]]; auto.
Qed.
Lemma duo_geos : forall ty f ci, (ci < 1)%nat -> geometry (duo ty f ci) elbow ((fun _ : nat => cube) ci) (fun _ _ => 12/100).
Proof. intros ty f ci H. replace ci with 0%nat by lia. apply duo_geo. Qed.
Lemma duo_nbs : forall ty f ci a, (ci < 1)%nat -> (cnfstart (duo ty f ci) <= a < cnfstart (duo ty f ci) + inconf (duo ty f ci))%nat ->
  all_neighbors (duo ty f ci) elbow ((fun _ : nat => cube) ci) (fun _ _ => 12/100) a ((fun _ : nat => duo_list) ci a).
Proof. intros ty f ci a H Ha. replace ci with 0%nat in * by lia. simpl in Ha. apply duo_neighbors. lia. Qed.
(** distances and vectors *)
Lemma duo_r0 : dist elbow cube 0 (1%nat, O3) = 1/10.
Proof. apply elbow_r. lia. Qed.
Lemma duo_r1 : dist elbow cube 1 (0%nat, O3) = 1/10.
Proof. unfold dist. rewrite elbow_d. apply norm_tenth. unfold sprod; simpl; field. Qed.
Lemma duo_d0 : dvec elbow cube 0 (1%nat, O3) = V3 (1/10) 0 0.
Proof. rewrite elbow_d. apply vec_eq; simpl; field. Qed.
Lemma duo_d1 : dvec elbow cube 1 (0%nat, O3) = V3 (-1/10) 0 0.
Proof. rewrite elbow_d. apply vec_eq; simpl; field. Qed.

Section Duo.
Variable ty : nat -> nat.
Variable ff : bool.
Variables (charge alpha : nat -> R) (g : R -> R).
Notation c := (duo ty ff 0).
Notation z2 := (fun _ _ : nat => 0).
Notation q0 := (charge (ty 0%nat)).
Notation q1 := (charge (ty 1%nat)).
Notation al0 := (alpha (ty 0%nat)).
Notation al1 := (alpha (ty 1%nat)).
Hypothesis A0 : al0 <> 0.
Hypothesis A1 : al1 <> 0.
Notation G := (g (1/10)).
Ltac two := unfold vsum, rsumf; cbn [duo_list map]; unfold Vec.rsum; cbn [fold_right].
Lemma duo_within0 : within elbow cube 1 0 (1%nat, O3) = true.
Proof. unfold within. rewrite duo_r0. destruct (Rlt_dec (1/10) 1); auto. lra. Qed.
Lemma duo_within1 : within elbow cube 1 1 (0%nat, O3) = true.
Proof. unfold within. rewrite duo_r1. destruct (Rlt_dec (1/10) 1); auto. lra. Qed.
Lemma duo_static : static_field c elbow cube charge g 1 duo_list 0 = V3 (q1 * G / 10) 0 0 /\ static_field c elbow cube charge g 1 duo_list 1 = V3 (- (q0 * G / 10)) 0 0.
Proof.
  unfold static_field. split; apply vec_eq; two; rewrite ?duo_within0, ?duo_within1, ?duo_r0, ?duo_r1, ?duo_d0, ?duo_d1; simpl; field.
Qed.
Lemma duo_damped : forall a, (a < 2)%nat -> damped_moment c elbow cube charge g 1 duo_list alpha z2 z2 a = v0.
Proof.
  intros a Ha. unfold damped_moment, damp, damped, zero. destruct (Req_EM_T 0 0) as [_|N]; [|lra]. cbn [negb andb].
  destruct a as [|[|]]; try lia; apply vec_eq; two; rewrite ?duo_within0, ?duo_within1; simpl; ring.
Qed.
Lemma duo_mom : forall p a, (a < 2)%nat -> mom c alpha p a = p a.
Proof. intros p a Ha. unfold mom, zero. change (typ c a) with (ty a). destruct a as [|[|]]; try lia; destruct (Req_EM_T _ 0); auto; contradiction. Qed.
Lemma duo_field : forall p, dipole_field c elbow cube g 1 duo_list alpha p 0 = V3 (2 * G * vx (p 1%nat)) (- G * vy (p 1%nat)) (- G * vz (p 1%nat)) /\
  dipole_field c elbow cube g 1 duo_list alpha p 1 = V3 (2 * G * vx (p 0%nat)) (- G * vy (p 0%nat)) (- G * vz (p 0%nat)).
Proof.
  intros p. unfold dipole_field. split; apply vec_eq; two; rewrite ?duo_within0, ?duo_within1, ?duo_r0, ?duo_r1, ?duo_d0, ?duo_d1; cbn [fst]; rewrite duo_mom by lia; unfold sprod; simpl; field.
Qed.
(** along the bond *)
Definition along (x y : R) (a : nat) : vec := match a with 0%nat => V3 x 0 0 | 1%nat => V3 y 0 0 | _ => v0 end.
Lemma duo_moment : forall F x y, F 0%nat = V3 x 0 0 -> F 1%nat = V3 y 0 0 ->
  moment_of c elbow cube charge g 1 duo_list alpha z2 z2 F 0 = V3 (al0 * (x + q1 * G / 10)) 0 0 /\
  moment_of c elbow cube charge g 1 duo_list alpha z2 z2 F 1 = V3 (al1 * (y - q0 * G / 10)) 0 0.
Proof.
  intros F x y F0 F1. unfold moment_of. rewrite !duo_damped, F0, F1, (proj1 duo_static), (proj2 duo_static) by lia. change (typ c 0%nat) with (ty 0%nat). change (typ c 1%nat) with (ty 1%nat).
  split; apply vec_eq; simpl; ring.
Qed.
(** the iteration, from fields along the bond *)
Fixpoint itx (mix x0 y0 : R) (k : nat) : (R * R) * (R * R) :=
  match k with
  | O => ((x0, y0), (x0, y0))
  | S k => let '((x, y), (x', y')) := itx mix x0 y0 k in
      let mx := match k with O => x | _ => (1 - mix) * x + mix * x' end in
      let my := match k with O => y | _ => (1 - mix) * y + mix * y' end in
      ((2 * G * (al1 * (my - q0 * G / 10)), 2 * G * (al0 * (mx + q1 * G / 10))), (x, y))
  end.
Definition mixx (mix x0 y0 : R) (k : nat) : R * R :=
  let '((x, y), (x', y')) := itx mix x0 y0 k in
  (match k with O => x | _ => (1 - mix) * x + mix * x' end, match k with O => y | _ => (1 - mix) * y + mix * y' end).
Section It.
Variables (mix x0 y0 : R) (e0 : nat -> vec).
Hypothesis I0 : e0 0%nat = V3 x0 0 0.
Hypothesis I1 : e0 1%nat = V3 y0 0 0.
Notation IT := (iterate c elbow cube charge g 1 duo_list alpha z2 z2 mix e0).
Notation MIX k := (mixed mix k (IT k)).
Lemma itx_S : forall k, itx mix x0 y0 (S k) = ((2 * G * (al1 * (snd (mixx mix x0 y0 k) - q0 * G / 10)), 2 * G * (al0 * (fst (mixx mix x0 y0 k) + q1 * G / 10))), fst (itx mix x0 y0 k)).
Proof. intros k. cbn [itx]. unfold mixx. destruct (itx mix x0 y0 k) as [[x y] [x' y']]. reflexivity. Qed.
Lemma duo_iter : forall k,
  fst (IT k) 0%nat = V3 (fst (fst (itx mix x0 y0 k))) 0 0 /\ fst (IT k) 1%nat = V3 (snd (fst (itx mix x0 y0 k))) 0 0 /\
  snd (IT k) 0%nat = V3 (fst (snd (itx mix x0 y0 k))) 0 0 /\ snd (IT k) 1%nat = V3 (snd (snd (itx mix x0 y0 k))) 0 0.
Proof.
  induction k; [simpl; auto|]. destruct IHk as (P1 & P2 & P3 & P4).
  assert (MX : MIX k 0%nat = V3 (fst (mixx mix x0 y0 k)) 0 0 /\ MIX k 1%nat = V3 (snd (mixx mix x0 y0 k)) 0 0).
  { unfold mixed, mixx. destruct (itx mix x0 y0 k) as [[x y] [x' y']]. cbn [fst snd] in *. destruct k; [auto|]. rewrite P1, P2, P3, P4. split; apply vec_eq; simpl; ring. }
  rewrite itx_S. cbn [iterate fst snd]. split; [|split; [|split; auto]].
  - rewrite (proj1 (duo_field _)), (proj2 (duo_moment _ _ _ (proj1 MX) (proj2 MX))). apply vec_eq; simpl; ring.
  - rewrite (proj2 (duo_field _)), (proj1 (duo_moment _ _ _ (proj1 MX) (proj2 MX))). apply vec_eq; simpl; ring.
Qed.
Lemma duo_mixed : forall k, MIX k 0%nat = V3 (fst (mixx mix x0 y0 k)) 0 0 /\ MIX k 1%nat = V3 (snd (mixx mix x0 y0 k)) 0 0.
Proof.
  intros k. destruct (duo_iter k) as (P1 & P2 & P3 & P4). unfold mixed, mixx. destruct (itx mix x0 y0 k) as [[x y] [x' y']]. cbn [fst snd] in *. destruct k; [auto|]. rewrite P1, P2, P3, P4. split; apply vec_eq; simpl; ring.
Qed.
Lemma duo_step_moment : forall k, step_moment c elbow cube charge g 1 duo_list alpha z2 z2 mix e0 k 0 = V3 (al0 * (fst (mixx mix x0 y0 k) + q1 * G / 10)) 0 0 /\
  step_moment c elbow cube charge g 1 duo_list alpha z2 z2 mix e0 k 1 = V3 (al1 * (snd (mixx mix x0 y0 k) - q0 * G / 10)) 0 0.
Proof. intros k. unfold step_moment. apply duo_moment; apply duo_mixed. Qed.
Lemma duo_change : forall k, step_change c elbow cube charge g 1 duo_list alpha z2 z2 mix e0 k =
  sqrt ((sq (al0 * (fst (fst (itx mix x0 y0 k)) - fst (fst (itx mix x0 y0 (S k))))) + sq (al1 * (snd (fst (itx mix x0 y0 k)) - snd (fst (itx mix x0 y0 (S k)))))) / 6).
Proof.
  intros k. unfold step_change. f_equal. change (seq (cnfstart c) (inconf c)) with [0%nat; 1%nat]. change (INR (inconf c)) with (INR 2).
  destruct (duo_iter k) as (P1 & P2 & _). destruct (duo_iter (S k)) as (P3 & P4 & _). two. rewrite P1, P2, P3, P4. change (typ c 0%nat) with (ty 0%nat). change (typ c 1%nat) with (ty 1%nat).
  unfold zero. destruct (Req_EM_T al0 0); [contradiction|]. destruct (Req_EM_T al1 0); [contradiction|].
  unfold sqv, sprod, sq. cbn [vscale vsub vx vy vz INR]. field.
Qed.
End It.
End Duo.
