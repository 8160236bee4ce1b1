(** A charged neighbour that cannot be polarised: the energy depends on the numbering. *)
From Coq Require Import Reals ZArith List Bool Lia Lra Permutation.
From Verif Require Import Vec NbrModel NbrProof NbrProof2 NbrProof3 LoopUtil PairModel PairProof PairSpec PairProof2 PairProof3 AddProof AddProof2 BondProof BoProof GradProof
  SwProof3 SwProof4 FuncModel EamModel ElSpec ElModel ElProof ElProof2 ElProof3 ElProof5 ElProof6 ElProof7 ElProof8 ElProof9 ElProof10 ElProof11 EeModel EeProof EeProof2.
Import ListNotations.
Local Open Scope R_scope.

Definition swap (i : nat) : nat := match i with 0%nat => 1%nat | _ => 0%nat end.
Lemma duo_half_ty : forall ty f, nb (duo ty f 0) 0 = [entry elbow ty cube 0 1 O3] /\ nb (duo ty f 0) 1 = [].
Proof.
  intros ty f. destruct (nb_half (duo ty f 0) elbow cube (fun _ _ => 12/100) (duo_geo ty f)) as (scale & H & A).
  assert (P : forall a, (a < 2)%nat -> all_bonds 0 2 elbow ty cube (fun _ _ => 12/100) scale a = duo_list a).
  { intros a Ha. assert (Q : Permutation (duo_list a) (all_bonds 0 2 elbow ty cube (fun _ _ => 12/100) scale a)).
    { apply (all_neighbors_perm (duo ty f 0) elbow cube (fun _ _ => 12/100) a); [apply duo_neighbors; auto|apply (A a); cbn [duo Nat.eqb cnfstart inconf]; lia]. }
    destruct a as [|[|]]; try lia; cbn [duo_list] in *; apply Permutation_length_1_inv in Q; auto. }
  split; rewrite H by (cbn [duo Nat.eqb cnfstart inconf]; lia); change (cnfstart (duo ty f 0)) with 0%nat; change (inconf (duo ty f 0)) with 2%nat; change (typ (duo ty f 0)) with ty;
    rewrite half_all by lia; rewrite P by lia; reflexivity.
Qed.
Lemma Ety_r : forall ty, n_r (entry elbow ty cube 0 1 O3) = 1/10.
Proof. intros ty. rewrite <- duo_r0. unfold dist, dvec, entry. cbv zeta. cbn [n_r fst snd]. rewrite shift_displacement. auto. Qed.
Lemma Ety_dr : forall ty, n_dist_r (entry elbow ty cube 0 1 O3) = V3 1 0 0.
Proof.
  intros ty. pose proof (Ety_r ty) as R. unfold entry in *. cbv zeta in *. cbn [n_r n_dist_r] in *. rewrite R. rewrite shift_displacement.
  change (displacement elbow cube 0 1 O3) with (dvec elbow cube 0 (1%nat, O3)). rewrite duo_d0. unfold unscale. apply vec_eq; simpl; field.
Qed.

(** type 0 has charge 1 and polarisability 1, type 1 charge -1 *)
Section One.
Variable ty : nat -> nat.
Variable gel : R -> R.
Variables tol mix : R.
Hypothesis T : 0 < tol.
Notation c := (duo ty false 0).
Notation DI d := (dips true pm1 one0 z2 z2 gel 1 tol mix (duo ty false) 1 d).
Definition nodip : dip := mk_dip (fun _ => v0) (fun _ => v0) (fun _ => v0) (fun _ => v0) (fun _ => v0).
Hypothesis TY : ty 0%nat = 0%nat /\ ty 1%nat = 1%nat \/ ty 0%nat = 1%nat /\ ty 1%nat = 0%nat.
Lemma one0_0 : one0 0 <> 0.
Proof. unfold one0. cbn [Nat.eqb]. lra. Qed.
Lemma one_mom : forall p a v, (a < 2)%nat -> one0 (ty a) <> 0 -> In v (duo_list a) -> mom c one0 p (fst v) = v0.
Proof.
  intros p a v Ha NZ V. unfold mom, zero. change (typ c (fst v)) with (ty (fst v)). unfold one0 in *.
  destruct a as [|[|]]; try lia; destruct V as [<-|[]]; cbn [fst]; destruct TY as [[E0 E1]|[E0 E1]]; rewrite ?E0, ?E1 in *; cbn [Nat.eqb] in *; try lra; destruct (Req_EM_T 0 0); auto; lra.
Qed.
Lemma one_field : forall p a, (a < 2)%nat -> one0 (ty a) <> 0 -> dipole_field c elbow cube gel 1 duo_list one0 p a = v0.
Proof.
  intros p a Ha NZ. unfold dipole_field. rewrite (EamProof3.vsum_ext _ (fun _ => v0)).
  - unfold vsum. cbn [v0 vx vy vz]. rewrite rsumf_zero by auto. auto.
  - intros v V. rewrite (one_mom p a v Ha NZ V). destruct (within _ _ _ _ _); auto. unfold sprod, Rdiv. vring.
Qed.
Lemma one_dips : forall a, (a < 2)%nat -> p_ind (DI nodip) a = if Nat.eqb (ty a) 0 then static_field c elbow cube pm1 gel 1 duo_list a else v0.
Proof.
  intros a Ha. set (s := mk_elst (mk_dev (fun _ => v0) (fun _ => 0) (fun _ _ => 0) 0) nodip). set (bld := mk_build false false false).
  assert (E : DI nodip = edp (ElModel.calc_forces bld true (fun _ _ _ => 0) (fun _ _ _ => 0) (fun _ _ _ => false) pm1 one0 z2 z2 (fun _ => 0) gel gel 1 tol mix 0 0 0 0 (duo ty false) 1 s)) by (rewrite el_calc_eq; reflexivity).
  rewrite E. destruct (Nat.eqb_spec (ty a) 0) as [A|A].
  - destruct (el_dipoles bld true (fun _ _ _ => 0) (fun _ _ _ => 0) (fun _ _ _ => false) pm1 one0 z2 z2 (fun _ => 0) gel gel 1 tol mix 0 0 0 0 (duo ty false) 1 (duo_cont ty false)
      (fun _ _ => eq_refl) (fun _ _ => eq_refl) elbow (fun _ => cube) (fun _ _ => 12/100) (duo_geos ty false) (fun _ => duo_list) (duo_nbs ty false) eq_refl s 0%nat ltac:(lia)) as (k & _ & K1 & K2 & K3).
    assert (ST0 : stops c elbow cube pm1 gel 1 duo_list one0 z2 z2 tol mix (E_ind (edp s)) 0).
    { right. unfold step_change. rewrite rsumf_zero; [unfold Rdiv; rewrite Rmult_0_l, sqrt_0; auto|]. intros b Hb. change (seq (cnfstart c) (inconf c)) with [0%nat; 1%nat] in Hb.
      unfold zero. destruct (Req_EM_T (one0 (typ c b)) 0) as [|NZ]; auto. cbn [iterate fst]. rewrite one_field; [|destruct Hb as [<-|[<-|[]]]; lia|exact NZ]. unfold s, nodip, sqv, sq. simpl. ring. }
    assert (K0 : k = 0%nat) by (destruct k; auto; exfalso; exact (K1 0%nat ltac:(lia) ST0)). subst k.
    destruct (K3 a ltac:(cbn [duo Nat.eqb cnfstart inconf]; lia)) as [_ Q]; [change (typ c a) with (ty a); rewrite A; apply one0_0|].
    rewrite (proj1 (Q ltac:(intros [X _]; lia))). unfold step_moment, moment_of, mixed. cbn [iterate fst]. change (typ c a) with (ty a). rewrite A, (duo_damped ty false pm1 one0 gel a Ha).
    unfold s, nodip, one0. cbn [edp E_ind Nat.eqb]. vring.
  - rewrite (el_unpolar bld true (fun _ _ _ => 0) (fun _ _ _ => 0) (fun _ _ _ => false) pm1 one0 z2 z2 (fun _ => 0) gel gel 1 tol mix 0 0 0 0 (duo ty false) 1 (duo_cont ty false)
      (fun _ _ => eq_refl) (fun _ _ => eq_refl) elbow (fun _ => cube) (fun _ _ => 12/100) (duo_geos ty false) (fun _ => duo_list) (duo_nbs ty false) s 0%nat a ltac:(lia)); auto.
    + cbn [duo Nat.eqb cnfstart inconf]. lia.
    + change (typ c a) with (ty a). unfold one0. destruct (Nat.eqb_spec (ty a) 0); auto. contradiction.
Qed.
End One.

Definition estart : est := mk_est (mk_dev (fun _ => v0) (fun _ => 0) (fun _ _ => 0) 0) (fun _ _ => 0) (fun _ _ => 0) (fun _ => 0) (fun _ => 0) (fun _ => 0).
Notation zphi := (fun (_ _ : nat) (_ : R) => 0).
Notation Z1 := (fun _ : nat => 0).
Section Energy.
Variables (bld : build) (NOPUNISH : bool) (tol mix ew sw : R) (ntypes natoms : nat).
Variable ggel : R -> R.
Hypothesis T : 0 < tol.
Definition eighth (_ : R) : R := -1/8.
Notation run ty := (EeModel.calc_forces bld NOPUNISH true zphi zphi none zphi zphi none zphi zphi z2 z2 pm1 one0 z2 z2 (fun _ => 0) eighth ggel 1 tol mix 0 ew sw Z1 Z1 0 ntypes natoms (duo ty false) 1 (mk_eest estart nodip)).
Lemma dummy_en : forall s, en (dv (dummy (eb bld NOPUNISH) zphi z2 z2 Z1 ntypes natoms s)) = en (dv s).
Proof.
  intros s. unfold dummy. cbn [EamModel.NOPUNISH RESCALE EeModel.eb]. destruct NOPUNISH; auto.
  apply (for_up_inv (fun _ x => en (dv x) = en (dv s))); [lia|auto|]. intros g x _ H. rewrite <- H. reflexivity.
Qed.
Definition energy_of (ty : nat -> nat) : R := en (dv (ees (run ty))) 0%nat.
(** what the loops add, with dipoles [x], [y] along the bond *)
Lemma energy_run : forall ty x y, (ty 0%nat = 0%nat /\ ty 1%nat = 1%nat \/ ty 0%nat = 1%nat /\ ty 1%nat = 0%nat) ->
  let p := p_ind (dips true pm1 one0 z2 z2 eighth 1 tol mix (duo ty false) 1 nodip) in p 0%nat = V3 x 0 0 -> p 1%nat = V3 y 0 0 ->
  energy_of ty = ((if Nat.eqb (ty 0%nat) 0 then x * x / 2 else - pm1 (ty 0%nat) * y / 80 + pm1 (ty 1%nat) * x / 80 + y * y / 2)) / 2.
Proof.
  intros ty x y TY p P0 P1. unfold energy_of, EeModel.calc_forces. cbv zeta. cbn [ees eed]. rewrite dummy_en. unfold add_err, with_dv. cbn [dv en].
  change (for_up 0 1 ?f ?s) with (f 0%nat s). cbv beta. set (e0 := mk_est _ _ _ _ _ _). assert (EN0 : e0 = estart) by reflexivity. rewrite EN0. clear e0 EN0.
  unfold EeModel.config_body. cbv zeta. cbn [ees eed]. set (c := duo ty false 0).
  change (dipoles pm1 one0 z2 z2 eighth 1 tol mix c nodip) with (dips true pm1 one0 z2 z2 eighth 1 tol mix (duo ty false) 1 nodip). fold p. clearbody p.
  change (uf c) with false. cbv iota. cbn [dv with_dv en]. unfold score_stress. change (uf c) with false. rewrite andb_false_r. cbn [andb]. unfold score_energy. cbn [en].
  rewrite setf_eq. change (inconf c) with 2%nat. change (energy_0 c) with 0. change (cnfstart c) with 0%nat. rewrite !two_rounds. change (INR 2) with (1 + 1). replace (1 + 1) with 2 by ring.
  rewrite Rminus_0_r. f_equal.
  set (t := reset_rho _ c 1%nat _). assert (TE : en (dv t) 0%nat = 0) by (unfold t; cbn; ring). assert (TR : forall i, rho t 0%nat i = 0) by (intros [|[|]]; reflexivity). clearbody t.
  destruct (duo_half_ty ty false) as [N0 N1].
  unfold EeModel.second_atom, EeModel.fourth_atom. fold c in N0, N1. rewrite N0, N1. cbn [fold_left].
  set (e := entry elbow ty cube 0 1 O3).
  assert (RE : rho (EeModel.second_neighbor bld zphi zphi none zphi none pm1 (fun _ => 0) eighth 1 0 c 0 t e) 0%nat = rho t 0%nat).
  { unfold EeModel.second_neighbor. cbn [with_rho with_dv rho dv]. rewrite setf_eq. unfold add_density, none. destruct (Nat.eqb _ _); auto. }
  assert (EE : en (dv (EeModel.second_neighbor bld zphi zphi none zphi none pm1 (fun _ => 0) eighth 1 0 c 0 t e)) 0%nat = 0).
  { unfold EeModel.second_neighbor, ElModel.second_neighbor, neighbor_body, none, monopole, add_en. change (uf c) with false. cbn [with_rho with_dv dv]. destruct (charged _ _ _ _ _); auto. cbn [en]. rewrite setf_eq, TE. unfold half. destruct (self 0 e); ring. }
  set (u := EeModel.second_neighbor _ _ _ _ _ _ _ _ _ _ _ _ _ _ _) in *. clearbody u.
  assert (EB : forall i w, (i < 2)%nat -> rho w 0%nat = rho t 0%nat -> en (dv w) 0%nat = 0 -> let w' := embed_body (eb bld NOPUNISH) zphi zphi zphi zphi z2 z2 z2 0 c i 0 w in rho w' 0%nat = rho t 0%nat /\ en (dv w') 0%nat = 0).
  { intros i w Hi W1 W2. assert (WI : rho w 0%nat i = 0) by (rewrite W1; auto). unfold embed_body, clamp_low, clamp_high, EamModel.embed. cbn [RESCALE EeModel.eb].
    rewrite WI. destruct (Rlt_dec 0 0); [lra|]. rewrite WI. destruct (Rlt_dec 0 0); [lra|]. cbv zeta. cbn [rho dv en]. rewrite setf_eq, W2. split; [auto|ring]. }
  destruct (EB 0%nat u ltac:(lia) RE EE) as [B1 B2]. set (w0 := embed_body _ _ _ _ _ _ _ _ 0 c 0 0 u) in *. clearbody w0.
  destruct (EB 1%nat w0 ltac:(lia) B1 B2) as [_ B3]. set (w1 := embed_body _ _ _ _ _ _ _ _ 0 c 1 0 w0) in *. clearbody w1. clear EB.
  assert (N : near 1 e = true) by (unfold near, e; rewrite Ety_r; destruct (Rlt_dec _ _); auto; lra).
  assert (C1 : nz (one0 0) = true) by (unfold nz, one0; cbn [Nat.eqb]; destruct (Req_EM_T _ _); auto; lra).
  assert (C2 : nz (one0 1) = false) by (unfold nz, one0; cbn [Nat.eqb]; destruct (Req_EM_T _ _); auto; lra).
  assert (C3 : nz (pm1 0) = true) by (unfold nz, pm1; cbn [Nat.eqb]; destruct (Req_EM_T _ _); auto; lra).
  assert (C4 : nz (pm1 1) = true) by (unfold nz, pm1; cbn [Nat.eqb]; destruct (Req_EM_T _ _); auto; lra).
  assert (ZN : nz 0 = false) by (unfold nz; destruct (Req_EM_T _ _); auto; lra).
  unfold EeModel.fourth_neighbor, has_sr, self_energy, polar, charge_dipole, dipole_dipole, half, self. change (typ c) with ty.
  change (n_type e) with (ty 1%nat). change (n_nr e) with 1%nat. change (uf c) with false. cbv iota.
  pose proof (Ety_r ty) as R1. pose proof (Ety_dr ty) as R2. fold e in R1, R2. clearbody e. clearbody c. rewrite N, P0, P1, R1, R2. cbn [andb]. cbv zeta.
  destruct (shortrange_term _ _ _) as [sv sg].
  destruct TY as [[E0 E1]|[E0 E1]]; rewrite E0, E1; cbn [Nat.eqb]; rewrite ?C1, ?C2, ?C3, ?C4, ?ZN; cbn [andb orb]; cbv iota;
    unfold add_en, setf; cbn [en pdv rp_i rp_j Nat.eqb]; rewrite B3; unfold eighth, sprod, one0, pm1; cbn [Nat.eqb vx vy vz]; field.
Qed.
Theorem numbering : energy_of kinds <> energy_of swap.
Proof.
  assert (S1 : forall ty, static_field (duo ty false 0) elbow cube pm1 eighth 1 duo_list 0 = V3 (- pm1 (ty 1%nat) / 80) 0 0 /\ static_field (duo ty false 0) elbow cube pm1 eighth 1 duo_list 1 = V3 (pm1 (ty 0%nat) / 80) 0 0).
  { intros ty. destruct (duo_static ty false pm1 eighth) as [-> ->]. unfold eighth. split; f_equal; field. }
  assert (K : kinds 0%nat = 0%nat /\ kinds 1%nat = 1%nat \/ kinds 0%nat = 1%nat /\ kinds 1%nat = 0%nat) by (left; auto).
  assert (W : swap 0%nat = 0%nat /\ swap 1%nat = 1%nat \/ swap 0%nat = 1%nat /\ swap 1%nat = 0%nat) by (right; auto).
  rewrite (energy_run kinds (1/80) 0 K), (energy_run swap 0 (-1/80) W).
  - unfold kinds, swap, pm1. cbn [Nat.eqb]. lra.
  - rewrite (one_dips swap eighth tol mix T W 0 ltac:(lia)). reflexivity.
  - rewrite (one_dips swap eighth tol mix T W 1 ltac:(lia)). change (swap 1) with 0%nat. cbn [Nat.eqb]. rewrite (proj2 (S1 swap)). unfold swap, pm1. cbn [Nat.eqb]. f_equal; field.
  - rewrite (one_dips kinds eighth tol mix T K 0 ltac:(lia)). change (kinds 0) with 0%nat. cbn [Nat.eqb]. rewrite (proj1 (S1 kinds)). unfold kinds, pm1. cbn [Nat.eqb]. f_equal; field.
  - rewrite (one_dips kinds eighth tol mix T K 1 ltac:(lia)). reflexivity.
Qed.
End Energy.
