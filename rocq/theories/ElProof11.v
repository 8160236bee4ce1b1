(** A polarisable type without charge: rp_i and rp_j are not set in the fourth loop. *)
From Coq Require Import Reals ZArith List Bool Lia Lra Permutation.
From Verif Require Import Vec NbrModel NbrProof NbrProof2 NbrProof3 LoopUtil PairModel PairProof PairSpec PairProof2 PairProof3 AddProof AddProof2 BondProof BoProof GradProof
  SwProof3 SwProof4 FuncModel ElSpec ElModel ElProof ElProof2 ElProof3 ElProof5 ElProof6 ElProof7 ElProof8 ElProof9 ElProof10.
Import ListNotations.
Local Open Scope R_scope.

(** neighbour lists of the two atoms *)
Lemma duo_half : forall f, nb (C0 f) 0 = [entry elbow kinds cube 0 1 O3] /\ nb (C0 f) 1 = [].
Proof.
  intros f. destruct (nb_half (C0 f) elbow cube (fun _ _ => 12/100) (duo_geo kinds f)) as (scale & H & A).
  assert (P : forall a, (a < 2)%nat -> all_bonds 0 2 elbow kinds cube (fun _ _ => 12/100) scale a = duo_list a).
  { intros a Ha. assert (Q : Permutation (duo_list a) (all_bonds 0 2 elbow kinds cube (fun _ _ => 12/100) scale a)).
    { apply (all_neighbors_perm (C0 f) elbow cube (fun _ _ => 12/100) a); [apply duo_neighbors; auto|apply (A a); cbn [duo Nat.eqb cnfstart inconf]; lia]. }
    destruct a as [|[|]]; try lia; cbn [duo_list] in *; apply Permutation_length_1_inv in Q; auto. }
  split; rewrite H by (cbn [duo Nat.eqb cnfstart inconf]; lia); change (cnfstart (C0 f)) with 0%nat; change (inconf (C0 f)) with 2%nat; change (typ (C0 f)) with kinds;
    rewrite half_all by lia; rewrite P by lia; reflexivity.
Qed.
Definition one0 (i : nat) : R := if Nat.eqb i 0 then 1 else 0.
Notation E01 := (entry elbow kinds cube 0 1 O3).
Lemma E01_r : n_r E01 = 1/10.
Proof. rewrite <- duo_r0. unfold dist, dvec, entry. cbv zeta. cbn [n_r fst snd]. rewrite shift_displacement. auto. Qed.
Lemma E01_dr : n_dist_r E01 = V3 1 0 0.
Proof.
  pose proof E01_r as R. unfold entry in *. cbv zeta in *. cbn [n_r n_dist_r] in *. rewrite R. rewrite shift_displacement.
  change (displacement elbow cube 0 1 O3) with (dvec elbow cube 0 (1%nat, O3)). rewrite duo_d0. unfold unscale. apply vec_eq; simpl; field.
Qed.

Lemma two_rounds : forall A (f : nat -> A -> A) x, for_up 0 (0 + 2) f x = f 1%nat (f 0%nat x).
Proof. reflexivity. Qed.
Theorem stale_projection : forall bld dphi ggel mix ew sw pu, exists fel gel s tol,
  let zphi := fun (_ _ : nat) (_ : R) => 0 in
  let none := fun (_ _ : nat) (_ : R) => false in
  let s' := calc_forces bld true zphi dphi none one0 all_one z2 z2 fel gel ggel 1 tol mix 0 ew sw pu (DC false) 1 s in
  let p := p_ind (edp s') in
  0 < tol /\ gel (1/10) < 0 /\ (forall r, fel r = 0) /\
  en (edv s') 0 * 2 <> dip_energy (C0 false) elbow cube one0 gel 1 duo_list all_one z2 z2 p + dip_self (C0 false) all_one p.
Proof.
  intros bld dphi ggel mix ew sw pu. set (gel := fun _ : R => -1/8). set (s := mk_elst (mk_dev (fun _ => v0) (fun _ => 0) (fun _ _ => 0) 0) (start 1 0)).
  exists (fun _ => 0), gel, s, 100. intros zphi none s' p. split; [lra|]. split; [unfold gel; lra|]. split; [auto|].
  destruct (duo_first bld zphi dphi none (fun _ => 0) gel ggel 100 mix 0 ew sw pu false one0 s 1 0 eq_refl eq_refl ltac:(lra)) as (P0 & P1 & _ & _).
  { unfold gel, one0, sq. cbn [Nat.eqb]. lra. }
  fold s' in P0, P1. fold p in P0, P1. destruct (duo_energy false one0 gel p _ _ P0 P1) as [-> ->].
  assert (Q0 : p 0%nat = V3 1 0 0) by (rewrite P0; unfold gel, one0; cbn [Nat.eqb]; f_equal; field).
  assert (Q1 : p 1%nat = V3 (1/80) 0 0) by (rewrite P1; unfold gel, one0; cbn [Nat.eqb]; f_equal; field).
  assert (EN : en (edv s') 0 = (0 + 0 + (- (1 * (1/80) * (1/8) * (1/10)) + 1/640) + (1 / 2 + (1/80) * (1/80) / 2)) / 2 - 0).
  { assert (D : dips true one0 all_one z2 z2 gel 1 100 mix (DC false) 1 (edp s) = edp s') by (unfold s'; rewrite el_calc_eq; reflexivity).
    unfold s' at 1. rewrite el_calc_eq. cbn [edv]. unfold groutine, gconfig. change (for_up 0 1 ?f ?x) with (f 0%nat x). cbv beta. rewrite D. fold p. cbn [en].
    set (c := DC false 0). unfold score_stress. change (uf c) with false. rewrite andb_false_r. cbn [andb]. unfold score_energy. cbn [en]. unfold setf at 1. cbn [Nat.eqb].
    change (inconf c) with 2%nat. change (energy_0 c) with 0. change (cnfstart c) with 0%nat. rewrite !two_rounds.
    unfold score_atom. change (uf c) with false. cbv iota. f_equal. change (INR 2) with (1 + 1). replace (1 + 1) with 2 by ring. f_equal.
    unfold eloops, fourth_loop. change (inconf c) with 2%nat. change (cnfstart c) with 0%nat. cbv zeta. cbv iota. rewrite !two_rounds.
    match goal with |- context [reset_atom ?a 1%nat ?z] => set (t := reset_atom a 1%nat z) end. assert (T : en t 0%nat = 0 + 0) by reflexivity. clearbody t.
    unfold second_atom, fourth_atom. unfold c. destruct (duo_half false) as [-> ->]. cbn [fold_left].
    unfold second_neighbor, neighbor_body, none, monopole, add_en. change (uf (C0 false)) with false. cbv iota zeta.
    assert (N : near 1 E01 = true) by (unfold near; rewrite E01_r; destruct (Rlt_dec _ _); auto; lra).
    assert (A1 : forall i, nz (all_one i) = true) by (intros; unfold nz; destruct (Req_EM_T _ _) as [Z|]; auto; destruct (one_nz _ Z)).
    assert (C1 : nz (one0 0) = true) by (unfold nz, one0; cbn [Nat.eqb]; destruct (Req_EM_T _ _); auto; lra).
    assert (C2 : nz (one0 1) = false) by (unfold nz, one0; cbn [Nat.eqb]; destruct (Req_EM_T _ _); auto; lra).
    assert (ZN : nz 0 = false) by (unfold nz; destruct (Req_EM_T _ _); auto; lra).
    unfold charged, fourth_neighbor, has_sr, self_energy, polar, charge_dipole, dipole_dipole, half, self. change (typ (C0 false)) with kinds. change (n_type E01) with 1%nat. change (n_nr E01) with 1%nat.
    pose proof E01_r as R1. pose proof E01_dr as R2. set (e := E01) in *. clearbody e. unfold kinds. cbn [Nat.eqb]. change (uf (duo (fun i : nat => i) false 0)) with false. cbv iota. rewrite N, !A1, C1, C2, ZN, Q0, Q1, R1, R2. cbn [andb orb]. cbv zeta. destruct (shortrange_term _ _ _) as [sv sg].
    unfold add_en, setf. cbn [en pdv rp_i rp_j Nat.eqb]. rewrite T. unfold gel, one0, sprod, all_one. cbn [Nat.eqb vx vy vz]. field. }
  rewrite EN. unfold gel, one0. cbn [Nat.eqb]. lra.
Qed.
