(** The loop for the induced dipoles does the iteration of ElSpec.v until it stops. *)
From Coq Require Import Reals ZArith List Bool Lia Lra.
From Verif Require Import Vec NbrModel NbrProof NbrProof2 LoopUtil PairModel PairProof PairSpec PairProof2 BondProof EamProof3 ForceLoop FuncModel ElSpec ElModel ElProof ElProof2 ElProof3 ElProof4.
Import ListNotations.
Local Open Scope R_scope.

Lemma for_up_ext : forall {S} (b1 b2 : nat -> S -> S) lo hi s, (forall i s, b1 i s = b2 i s) -> for_up lo hi b1 s = for_up lo hi b2 s.
Proof. intros S b1 b2 lo hi s E. unfold for_up. revert s. induction (seq lo (hi - lo)); intros s; simpl; auto. rewrite E. auto. Qed.

(** loops that treat every atom on its own *)
Lemma pointwise : forall {S A} (body : nat -> S -> S) (get : S -> nat -> A) (new : nat -> S -> A) lo n s,
  (forall i s a, get (body i s) a = if Nat.eqb a i then new i s else get s a) ->
  (forall i s t, get s i = get t i -> (exists k, s = for_up lo (lo + k) body t) -> new i s = new i t) ->
  forall a, get (for_up lo (lo + n) body s) a = if (Nat.leb lo a && Nat.ltb a (lo + n))%bool then new a s else get s a.
Proof.
  intros S A body get new lo n s B N. induction n; intros a.
  - unfold for_up. rewrite Nat.add_0_r, Nat.sub_diag. simpl. destruct (Nat.leb_spec lo a), (Nat.ltb_spec a lo); cbn [andb]; auto; lia.
  - rewrite <- plus_n_Sm. rewrite for_up_S by lia. rewrite B. destruct (Nat.eqb_spec a (lo + n)) as [->|NE].
    + destruct (Nat.leb_spec lo (lo + n)), (Nat.ltb_spec (lo + n) (Datatypes.S (lo + n))); try lia. cbn [andb]. apply N; [|exists n; auto].
      rewrite IHn. destruct (Nat.leb_spec lo (lo + n)), (Nat.ltb_spec (lo + n) (lo + n)); try lia; cbn [andb]; auto.
    + rewrite IHn. destruct (Nat.leb_spec lo a), (Nat.ltb_spec a (lo + n)), (Nat.ltb_spec a (Datatypes.S (lo + n))); try lia; auto.
Qed.

Section Rng.
Variable c : conf.
Notation lo := (cnfstart c).
Notation hi := (cnfstart c + inconf c)%nat.
Definition rng (a : nat) : bool := (Nat.leb lo a && Nat.ltb a hi)%bool.
Lemma rng_true : forall a, rng a = true <-> (lo <= a < hi)%nat.
Proof. intros a. unfold rng. rewrite andb_true_iff, Nat.leb_le, Nat.ltb_lt. tauto. Qed.
Lemma rng_false : forall a, rng a = false <-> (a < lo)%nat \/ (hi <= a)%nat.
Proof. intros a. unfold rng. rewrite andb_false_iff, Nat.leb_gt, Nat.ltb_ge. tauto. Qed.
End Rng.
Section El.
Variables charge alpha : nat -> R.
Variables dpb dpc : nat -> nat -> R.
Variable gel : R -> R.
Variables dp_cut dp_tol dp_mix : R.
Variable c : conf.
Notation lo := (cnfstart c).
Notation hi := (cnfstart c + inconf c)%nat.
Notation rng := (rng c).
Notation PO := (polar alpha c).

(** 0: reset *)
Lemma reset_loop : forall d, let d' := for_up lo hi (reset_field c) d in
  (forall a, E_stat d' a = if rng a then v0 else E_stat d a) /\ (forall a, p_sr d' a = if rng a then v0 else p_sr d a) /\
  E_ind d' = E_ind d /\ E_old d' = E_old d /\ p_ind d' = p_ind d.
Proof.
  intros d. cbv zeta.
  split; [exact (pointwise (reset_field c) E_stat (fun _ _ => v0) lo (inconf c) d (fun i s a => eq_refl) (fun _ _ _ _ _ => eq_refl))|].
  split; [exact (pointwise (reset_field c) p_sr (fun _ _ => v0) lo (inconf c) d (fun i s a => eq_refl) (fun _ _ _ _ _ => eq_refl))|].
  pose (Q := fun (i : nat) (d' : dip) => E_ind d' = E_ind d /\ E_old d' = E_old d /\ p_ind d' = p_ind d).
  change (Q hi (for_up lo hi (reset_field c) d)). apply (for_up_inv Q); [lia| |]; unfold Q; auto.
Qed.
(** 2: fields of the charges *)
Lemma field_loop : forall d, for_up lo hi (field_atom charge alpha dpb dpc gel dp_cut c) d =
  mk_dip (for_up lo hi (fun i X => fold_left (st_body c charge gel dp_cut i) (nb c i) X) (E_stat d))
         (for_up lo hi (fun i X => fold_left (sr_body c charge alpha dpb dpc gel dp_cut i) (nb c i) X) (p_sr d)) (E_ind d) (E_old d) (p_ind d).
Proof.
  assert (F : forall i l d, fold_left (field_neighbor charge alpha dpb dpc gel dp_cut c i) l d =
    mk_dip (fold_left (st_body c charge gel dp_cut i) l (E_stat d)) (fold_left (sr_body c charge alpha dpb dpc gel dp_cut i) l (p_sr d)) (E_ind d) (E_old d) (p_ind d)).
  { intros i l. induction l as [|e l IH]; intros d; [destruct d; auto|]. cbn [fold_left]. rewrite IH.
    assert (A : E_stat (field_neighbor charge alpha dpb dpc gel dp_cut c i d e) = st_body c charge gel dp_cut i (E_stat d) e) by (unfold field_neighbor, st_body; destruct (charged charge dp_cut c i e); auto).
    assert (B : p_sr (field_neighbor charge alpha dpb dpc gel dp_cut c i d e) = sr_body c charge alpha dpb dpc gel dp_cut i (p_sr d) e) by (unfold field_neighbor, sr_body; destruct (charged charge dp_cut c i e); auto).
    rewrite A, B. unfold field_neighbor. destruct (charged charge dp_cut c i e); reflexivity. }
  assert (G : forall n d, for_up lo (lo + n) (field_atom charge alpha dpb dpc gel dp_cut c) d =
    mk_dip (for_up lo (lo + n) (fun i X => fold_left (st_body c charge gel dp_cut i) (nb c i) X) (E_stat d))
         (for_up lo (lo + n) (fun i X => fold_left (sr_body c charge alpha dpb dpc gel dp_cut i) (nb c i) X) (p_sr d)) (E_ind d) (E_old d) (p_ind d)).
  { induction n; intros d.
    - unfold for_up. rewrite Nat.add_0_r, Nat.sub_diag. destruct d; auto.
    - rewrite <- plus_n_Sm. rewrite !for_up_S by lia. rewrite IHn. unfold field_atom. rewrite F. reflexivity. }
  intros d. apply G.
Qed.
(** 3: one round *)
Definition tot (it : nat) (d : dip) (a : nat) : vec :=
  if Nat.eqb it 0 then vadd (E_ind d a) (E_stat d a)
  else vadd (vadd (vscale (1 - dp_mix) (E_ind d a)) (vscale dp_mix (E_old d a))) (E_stat d a).
Lemma polarise_loop : forall it d, let d' := for_up lo hi (polarise alpha dp_mix it c) d in
  E_stat d' = E_stat d /\ p_sr d' = p_sr d /\
  (forall a, E_ind d' a = if (rng a && PO a)%bool then v0 else E_ind d a) /\
  (forall a, E_old d' a = if (rng a && PO a)%bool then E_ind d a else E_old d a) /\
  (forall a, p_ind d' a = if (rng a && PO a)%bool then vadd (vscale (alpha (typ c a)) (tot it d a)) (p_sr d a) else p_ind d a).
Proof.
  intros it d. cbv zeta.
  pose (Q := fun (i : nat) (d' : dip) => E_stat d' = E_stat d /\ p_sr d' = p_sr d /\
  (forall a, E_ind d' a = if (Nat.leb lo a && Nat.ltb a i && PO a)%bool then v0 else E_ind d a) /\
  (forall a, E_old d' a = if (Nat.leb lo a && Nat.ltb a i && PO a)%bool then E_ind d a else E_old d a) /\
  (forall a, p_ind d' a = if (Nat.leb lo a && Nat.ltb a i && PO a)%bool then vadd (vscale (alpha (typ c a)) (tot it d a)) (p_sr d a) else p_ind d a)).
  change (Q hi (for_up lo hi (polarise alpha dp_mix it c) d)). apply (for_up_inv Q); [lia| |].
  - assert (E : forall a, (Nat.leb lo a && Nat.ltb a lo)%bool = false).
    { intros a. destruct (Nat.leb_spec lo a), (Nat.ltb_spec a lo); auto. lia. }
    unfold Q. split; [auto|]. split; [auto|]. split; [|split]; intros a; rewrite E; auto.
  - intros i t Hi (A1 & A2 & A3 & A4 & A5).
    assert (LT : forall a, (Nat.leb lo a && Nat.ltb a (S i))%bool = if Nat.eqb a i then true else (Nat.leb lo a && Nat.ltb a i)%bool).
    { intros a. destruct (Nat.eqb_spec a i) as [E|E]; destruct (Nat.leb_spec lo a), (Nat.ltb_spec a i), (Nat.ltb_spec a (S i)); auto; lia. }
    assert (II : (Nat.leb lo i && Nat.ltb i i)%bool = false) by (rewrite Nat.ltb_irrefl, andb_false_r; auto).
    assert (TI : tot it t i = tot it d i).
    { unfold tot. rewrite A1, A3, A4, II. auto. }
    unfold Q, polarise. destruct (PO i) eqn:P.
    + cbv zeta. cbn [E_stat p_sr E_ind E_old p_ind]. split; [auto|]. split; [auto|].
      split; [|split]; intros a; unfold setf; rewrite LT; destruct (Nat.eqb_spec a i) as [->|]; rewrite ?P; cbn [andb]; auto.
      * rewrite A3, II. auto.
      * unfold tot in TI. rewrite TI, A2. auto.
    + split; [auto|]. split; [auto|].
      split; [|split]; intros a; rewrite LT; destruct (Nat.eqb_spec a i) as [->|]; rewrite ?P; cbn [andb]; auto; rewrite ?A3, ?A4, ?A5, ?P, ?andb_false_r; auto.
Qed.
Lemma give_up_loop : forall d, let d' := for_up lo hi (give_up alpha c) d in
  E_stat d' = E_stat d /\ p_sr d' = p_sr d /\ E_old d' = E_old d /\
  (forall a, E_ind d' a = if (rng a && PO a)%bool then E_stat d a else E_ind d a) /\
  (forall a, p_ind d' a = if (rng a && PO a)%bool then vadd (vscale (alpha (typ c a)) (E_stat d a)) (p_sr d a) else p_ind d a).
Proof.
  intros d. cbv zeta.
  pose (Q := fun (i : nat) (d' : dip) => E_stat d' = E_stat d /\ p_sr d' = p_sr d /\ E_old d' = E_old d /\
  (forall a, E_ind d' a = if (Nat.leb lo a && Nat.ltb a i && PO a)%bool then E_stat d a else E_ind d a) /\
  (forall a, p_ind d' a = if (Nat.leb lo a && Nat.ltb a i && PO a)%bool then vadd (vscale (alpha (typ c a)) (E_stat d a)) (p_sr d a) else p_ind d a)).
  change (Q hi (for_up lo hi (give_up alpha c) d)). apply (for_up_inv Q); [lia| |].
  - assert (E : forall a, (Nat.leb lo a && Nat.ltb a lo)%bool = false).
    { intros a. destruct (Nat.leb_spec lo a), (Nat.ltb_spec a lo); auto. lia. }
    unfold Q. split; [auto|]. split; [auto|]. split; [auto|]. split; intros a; rewrite E; auto.
  - intros i t Hi (A1 & A2 & A3 & A4 & A5).
    assert (LT : forall a, (Nat.leb lo a && Nat.ltb a (S i))%bool = if Nat.eqb a i then true else (Nat.leb lo a && Nat.ltb a i)%bool).
    { intros a. destruct (Nat.eqb_spec a i) as [E|E]; destruct (Nat.leb_spec lo a), (Nat.ltb_spec a i), (Nat.ltb_spec a (S i)); auto; lia. }
    unfold Q, give_up. destruct (PO i) eqn:P.
    + cbn [E_stat p_sr E_ind E_old p_ind]. split; [auto|]. split; [auto|]. split; [auto|].
      split; intros a; unfold setf; rewrite LT; destruct (Nat.eqb_spec a i) as [->|]; rewrite ?P; cbn [andb]; auto; rewrite ?A1, ?A2; auto.
    + split; [auto|]. split; [auto|]. split; [auto|].
      split; intros a; rewrite LT; destruct (Nat.eqb_spec a i) as [->|]; rewrite ?P; cbn [andb]; auto; rewrite ?A4, ?A5, ?P, ?andb_false_r; auto.
Qed.
Lemma change_sum : forall d, for_up lo hi (change alpha c d) 0 =
  rsumf (fun a => if zero (alpha (typ c a)) then 0 else sqv (vscale (alpha (typ c a)) (vsub (E_old d a) (E_ind d a)))) (seq lo (inconf c)).
Proof.
  intros d.
  assert (G : forall n, for_up lo (lo + n) (change alpha c d) 0 =
    rsumf (fun a => if zero (alpha (typ c a)) then 0 else sqv (vscale (alpha (typ c a)) (vsub (E_old d a) (E_ind d a)))) (seq lo n)).
  { induction n.
    - unfold for_up. rewrite Nat.add_0_r, Nat.sub_diag. reflexivity.
    - rewrite <- plus_n_Sm. rewrite for_up_S by lia. rewrite seq_S, rsumf_snoc, IHn. unfold change, polar. rewrite zero_nz. destruct (nz (alpha (typ c (lo + n)%nat))); cbn [negb]; [auto|ring]. }
  apply G.
Qed.

(** the loop ends *)
Theorem dip_loop_ends : forall d, exists d', dip_loop alpha gel dp_cut dp_tol dp_mix 52 0 c d = Some d'.
Proof.
  assert (G : forall fuel it d, (52 <= fuel + it)%nat -> exists d', dip_loop alpha gel dp_cut dp_tol dp_mix fuel it c d = Some d' \/ (fuel = 0)%nat).
  { induction fuel; intros it d H; [exists d; auto|]. cbn [dip_loop]. destruct (round alpha gel dp_cut dp_mix it c d) as [d1 x].
    destruct (hopeless it x || small dp_tol x)%bool eqn:E; [eexists; left; reflexivity|].
    destruct (IHfuel (S it) (if hopeless it x then for_up lo hi (give_up alpha c) d1 else d1) ltac:(lia)) as [d' [D|Z]]; [eexists; left; exact D|]. exfalso. subst fuel.
    apply orb_false_iff in E. destruct E as [E _]. unfold hopeless in E. destruct (Nat.eqb_spec it 0); [lia|]. cbn [negb andb] in E. apply orb_false_iff in E. destruct E as [_ E].
    apply Nat.ltb_ge in E. lia. }
  intros d. destruct (G 52%nat 0%nat d ltac:(lia)) as [d' [D|Z]]; [exists d'; auto|discriminate].
Qed.

(** ** outside of the configuration nothing changes *)
Definition same_out (d d' : dip) : Prop := forall a, rng a = false ->
  E_stat d' a = E_stat d a /\ p_sr d' a = p_sr d a /\ E_ind d' a = E_ind d a /\ E_old d' a = E_old d a /\ p_ind d' a = p_ind d a.
Lemma same_trans : forall d1 d2 d3, same_out d1 d2 -> same_out d2 d3 -> same_out d1 d3.
Proof. intros d1 d2 d3 A B a H. destruct (A a H) as (A1 & A2 & A3 & A4 & A5), (B a H) as (B1 & B2 & B3 & B4 & B5). repeat split; congruence. Qed.

Section Geo.
Variables (pos : nat -> vec) (bx : box) (rcut : nat -> nat -> R).
Hypothesis GEO : geometry c pos bx rcut.
Variable L : nat -> list (nat * image).
Hypothesis HL : forall a, (lo <= a < hi)%nat -> all_neighbors c pos bx rcut a (L a).
Hypothesis BS : forall s t, dpb s t = dpb t s.
Hypothesis CS : forall s t, dpc s t = dpc t s.
Let TY := ent_typed c pos bx rcut GEO L HL.
Notation SF := (static_field c pos bx charge gel dp_cut L).
Notation DM := (damped_moment c pos bx charge gel dp_cut L alpha dpb dpc).
Notation DF := (dipole_field c pos bx gel dp_cut L alpha).
Notation MV := (moment_of c pos bx charge gel dp_cut L alpha dpb dpc).

Lemma field_ext : forall p p', (forall a, (lo <= a < hi)%nat -> alpha (typ c a) <> 0 -> p a = p' a) -> forall a, (lo <= a < hi)%nat -> DF p a = DF p' a.
Proof.
  intros p p' E a Ha. unfold dipole_field. apply vsum_ext. intros [j n] V. destruct (HL a Ha) as [_ IFF]. apply IFF in V. destruct V as [Hj _].
  assert (M : mom c alpha p j = mom c alpha p' j).
  { unfold mom, zero. destruct (Req_EM_T (alpha (typ c j)) 0); auto. }
  cbn [fst]. rewrite M. auto.
Qed.
(** states before round k of the iteration *)
Definition at_step (e0 : nat -> vec) (k : nat) (d : dip) : Prop := forall a, (lo <= a < hi)%nat ->
  E_stat d a = SF a /\ p_sr d a = DM a /\
  (alpha (typ c a) <> 0 -> E_ind d a = fst (iterate c pos bx charge gel dp_cut L alpha dpb dpc dp_mix e0 k) a /\
     ((0 < k)%nat -> E_old d a = snd (iterate c pos bx charge gel dp_cut L alpha dpb dpc dp_mix e0 k) a)).
Notation IT := (iterate c pos bx charge gel dp_cut L alpha dpb dpc dp_mix).
Notation SM := (step_moment c pos bx charge gel dp_cut L alpha dpb dpc dp_mix).
Notation SC := (step_change c pos bx charge gel dp_cut L alpha dpb dpc dp_mix).
Lemma round_step : forall e0 k d, at_step e0 k d -> let '(d', x) := round alpha gel dp_cut dp_mix k c d in
  at_step e0 (S k) d' /\ x = SC e0 k /\ same_out d d' /\
  (forall a, (lo <= a < hi)%nat -> alpha (typ c a) <> 0 -> p_ind d' a = SM e0 k a) /\
  (forall a, (lo <= a < hi)%nat -> alpha (typ c a) = 0 -> p_ind d' a = p_ind d a).
Proof.
  intros e0 k d H. unfold round. cbv zeta. destruct (polarise_loop k d) as (A1 & A2 & A3 & A4 & A5). set (d1 := for_up lo hi (polarise alpha dp_mix k c) d) in *.
  assert (PI : forall a, (lo <= a < hi)%nat -> alpha (typ c a) <> 0 -> p_ind d1 a = SM e0 k a).
  { intros a Ha NZ. rewrite A5. apply rng_true in Ha as Hr. rewrite Hr. unfold polar. apply nz_true in NZ as NZ'. rewrite NZ'. cbn [andb]. destruct (H a Ha) as (H1 & H2 & H3). destruct (H3 NZ) as [H4 H5].
    unfold step_moment, moment_of, tot, mixed. rewrite H1, H2, H4. destruct k as [|k]; cbn [Nat.eqb].
    - auto.
    - rewrite (H5 ltac:(lia)). auto. }
  assert (EI : forall a, (lo <= a < hi)%nat -> alpha (typ c a) <> 0 -> for_up lo hi (induce_atom alpha gel dp_cut c (p_ind d1)) (E_ind d1) a = fst (IT e0 (S k)) a).
  { intros a Ha NZ. rewrite (induce_spec c pos bx rcut GEO L HL alpha gel dp_cut (p_ind d1) (E_ind d1) a Ha); auto.
    - cbn [iterate fst]. apply field_ext; auto.
    - rewrite A3. apply rng_true in Ha. rewrite Ha. unfold polar. apply nz_true in NZ. rewrite NZ. auto. }
  assert (EO : forall a, (lo <= a < hi)%nat -> alpha (typ c a) <> 0 -> E_old d1 a = fst (IT e0 k) a).
  { intros a Ha NZ. rewrite A4. apply rng_true in Ha as Hr. rewrite Hr. unfold polar. apply nz_true in NZ as NZ'. rewrite NZ'. cbn [andb]. apply (H a Ha). auto. }
  split; [|split; [|split; [|split]]].
  - intros a Ha. cbn [E_stat p_sr E_ind E_old]. rewrite A1, A2. destruct (H a Ha) as (H1 & H2 & _). split; [auto|]. split; [auto|]. intros NZ. split; [apply EI; auto|].
    intros _. cbn [iterate snd]. apply EO; auto.
  - rewrite change_sum. unfold step_change. do 2 f_equal. apply rsumf_ext. intros a Ha. apply in_seq in Ha. unfold zero. destruct (Req_EM_T (alpha (typ c a)) 0) as [|NZ]; auto.
    cbn [E_old E_ind]. rewrite EO, EI by (auto; lia). auto.
  - intros a O. cbn [E_stat p_sr E_ind E_old p_ind]. rewrite A1, A2, A4, A5, O. cbn [andb]. split; [auto|]. split; [auto|]. split; [|auto].
    unfold induce_atom. rewrite (acc_out c (induce_neighbor alpha gel dp_cut c (p_ind d1)) _ _ (fun i e _ _ => in_body_spec c alpha gel dp_cut (p_ind d1) i e) TY) by (apply rng_false; auto).
    rewrite A3, O. auto.
  - apply PI.
  - intros a Ha Z. cbn [p_ind]. rewrite A5. unfold polar. apply nz_false in Z. rewrite Z, andb_false_r. auto.
Qed.
Definition exits (e0 : nat -> vec) (k : nat) (d d' : dip) : Prop :=
  same_out d d' /\
  stops c pos bx charge gel dp_cut L alpha dpb dpc dp_tol dp_mix e0 k /\
  (forall a, (lo <= a < hi)%nat -> E_stat d' a = SF a /\ p_sr d' a = DM a) /\
  (given_up c pos bx charge gel dp_cut L alpha dpb dpc dp_mix e0 k -> forall a, (lo <= a < hi)%nat -> alpha (typ c a) <> 0 ->
     p_ind d' a = MV (fun _ => v0) a /\ E_ind d' a = SF a) /\
  (~ given_up c pos bx charge gel dp_cut L alpha dpb dpc dp_mix e0 k -> forall a, (lo <= a < hi)%nat -> alpha (typ c a) <> 0 ->
     p_ind d' a = SM e0 k a /\ E_ind d' a = DF (SM e0 k) a) /\
  (forall a, (lo <= a < hi)%nat -> alpha (typ c a) = 0 -> p_ind d' a = p_ind d a).
Lemma hopeless_spec : forall e0 k, hopeless k (SC e0 k) = true <-> given_up c pos bx charge gel dp_cut L alpha dpb dpc dp_mix e0 k.
Proof.
  intros e0 k. unfold hopeless, given_up. destruct (Nat.eqb_spec k 0) as [->|N]; cbn [negb andb].
  - split; [discriminate|intros [H _]; lia].
  - rewrite orb_true_iff, Nat.ltb_lt. destruct (Rlt_dec 10 (SC e0 k)); split; intros H; auto.
    + split; [lia|auto].
    + split; [lia|]. destruct H; [discriminate|auto].
    + destruct H as [_ [H|H]]; [contradiction|auto].
Qed.
Lemma loop_steps : forall e0 fuel k d d', at_step e0 k d -> dip_loop alpha gel dp_cut dp_tol dp_mix fuel k c d = Some d' ->
  exists m, (k <= m)%nat /\ (forall j, (k <= j < m)%nat -> ~ stops c pos bx charge gel dp_cut L alpha dpb dpc dp_tol dp_mix e0 j) /\ exits e0 m d d'.
Proof.
  intros e0. induction fuel; intros k d d' H E; [discriminate|]. cbn [dip_loop] in E. pose proof (round_step e0 k d H) as RS.
  destruct (round alpha gel dp_cut dp_mix k c d) as [d1 x]. destruct RS as (S1 & -> & SO & PI & PZ).
  destruct (hopeless k (SC e0 k)) eqn:HO.
  - cbn [orb] in E. injection E as <-. exists k. split; [auto|]. split; [intros; lia|].
    pose proof (proj1 (hopeless_spec e0 k) HO) as GU. destruct (give_up_loop d1) as (B1 & B2 & B3 & B4 & B5). set (d2 := for_up lo hi (give_up alpha c) d1) in *.
    split; [|split; [left; auto|split; [|split; [|split]]]].
    + apply (same_trans d d1 d2 SO). intros a O. rewrite B1, B2, B3, B4, B5, O. auto.
    + intros a Ha. rewrite B1, B2. destruct (S1 a Ha) as (? & ? & _). auto.
    + intros _ a Ha NZ. rewrite B4, B5. apply rng_true in Ha as Hr. rewrite Hr. unfold polar. apply nz_true in NZ as NZ'. rewrite NZ'. cbn [andb]. destruct (S1 a Ha) as (Q1 & Q2 & _). rewrite Q1, Q2.
      split; [|auto]. unfold moment_of. vring.
    + intros NG. contradiction.
    + intros a Ha Z. rewrite B5. unfold polar. apply nz_false in Z as Z'. rewrite Z', andb_false_r. apply PZ; auto.
  - assert (NG : ~ given_up c pos bx charge gel dp_cut L alpha dpb dpc dp_mix e0 k) by (intros G; apply hopeless_spec in G; congruence).
    cbn [orb] in E. unfold small in E. destruct (Rlt_dec (SC e0 k) dp_tol) as [LT|GE].
    + injection E as <-. exists k. split; [auto|]. split; [intros; lia|]. split; [auto|]. split; [right; auto|]. split; [intros a Ha; destruct (S1 a Ha) as (? & ? & _); auto|].
      split; [intros G; contradiction|]. split; [|auto]. intros _ a Ha NZ. split; [apply PI; auto|]. destruct (S1 a Ha) as (_ & _ & Q). apply Q. auto.
    + destruct (IHfuel (S k) d1 d' S1 E) as (m & M1 & M2 & M3). exists m. split; [lia|]. split.
      * intros j J. destruct (Nat.eq_dec j k) as [->|]; [|apply M2; lia]. intros [G|G]; [contradiction|contradiction].
      * destruct M3 as (X1 & X2 & X3 & X4 & X5 & X6). split; [apply (same_trans d d1 d'); auto|]. split; [auto|]. split; [auto|]. split; [auto|]. split; [auto|].
        intros a Ha Z. rewrite X6 by auto. apply PZ; auto.
Qed.
(** the dipoles of a configuration *)
Theorem dipoles_spec : forall d, exists k, (k <= 51)%nat /\
  (forall j, (j < k)%nat -> ~ stops c pos bx charge gel dp_cut L alpha dpb dpc dp_tol dp_mix (E_ind d) j) /\
  exits (E_ind d) k d (dipoles charge alpha dpb dpc gel dp_cut dp_tol dp_mix c d).
Proof.
  intros d. unfold dipoles. cbv zeta. destruct (reset_loop d) as (A1 & A2 & A3 & A4 & A5). set (d1 := for_up lo hi (reset_field c) d) in *. rewrite field_loop. set (d2 := mk_dip _ _ _ _ _).
  assert (ST : at_step (E_ind d) 0 d2).
  { intros a Ha. unfold d2. cbn [E_stat p_sr E_ind E_old]. apply rng_true in Ha as Hr. split; [|split].
    - apply (static_spec c pos bx rcut GEO L HL charge gel dp_cut); auto. rewrite A1, Hr. auto.
    - apply (damped_spec c pos bx rcut GEO L HL charge alpha dpb dpc BS CS gel dp_cut); auto. rewrite A2, Hr. auto.
    - intros _. rewrite A3. split; [auto|intros; lia]. }
  assert (SO : same_out d d2).
  { intros a O. apply rng_false in O as O'. unfold d2. cbn [E_stat p_sr E_ind E_old p_ind]. rewrite A3, A4, A5. split; [|split; [|auto]].
    - rewrite (acc_out c (st_body c charge gel dp_cut) _ _ (st_body_spec c pos bx rcut GEO L HL charge gel dp_cut) TY) by auto. rewrite A1, O. auto.
    - rewrite (acc_out c (sr_body c charge alpha dpb dpc gel dp_cut) _ _ (fun i e _ _ => sr_body_spec c charge alpha dpb dpc gel dp_cut i e) TY) by auto. rewrite A2, O. auto. }
  destruct (dip_loop_ends d2) as [d' D]. rewrite D. destruct (loop_steps (E_ind d) 52 0 d2 d' ST D) as (k & _ & K2 & K3).
  exists k. split; [|split].
  - destruct (Nat.le_gt_cases k 51); auto. exfalso. apply (K2 51%nat ltac:(lia)). left. split; [lia|right; lia].
  - intros j J. apply K2. lia.
  - destruct K3 as (X1 & X2 & X3 & X4 & X5 & X6). split; [apply (same_trans d d2 d'); auto|]. split; [auto|]. split; [auto|]. split; [auto|]. split; [auto|].
    intros a Ha Z. rewrite X6 by auto. unfold d2. cbn [p_ind]. rewrite A5. auto.
Qed.
End Geo.
End El.
