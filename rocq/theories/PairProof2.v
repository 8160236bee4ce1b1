(** The pair force routine against the textbook sums. *)
From Coq Require Import Reals ZArith List Bool Lia Lra Permutation.
From Verif Require Import Vec NbrModel NbrProof NbrProof2 LoopUtil PairModel PairProof PairSpec.
Import ListNotations.
Local Open Scope R_scope.

Section One.
Variables phi dphi : nat -> nat -> R -> R.
Variable in_range : nat -> nat -> R -> bool.
Hypothesis PS : forall s t r, phi s t r = phi t s r.
Hypothesis DS : forall s t r, dphi s t r = dphi t s r.
Hypothesis IS : forall s t r, in_range s t r = in_range t s r.
Variables (c : conf) (pos : nat -> vec) (b : box) (rcut : nat -> nat -> R).
Hypothesis GEO : geometry c pos b rcut.
Notation lo := (cnfstart c).
Notation hi := (cnfstart c + inconf c)%nat.

Lemma nb_half : exists scale, 
  (forall i, (lo <= i < hi)%nat -> nb c i = map (fun v => entry pos (typ c) b i (fst v) (snd v)) (half_bonds lo (inconf c) pos (typ c) b rcut scale i)) /\
  (forall a, (lo <= a < hi)%nat -> all_neighbors c pos b rcut a (all_bonds lo (inconf c) pos (typ c) b rcut scale a)).
Proof.
  destruct (geo_box _ _ _ _ GEO) as (t & rm & scale & MB & R0 & IB & RM & NB). exists scale. split.
  - intros i Hi. pose proof (init_neighbors_spec lo (inconf c) pos (typ c) b rcut scale false i) as H. cbv zeta in H. rewrite (NB i Hi) in H.
    apply H.
  - intros a Ha. split.
    + apply NoDup_filter, visits_nodup.
    + intros j n. unfold all_bonds. rewrite filter_In, visits_in, bondb_true. split; [tauto|]. intros [J B]. split; [split; [auto|]|auto].
      apply (scale_suffices pos b scale t (conf_vol c) rm a j n); auto; [apply (geo_cell _ _ _ _ GEO); auto|apply (geo_cell _ _ _ _ GEO); auto|].
      destruct B as [_ B]. eapply Rle_trans; [exact B|apply RM].
Qed.

Lemma all_neighbors_perm : forall a L M, all_neighbors c pos b rcut a L -> all_neighbors c pos b rcut a M -> Permutation L M.
Proof.
  intros a L M [NL HL] [NM HM]. apply NoDup_Permutation; auto. intros [j n]. rewrite HL, HM. tauto.
Qed.

Lemma geo_ordered : ordered c.
Proof.
  destruct nb_half as (scale & NB & _). intros i e Hi He. rewrite NB in He by auto. apply in_map_iff in He. destruct He as ([j n] & <- & V).
  apply filter_In in V. destruct V as [V _]. apply visits_in in V. simpl. tauto.
Qed.

(** direction of an entry *)
Notation bf := (bond_force c pos b dphi in_range).
Notation be := (bond_energy c pos b phi in_range).
Lemma entry_T : forall i v, T dphi in_range c i (entry pos (typ c) b i (fst v) (snd v)) =
  vscale (weight i v) (bf i v).
Proof.
  intros i [j n]. unfold T, bond_force, active, wt, weight, dist, dvec, entry. simpl. rewrite shift_displacement. destruct (in_range _ _ _); [|vring].
  unfold unscale, Rdiv. vring.
Qed.
Lemma entry_P : forall i v, P phi in_range c i (entry pos (typ c) b i (fst v) (snd v)) = weight i v * be i v.
Proof.
  intros i [j n]. unfold P, bond_energy, active, wt, weight, dist, dvec, entry. simpl. rewrite shift_displacement. destruct (in_range _ _ _); ring.
Qed.
Lemma stress_scale : forall w d f k, stress_of d (vscale w f) k = w * stress_of d f k.
Proof. intros w d f k. unfold stress_of. destruct k as [|[|[|[|[|]]]]]; simpl; ring. Qed.
Lemma stress_scale_l : forall w d f k, stress_of (vscale w d) f k = w * stress_of d f k.
Proof. intros w d f k. unfold stress_of. destruct k as [|[|[|[|[|]]]]]; simpl; ring. Qed.

Lemma dist_sym : forall i j n, dist pos b i (j, n) = dist pos b j (i, neg n).
Proof. intros. unfold dist, dvec. simpl. rewrite displacement_neg, norm_neg. auto. Qed.
Lemma be_sym : forall i j n, be i (j, n) = be j (i, neg n).
Proof. intros. unfold bond_energy, active. rewrite <- (dist_sym i j n). simpl. rewrite IS, PS. auto. Qed.
Lemma bf_sym : forall i j n, bf i (j, n) = vscale (-1) (bf j (i, neg n)).
Proof.
  intros. unfold bond_force, active. rewrite <- (dist_sym i j n). unfold dvec; cbn [fst snd]. rewrite (displacement_neg pos b i j n), (IS (typ c j)), (DS (typ c j)).
  destruct (in_range _ _ _); vring.
Qed.

Theorem textbook_force : forall a L, (lo <= a < hi)%nat -> all_neighbors c pos b rcut a (L a) ->
  vsub (own dphi in_range c a) (got dphi in_range c hi a) = pair_force c pos b dphi in_range L a.
Proof.
  intros a L Ha HL. destruct nb_half as (scale & NB & AN).
  pose proof (all_neighbors_perm _ _ _ (AN a Ha) HL) as PM.
  assert (G : forall (pr : vec -> R), (forall w v, pr (vscale w v) = w * pr v) -> pr v0 = 0 ->
    rsumf (fun e => pr (T dphi in_range c a e)) (nb c a) -
    rsumf (fun k => rsumf (fun e => pr (to dphi in_range c a k e)) (nb c k)) (seq lo (inconf c)) =
    rsumf (fun v => pr (bf a v)) (L a)).
  { intros pr LIN Z. rewrite <- (rsumf_perm _ _ _ PM). pose proof (half_force lo (inconf c) pos (typ c) b rcut scale (geo_sym _ _ _ _ GEO)
      (fun i v => pr (bf i v)) a) as HF. rewrite <- HF; auto.
    - f_equal.
      + rewrite NB by auto. rewrite rsumf_map. apply rsumf_ext. intros v _. rewrite entry_T, LIN. auto.
      + apply rsumf_ext. intros k K. apply in_seq in K. rewrite NB by lia. rewrite rsumf_map. apply rsumf_ext. intros v _.
        unfold to. rewrite entry_T. simpl. destruct (Nat.eqb (fst v) a); auto.
    - intros i j n. rewrite bf_sym, LIN. ring. }
  apply vec_eq; simpl; unfold got, vsumf; simpl; replace (hi - lo)%nat with (inconf c) by lia; apply G; auto.
Qed.

Theorem textbook_energy : forall L, (forall a, (lo <= a < hi)%nat -> all_neighbors c pos b rcut a (L a)) ->
  energy_sum phi in_range c = pair_energy c pos b phi in_range L.
Proof.
  intros L HL. destruct nb_half as (scale & NB & AN). unfold energy_sum, pair_energy.
  transitivity (rsumf (fun i => rsumf (fun v => weight i v * be i v) (half_bonds lo (inconf c) pos (typ c) b rcut scale i)) (seq lo (inconf c))).
  - apply rsumf_ext. intros i Hi. apply in_seq in Hi. rewrite NB by lia. rewrite rsumf_map. apply rsumf_ext. intros v _. apply entry_P.
  - rewrite (half_energy lo (inconf c) pos (typ c) b rcut scale (geo_sym _ _ _ _ GEO) (fun i v => be i v) be_sym). f_equal.
    apply rsumf_ext. intros a Ha. apply in_seq in Ha. apply rsumf_perm. apply (all_neighbors_perm a); [apply AN; lia|apply HL; lia].
Qed.

Theorem textbook_virial : forall L k, (forall a, (lo <= a < hi)%nat -> all_neighbors c pos b rcut a (L a)) ->
  - stress_sum dphi in_range c k = pair_virial c pos b dphi in_range L k.
Proof.
  intros L k HL. destruct nb_half as (scale & NB & AN). unfold stress_sum, pair_virial. f_equal.
  set (G := fun i v => stress_of (dvec pos b i v) (bf i v) k).
  transitivity (rsumf (fun i => rsumf (fun v => weight i v * G i v) (half_bonds lo (inconf c) pos (typ c) b rcut scale i)) (seq lo (inconf c))).
  - apply rsumf_ext. intros i Hi. apply in_seq in Hi.
    assert (ND : forall e, In e (nb c i) -> exists v, In v (half_bonds lo (inconf c) pos (typ c) b rcut scale i) /\ e = entry pos (typ c) b i (fst v) (snd v)).
    { intros e E. rewrite NB in E by lia. apply in_map_iff in E. destruct E as (v & <- & V). eauto. }
    rewrite NB by lia. rewrite rsumf_map. apply rsumf_ext. intros v V. unfold ST. rewrite entry_T, stress_scale. f_equal. unfold G.
    (* n_dist = displacement unless the atoms overlap, which init_neighbors excludes *)
    destruct (geo_box _ _ _ _ GEO) as (t & rm & sc & _ & _ & _ & _ & NBI).
    pose proof (init_neighbors_spec lo (inconf c) pos (typ c) b rcut sc false i) as H. cbv zeta in H. rewrite (NBI i ltac:(lia)) in H. destruct H as [H NO].
    destruct (entry_fields pos (typ c) b i (fst v) (snd v)) as (_ & _ & _ & _ & _ & _ & EF).
    enough (ND0 : displacement pos b i (fst v) (snd v) <> v0) by (rewrite (proj1 (EF ND0)); auto). intros D0.
    assert (I : In (entry pos (typ c) b i (fst v) (snd v)) (nb c i)) by (rewrite NB by lia; apply in_map_iff; exists v; auto).
    rewrite H in I. apply in_map_iff in I. destruct I as ([j n] & E & V'). apply filter_In in V'. destruct V' as [V' B]. apply visits_in in V'.
    assert (j = fst v /\ n = snd v) as [-> ->] by (injection E; auto). apply (NO (fst v) (snd v)); [tauto|tauto|]. apply bondb_true in B. split; [apply B|auto].
  - rewrite (half_energy lo (inconf c) pos (typ c) b rcut scale (geo_sym _ _ _ _ GEO) (fun i v => G i v)).
    + f_equal. apply rsumf_ext. intros a Ha. apply in_seq in Ha. apply rsumf_perm. apply (all_neighbors_perm a); [apply AN; lia|apply HL; lia].
    + intros i j n. unfold G. rewrite bf_sym, stress_scale. unfold dvec; cbn [fst snd]. rewrite (displacement_neg pos b i j n), stress_scale_l. ring.
Qed.

(** Newton's third law *)
Theorem newton : forall L, (forall a, (lo <= a < hi)%nat -> all_neighbors c pos b rcut a (L a)) ->
  vsum (pair_force c pos b dphi in_range L) (seq lo (inconf c)) = v0.
Proof.
  intros L HL. destruct nb_half as (scale & NB & AN).
  assert (G : forall (pr : vec -> R), (forall w v, pr (vscale w v) = w * pr v) ->
    rsumf (fun a => rsumf (fun v => pr (bf a v)) (L a)) (seq lo (inconf c)) = 0).
  { intros pr LIN.
    assert (E : rsumf (fun a => rsumf (fun v => pr (bf a v)) (L a)) (seq lo (inconf c)) =
      rsumf (fun a => rsumf (fun v => pr (bf a v)) (all_bonds lo (inconf c) pos (typ c) b rcut scale a)) (seq lo (inconf c))).
    { apply rsumf_ext. intros a Ha. apply in_seq in Ha. apply rsumf_perm. apply (all_neighbors_perm a); [apply HL; lia|apply AN; lia]. }
    rewrite E.
    assert (Q := reverse_total lo (inconf c) pos (typ c) b rcut scale (geo_sym _ _ _ _ GEO) (fun a v => pr (bf a v))).
    assert (Q2 : rsumf (fun a => rsumf (fun v => pr (bf (fst v) (a, neg (snd v)))) (all_bonds lo (inconf c) pos (typ c) b rcut scale a)) (seq lo (inconf c)) =
       -1 * rsumf (fun a => rsumf (fun v => pr (bf a v)) (all_bonds lo (inconf c) pos (typ c) b rcut scale a)) (seq lo (inconf c))).
    { rewrite <- rsumf_scale. apply rsumf_ext. intros a _. rewrite <- rsumf_scale. apply rsumf_ext. intros [j n] _. cbn [fst snd].
      rewrite (bf_sym a j n), LIN. ring. }
    cbv beta in Q. rewrite Q2 in Q. lra. }
  apply vec_eq; simpl; apply G; auto.
Qed.
End One.

(** ** all configurations *)
Section All.
Variable bld : build.
Variables phi dphi : nat -> nat -> R -> R.
Variable in_range : nat -> nat -> R -> bool.
Variables eweight sweight : R.
Variable cp_energy : nat -> R.
Variable punish : R.
Variable cs : nat -> conf.
Variable nconf : nat.
Hypothesis ORD : forall ci, (ci < nconf)%nat -> ordered (cs ci).
(** the configurations follow one another *)
Hypothesis CONT : forall ci, cnfstart (cs (S ci)) = (cnfstart (cs ci) + inconf (cs ci))%nat.

Notation calc := (calc_forces bld phi dphi in_range eweight sweight cp_energy punish cs nconf).
Lemma starts : forall ci cj, (ci < cj)%nat -> (cnfstart (cs ci) + inconf (cs ci) <= cnfstart (cs cj))%nat.
Proof. intros ci cj H. induction H; rewrite CONT; lia. Qed.

(** weighted squares of configuration ci, in terms of the deviation vector s *)
Definition conf_error (ci : nat) (s : dev) : R :=
  let c := cs ci in
  rsumf (fun a => if scored bld c a then conf_weight c * sqv (frc s a) else 0) (seq (cnfstart c) (inconf c)) +
  conf_weight c * eweight * sq (en s ci) +
  (if stress_on bld c then rsumf (fun k => conf_weight c * sweight * sq (str s ci k)) (seq 0 6) else 0).

Definition all_inv (n : nat) (s : dev) : Prop :=
  (forall ci a, (ci < n)%nat -> (cnfstart (cs ci) <= a < cnfstart (cs ci) + inconf (cs ci))%nat ->
     frc s a = final bld dphi in_range (cs ci) a) /\
  (forall ci, (ci < n)%nat -> en s ci = final_en phi in_range cp_energy ci (cs ci)) /\
  (forall ci k, (ci < n)%nat -> (k < 6)%nat -> STRESS bld = true -> str s ci k = final_str bld dphi in_range (cs ci) k) /\
  err s = rsumf (fun ci => conf_error ci s) (seq 0 n).

Theorem calc_closed_form : forall s, let s' := calc s in
  (forall ci a, (ci < nconf)%nat -> (cnfstart (cs ci) <= a < cnfstart (cs ci) + inconf (cs ci))%nat ->
     frc s' a = final bld dphi in_range (cs ci) a) /\
  (forall ci, (ci < nconf)%nat -> en s' ci = final_en phi in_range cp_energy ci (cs ci)) /\
  (forall ci k, (ci < nconf)%nat -> (k < 6)%nat -> STRESS bld = true -> str s' ci k = final_str bld dphi in_range (cs ci) k) /\
  err s' = rsumf (fun ci => conf_error ci s') (seq 0 nconf) + punish.
Proof.
  intros s. cbv zeta. unfold calc_forces.
  set (s0 := mk_dev (frc s) (en s) (str s) 0).
  set (s' := for_up 0 nconf _ s0).
  assert (I : all_inv nconf s').
  { unfold s'. apply (for_up_inv all_inv); [lia| |].
    - split; [intros; lia|]. split; [intros; lia|]. split; [intros; lia|]. unfold s0, rsumf; simpl. auto.
    - intros n t Hn (A & B & C & D).
      destruct (config_closed_form bld phi dphi in_range eweight sweight cp_energy n (cs n) (ORD n ltac:(lia)) t) as (F1 & F2 & E1 & E2 & S1 & S2 & R).
      set (t' := config_body _ _ _ _ _ _ _ n (cs n) t) in *.
      assert (A' : forall ci a, (ci < S n)%nat -> (cnfstart (cs ci) <= a < cnfstart (cs ci) + inconf (cs ci))%nat -> frc t' a = final bld dphi in_range (cs ci) a).
      { intros ci a H Ha. destruct (Nat.eq_dec ci n) as [->|N]; [apply F2; auto|]. rewrite F1; [apply A; auto; lia|]. left. pose proof (starts ci n ltac:(lia)). lia. }
      assert (B' : forall ci, (ci < S n)%nat -> en t' ci = final_en phi in_range cp_energy ci (cs ci)).
      { intros ci H. destruct (Nat.eq_dec ci n) as [->|N]; [auto|]. rewrite E2 by auto. apply B. lia. }
      assert (C' : forall ci k, (ci < S n)%nat -> (k < 6)%nat -> STRESS bld = true -> str t' ci k = final_str bld dphi in_range (cs ci) k).
      { intros ci k H K ON. destruct (Nat.eq_dec ci n) as [->|N]; [auto|]. rewrite S2 by auto. apply C; auto; lia. }
      split; [exact A'|]. split; [exact B'|]. split; [exact C'|].
      rewrite seq_S, rsumf_snoc. rewrite R, D. rewrite (rsumf_ext (fun ci => conf_error ci t') (fun ci => conf_error ci t)).
      + simpl (0 + n)%nat. unfold conf_error at 3. rewrite B' by lia.
        assert (Q1 : rsumf (score bld dphi in_range (cs n)) (seq (cnfstart (cs n)) (inconf (cs n))) =
           rsumf (fun a => if scored bld (cs n) a then conf_weight (cs n) * sqv (frc t' a) else 0) (seq (cnfstart (cs n)) (inconf (cs n)))).
        { apply rsumf_ext. intros a Ha. apply in_seq in Ha. unfold score. rewrite F2 by lia. auto. }
        assert (Q2 : (if stress_on bld (cs n) then rsumf (fun k => conf_weight (cs n) * sweight * sq (final_str bld dphi in_range (cs n) k)) (seq 0 6) else 0) =
           (if stress_on bld (cs n) then rsumf (fun k => conf_weight (cs n) * sweight * sq (str t' n k)) (seq 0 6) else 0)).
        { destruct (stress_on bld (cs n)) eqn:ON; auto. apply rsumf_ext. intros k K. apply in_seq in K. rewrite S1; auto; [lia|].
          unfold stress_on in ON. destruct (STRESS bld); auto. }
        rewrite Q1, Q2. ring.
      + intros ci Hci. apply in_seq in Hci. unfold conf_error. rewrite E2 by lia.
        f_equal; [f_equal|].
        * apply rsumf_ext. intros a Ha. apply in_seq in Ha. rewrite F1; auto. left. pose proof (starts ci n ltac:(lia)). lia.
        * destruct (stress_on bld (cs ci)); auto. apply rsumf_ext. intros k _. rewrite S2 by lia. auto. }
  destruct I as (A & B & C & D). split; [auto|]. split; [auto|]. split; [auto|].
  unfold conf_error. cbn [frc en str err]. rewrite D. auto.
Qed.
End All.
