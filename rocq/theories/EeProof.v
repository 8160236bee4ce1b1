(** The routine for EAM with electrostatics does the same as the EAM routine on configurations
    whose reference values are reduced by what short range, charges and dipoles add. *)
From Coq Require Import Reals ZArith List Bool Lia Lra.
From Verif Require Import Vec NbrModel NbrProof LoopUtil PairModel PairProof PairSpec ForceLoop AddProof FuncModel EamModel EamProof EamProof2 EamProof3 ElSpec ElModel ElProof ElProof2 ElProof3 EeModel.
Import ListNotations.
Local Open Scope R_scope.

(** entries of t are the sums of those of s and z *)
Record rel (s z t : dev) : Prop := mk_rel {
  r_frc : forall a, frc t a = vadd (frc s a) (frc z a);
  r_en : forall d, en t d = en s d + en z d;
  r_str : forall d k, str t d k = str s d k + str z d k;
  r_err : err t = err s + err z }.
Lemma rel_left : forall body ci T P son, body_spec body ci T P son -> forall i s z t e, rel s z t -> rel (body i s e) z (body i t e).
Proof.
  intros body ci T P son B i s z t e [A1 A2 A3 A4]. constructor.
  - intros a. rewrite !(bs_frc _ _ _ _ _ B), A1. vring.
  - intros d. destruct (Nat.eq_dec d ci) as [->|N]; [rewrite !(bs_en _ _ _ _ _ B), A2; ring|]. rewrite !(bs_en' _ _ _ _ _ B); auto.
  - intros d k. rewrite !(bs_str _ _ _ _ _ B), A3. destruct (_ && _)%bool; ring.
  - rewrite !(bs_err _ _ _ _ _ B); auto.
Qed.
Lemma rel_comm : forall s z t, rel s z t -> rel z s t.
Proof. intros s z t [A1 A2 A3 A4]. constructor; intros; rewrite ?A1, ?A2, ?A3, ?A4; try ring. vring. Qed.
Lemma rel_right : forall body ci T P son, body_spec body ci T P son -> forall i s z t e, rel s z t -> rel s (body i z e) (body i t e).
Proof. intros. apply rel_comm. eapply rel_left; eauto. apply rel_comm; auto. Qed.
Lemma rel_adds : forall ci f F E S, adds ci f F E S -> forall s z t, rel s z t -> rel s (f z) (f t).
Proof.
  intros ci f F E S A s z t [A1 A2 A3 A4]. constructor.
  - intros a. rewrite !(ad_frc _ _ _ _ _ A), A1. vring.
  - intros d. rewrite !(ad_en _ _ _ _ _ A), A2. ring.
  - intros d k. rewrite !(ad_str _ _ _ _ _ A), A3. ring.
  - rewrite !(ad_err _ _ _ _ _ A); auto.
Qed.
Lemma rel_fold : forall body ci T P son, body_spec body ci T P son -> forall i l s z t, rel s z t -> rel (fold_left (body i) l s) z (fold_left (body i) l t).
Proof. intros body ci T P son B i l. induction l as [|e l IH]; intros; auto. cbn [fold_left]. apply IH. eapply rel_left; eauto. Qed.

(** the whole state; [z] only has entries of the deviation vector *)
Record erel (s : est) (z : dev) (t : est) : Prop := mk_erel {
  x_dv : rel (dv s) z (dv t); x_rho : rho t = rho s; x_grad : gradF t = gradF s; x_lim : lim t = lim s; x_rsum : rsum t = rsum s; x_dum : dum t = dum s }.

Definition none (s t : nat) (r : R) : bool := false.
(** configuration with reduced reference values *)
Definition shifted (c : conf) (X : nat -> vec) (E : R) (Sg : nat -> R) : conf :=
  mk_conf (cnfstart c) (inconf c) (uf c) (us c) (conf_weight c) (conf_vol c) (nb c) (typ c) (contrib c) (absforce c)
    (fun a => vsub (force_0 c a) (X a)) (energy_0 c - E / INR (inconf c)) (fun k => stress_0 c k - Sg k / conf_vol c).

Lemma for_up_two : forall {A B} (Q : A -> B -> Prop) lo n (f : nat -> A -> A) (g : nat -> B -> B) x y,
  Q x y -> (forall i x y, (lo <= i < lo + n)%nat -> Q x y -> Q (f i x) (g i y)) -> Q (for_up lo (lo + n) f x) (for_up lo (lo + n) g y).
Proof.
  intros A B Q lo n f g x y H ST. induction n.
  - rewrite Nat.add_0_r. unfold for_up. rewrite Nat.sub_diag. auto.
  - rewrite <- plus_n_Sm, !for_up_S by lia. apply ST; [lia|]. apply IHn. intros; apply ST; auto; lia.
Qed.
Lemma for_up_three : forall {A B C} (Q : A -> B -> C -> Prop) lo n (f : nat -> A -> A) (g : nat -> B -> B) (h : nat -> C -> C) x y z,
  Q x y z -> (forall i x y z, (lo <= i < lo + n)%nat -> Q x y z -> Q (f i x) (g i y) (h i z)) ->
  Q (for_up lo (lo + n) f x) (for_up lo (lo + n) g y) (for_up lo (lo + n) h z).
Proof.
  intros A B C Q lo n f g h x y z H ST. induction n.
  - rewrite Nat.add_0_r. unfold for_up. rewrite Nat.sub_diag. auto.
  - rewrite <- plus_n_Sm, !for_up_S by lia. apply ST; [lia|]. apply IHn. intros; apply ST; auto; lia.
Qed.

Section Ee.
Variable bld : build.
Variable NOPUNISH DIPOLE : bool.
Notation eb := (eb bld NOPUNISH).
Variables phi dphi : nat -> nat -> R -> R.
Variable in_range : nat -> nat -> R -> bool.
Variables dens ddens : nat -> nat -> R -> R.
Variable reach : nat -> nat -> R -> bool.
Variables F dF : nat -> nat -> R -> R.
Variables fbegin fend : nat -> nat -> R.
Variables charge alpha : nat -> R.
Variables dpb dpc : nat -> nat -> R.
Variables fel gel ggel : R -> R.
Variables dp_cut dp_tol dp_mix self_coef : R.
Variables eweight sweight : R.
Variable limit_0 : nat -> R.
Variable dummy_0 : nat -> R.
Variable punish : R.
Variables ntypes natoms : nat.

(** ** second loop *)
Lemma second_rel : forall ci c c' i s z t e, typ c' = typ c -> nb c' = nb c -> erel s z t ->
  erel (EamModel.second_neighbor eb phi dphi none dens reach ci c' i s e)
       (ElModel.second_neighbor bld phi dphi in_range charge fel gel dp_cut ci c i z e)
       (EeModel.second_neighbor bld phi dphi in_range dens reach charge fel gel dp_cut ci c i t e).
Proof.
  intros ci c c' i s z t e T N [A1 A2 A3 A4 A5 A6]. constructor; cbn [EamModel.second_neighbor EeModel.second_neighbor with_dv with_rho dv rho gradF lim rsum dum TBEAM EeModel.eb]; auto.
  - exact (rel_right _ _ _ _ _ (second_spec bld phi dphi in_range charge fel gel dp_cut ci c) i _ _ _ e A1).
  - rewrite A2. unfold add_density. rewrite T. auto.
Qed.
Lemma embed_rel : forall ci c c' i b s z t, typ c' = typ c -> erel s z t ->
  erel (embed_body eb F dF F dF fbegin fend fbegin ci c' i b s) z (embed_body eb F dF F dF fbegin fend fbegin ci c i b t).
Proof.
  intros ci c c' i b s z t T [A1 A2 A3 A4 A5 A6]. destruct s as [sd sr sg sl su sm], t as [td tr tg tl tu tm]. cbn [dv rho gradF lim rsum dum] in *. subst.
  unfold embed_body, clamp_high, clamp_low, EamModel.embed. cbn [RESCALE EeModel.eb dv rho gradF lim rsum dum]. rewrite T. destruct A1 as [B1 B2 B3 B4].
  destruct (Rlt_dec (fend b (typ c i)) (sr b i)); cbn [dv rho gradF lim rsum dum];
    (destruct (Rlt_dec _ (fbegin b (typ c i))); cbn [dv rho gradF lim rsum dum];
     constructor; cbn [dv rho gradF lim rsum dum]; auto;
     constructor; cbn [frc en str err]; auto;
     intros d; unfold setf; destruct (Nat.eqb_spec d ci) as [->|]; auto; rewrite B2; ring).
Qed.
Lemma second_atom_rel : forall ci c c' i s z t, typ c' = typ c -> nb c' = nb c -> erel s z t ->
  erel (EamModel.second_atom eb phi dphi none dens reach F dF F dF fbegin fend fbegin ci c' i s)
       (ElModel.second_atom bld phi dphi in_range charge fel gel dp_cut ci c i z)
       (EeModel.second_atom bld NOPUNISH phi dphi in_range dens reach F dF fbegin fend charge fel gel dp_cut ci c i t).
Proof.
  intros ci c c' i s z t T N H. unfold EamModel.second_atom, ElModel.second_atom, EeModel.second_atom, for_up, nbands. cbn [TBEAM EeModel.eb Nat.sub seq fold_left].
  rewrite N. apply embed_rel; auto. generalize (nb c i) as l. intros l. revert s z t H. induction l as [|e l IH]; intros; auto.
  cbn [fold_left]. apply IH. apply second_rel; auto.
Qed.
Lemma reset_rel : forall c c' i s z t, uf c' = uf c -> (if uf c then force_0 c i = vsub (force_0 c' i) (frc z i) else frc z i = v0) -> erel s z t ->
  erel (reset_rho eb c' i s) z (reset_rho eb c i t).
Proof.
  intros c c' i s z t U X [[B1 B2 B3 B4] A2 A3 A4 A5 A6]. unfold reset_rho, reset_atom. rewrite A2, U. constructor; cbn [dv rho gradF lim rsum dum]; auto.
  constructor; cbn [frc en str err]; auto. intros a. unfold setf. destruct (Nat.eqb_spec a i) as [->|]; auto.
  destruct (uf c); [rewrite X; vring|rewrite X; vring].
Qed.

(** ** third loop and scores *)
Lemma score_rel : forall c c' i s z t, uf c' = uf c -> absforce c' = absforce c -> contrib c' = contrib c -> conf_weight c' = conf_weight c ->
  (forall a, frc z a = v0) -> rel s z t -> rel (score_atom bld c' i s) z (score_atom bld c i t).
Proof.
  intros c c' i s z t U AB CO W Z [B1 B2 B3 B4]. assert (V : forall a, frc t a = frc s a) by (intros a; rewrite B1, Z; vring).
  unfold score_atom. rewrite U, AB, CO, W. destruct (uf c); [|constructor; auto].
  constructor; cbn [frc en str err]; auto.
  - intros a. rewrite Z. destruct (FWEIGHT bld); unfold setf; [destruct (Nat.eqb a i)|]; rewrite !V; vring.
  - destruct (negb (CONTRIB bld) || contrib c i)%bool; auto. destruct (FWEIGHT bld); rewrite ?setf_eq, V, B4; ring.
Qed.
Lemma third_rel : forall gF ci c c' i s z t, typ c' = typ c -> nb c' = nb c -> uf c' = uf c -> us c' = us c -> absforce c' = absforce c -> contrib c' = contrib c -> conf_weight c' = conf_weight c ->
  (forall a, frc z a = v0) -> rel s z t ->
  rel (third_atom eb ddens reach gF ci c' i s) z (third_atom eb ddens reach gF ci c i t).
Proof.
  intros gF ci c c' i s z t T N U US AB CO W Z H. unfold third_atom. cbn [base EeModel.eb]. apply score_rel; auto. rewrite N.
  assert (EQ : forall l s, fold_left (third_neighbor eb ddens reach gF ci c' i) l s = fold_left (third_neighbor eb ddens reach gF ci c i) l s).
  { intros l. induction l as [|e l IH]; intros x; auto. cbn [fold_left]. rewrite IH. f_equal. unfold third_neighbor, band_force. rewrite T, US. auto. }
  rewrite EQ. eapply rel_fold; eauto. apply (third_body_spec eb ddens reach ci c gF).
Qed.
Lemma energy_rel : forall ci c E X Sg s z t, (forall d, en z d = if Nat.eqb d ci then E else 0) -> rel s z t ->
  rel (score_energy eweight ci (shifted c X E Sg) s) (mk_dev (frc z) (fun _ => 0) (str z) (err z)) (score_energy eweight ci c t).
Proof.
  intros ci c E X Sg s z t Z [B1 B2 B3 B4]. unfold score_energy. cbn [inconf energy_0 conf_weight shifted].
  assert (V : en t ci / INR (inconf c) - energy_0 c = en s ci / INR (inconf c) - (energy_0 c - E / INR (inconf c))).
  { rewrite B2, Z, Nat.eqb_refl. unfold Rdiv. ring. }
  rewrite V. constructor; cbn [frc en str err]; auto.
  - intros d. unfold setf. destruct (Nat.eqb d ci) eqn:D; [ring|]. rewrite B2, Z, D. auto.
  - rewrite B4. ring.
Qed.
Lemma stress_rel : forall ci c E X Sg s z t, (forall d k, str z d k = if Nat.eqb d ci then Sg k else 0) -> (forall k, (6 <= k)%nat -> Sg k = 0) ->
  ((STRESS bld && uf c && us c)%bool = false -> forall k, Sg k = 0) -> rel s z t ->
  rel (score_stress bld sweight ci (shifted c X E Sg) s) (mk_dev (frc z) (en z) (fun _ _ => 0) (err z)) (score_stress bld sweight ci c t).
Proof.
  intros ci c E X Sg s z t Z HI OFF H. unfold score_stress. cbn [uf us shifted]. destruct (STRESS bld && uf c && us c)%bool eqn:ON.
  - pose (zk := fun n => mk_dev (frc z) (en z) (fun d k => if (Nat.eqb d ci && negb (Nat.ltb k n))%bool then Sg k else 0) (err z)).
    assert (Q : rel (for_up 0 6 (score_stress_comp sweight ci (shifted c X E Sg)) s) (zk 6%nat) (for_up 0 6 (score_stress_comp sweight ci c) t)).
    { assert (G : forall n, rel (for_up 0 n (score_stress_comp sweight ci (shifted c X E Sg)) s) (zk n) (for_up 0 n (score_stress_comp sweight ci c) t)).
      { induction n.
        - destruct H as [B1 B2 B3 B4]. constructor; auto. intros d k. cbn [for_up fold_left seq Nat.sub]. change (for_up 0 0 ?f ?x) with x. rewrite B3, Z. cbn [zk str]. destruct (Nat.eqb d ci); auto.
        - rewrite !for_up_S by lia. set (a := for_up 0 n _ s) in *. set (b := for_up 0 n _ t) in *. clearbody a b. destruct IHn as [B1 B2 B3 B4].
          unfold score_stress_comp. cbn [conf_vol stress_0 conf_weight shifted].
          assert (V : str b ci n / conf_vol c - stress_0 c n = str a ci n / conf_vol c - (stress_0 c n - Sg n / conf_vol c)).
          { rewrite B3. cbn [zk str]. rewrite Nat.eqb_refl, Nat.ltb_irrefl. cbn [andb negb]. unfold Rdiv. ring. }
          rewrite V. constructor; cbn [frc en str err zk]; auto.
          + intros d k. unfold setf. destruct (Nat.eqb_spec d ci) as [->|D]; cbn [andb].
            * destruct (Nat.eqb_spec k n) as [->|K].
              -- destruct (Nat.ltb_spec n (S n)); [|lia]. cbn [negb]. ring.
              -- rewrite B3. cbn [zk str]. rewrite Nat.eqb_refl. cbn [andb]. destruct (Nat.ltb_spec k n), (Nat.ltb_spec k (S n)); auto; lia.
            * rewrite B3. cbn [zk str]. destruct (Nat.eqb_spec d ci); [contradiction|]. auto.
          + rewrite B4. cbn [zk err]. ring. }
      apply G. }
    destruct Q as [B1 B2 B3 B4]. constructor; auto. intros d k. rewrite B3. cbn [zk str]. destruct (Nat.eqb d ci); cbn [andb]; auto. destruct (Nat.ltb_spec k 6); cbn [negb]; auto. rewrite HI; auto.
  - destruct H as [B1 B2 B3 B4]. constructor; auto. intros d k. rewrite B3, Z. cbn [str]. rewrite OFF by auto. destruct (Nat.eqb d ci); auto.
Qed.

(** ** fourth loop *)
Definition alike (c : conf) : Prop := forall a b, (cnfstart c <= a < cnfstart c + inconf c)%nat -> (cnfstart c <= b < cnfstart c + inconf c)%nat ->
  charge (typ c b) <> 0 -> (alpha (typ c a) <> 0 <-> alpha (typ c b) <> 0).
Definition fourth_loop (p : nat -> vec) (ci : nat) (c : conf) (s : dev) : dev :=
  pdv (for_up (cnfstart c) (cnfstart c + inconf c) (EeModel.fourth_atom bld charge alpha dpb dpc gel ggel dp_cut p ci c) (mk_proj s 0 0)).
Lemma fourth_same : forall p ci c s, alike c -> typed c -> fourth_loop p ci c s = ElProof2.fourth_loop bld charge alpha dpb dpc gel ggel dp_cut p ci c s.
Proof.
  intros p ci c s AL TY. unfold fourth_loop, ElProof2.fourth_loop. f_equal. apply (for_up_two (fun x y => x = y)); auto.
  intros i x y Hi ->. unfold EeModel.fourth_atom, ElModel.fourth_atom.
  assert (Q : forall l, (forall e, In e l -> In e (nb c i)) -> forall y, fold_left (EeModel.fourth_neighbor bld charge alpha dpb dpc gel ggel dp_cut p ci c i) l y =
    fold_left (ElModel.fourth_neighbor bld charge alpha dpb dpc gel ggel dp_cut p ci c i) l y); [|apply Q; auto].
  induction l as [|e l IH]; intros I z; auto. cbn [fold_left]. rewrite <- IH by (intros; apply I; right; auto). f_equal.
  destruct (TY i e Hi (I e (or_introl eq_refl))) as [T1 T2]. pose proof (AL i (n_nr e) Hi T1) as A. rewrite <- T2 in A.
  unfold EeModel.fourth_neighbor, ElModel.fourth_neighbor.
  destruct (nz_cases (charge (n_type e))) as [[-> _]|[-> Q2]]; [rewrite !andb_false_r; reflexivity|]. rewrite !andb_true_r. specialize (A Q2).
  assert (AA : nz (alpha (typ c i)) = nz (alpha (n_type e))).
  { destruct (nz_cases (alpha (typ c i))) as [[-> X]|[-> X]], (nz_cases (alpha (n_type e))) as [[-> Y]|[-> Y]]; auto; exfalso; tauto. }
  rewrite AA. reflexivity.
Qed.
End Ee.
