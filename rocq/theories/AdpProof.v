(** The ADP force routine: closed form for one configuration. *)
From Coq Require Import Reals ZArith List Bool Lia Lra.
From Verif Require Import Vec NbrModel LoopUtil PairModel PairProof ForceLoop EamModel EamProof AdpModel.
Import ListNotations.
Local Open Scope R_scope.

Lemma tens_eq : forall s t, xx s = xx t -> yy s = yy t -> zz s = zz t -> xy s = xy t -> yz s = yz t -> zx s = zx t -> s = t.
Proof. intros [] []; simpl; congruence. Qed.
Ltac tring := apply tens_eq; simpl; ring.
Definition tsumf {A} (f : A -> tens) (l : list A) : tens :=
  mk_tens (rsumf (fun x => xx (f x)) l) (rsumf (fun x => yy (f x)) l) (rsumf (fun x => zz (f x)) l)
          (rsumf (fun x => xy (f x)) l) (rsumf (fun x => yz (f x)) l) (rsumf (fun x => zx (f x)) l).
Lemma tsumf_cons : forall {A} (f : A -> tens) a l, tsumf f (a :: l) = tadd (f a) (tsumf f l).
Proof. reflexivity. Qed.
Lemma tsumf_app : forall {A} (f : A -> tens) l m, tsumf f (l ++ m) = tadd (tsumf f l) (tsumf f m).
Proof. intros. unfold tsumf, tadd. cbn [xx yy zz xy yz zx]. rewrite !rsumf_app. auto. Qed.
Lemma tsumf_zero : forall {A} (f : A -> tens) l, (forall x, In x l -> f x = t0) -> tsumf f l = t0.
Proof. intros A f l H. unfold tsumf. apply tens_eq; cbn [xx yy zz xy yz zx t0]; apply rsumf_zero; intros x X; rewrite (H x X); auto. Qed.

(** two loop bodies one after the other *)
Lemma body_comp : forall B1 B2 ci T1 T2 P1 P2 son, body_spec B1 ci T1 P1 son -> body_spec B2 ci T2 P2 son ->
  body_spec (fun i s e => B2 i (B1 i s e) e) ci (fun i e => vadd (T1 i e) (T2 i e)) (fun i e => P1 i e + P2 i e) son.
Proof.
  intros B1 B2 ci T1 T2 P1 P2 son H1 H2. constructor.
  - intros i s e a. rewrite (bs_frc _ _ _ _ _ H2), (bs_frc _ _ _ _ _ H1). destruct (Nat.eqb a i), (Nat.eqb (n_nr e) a); vring.
  - intros i s e. rewrite (bs_en _ _ _ _ _ H2), (bs_en _ _ _ _ _ H1). ring.
  - intros i s e d D. rewrite (bs_en' _ _ _ _ _ H2), (bs_en' _ _ _ _ _ H1); auto.
  - intros i s e d k. rewrite (bs_str _ _ _ _ _ H2), (bs_str _ _ _ _ _ H1). destruct (_ && _)%bool; auto.
    unfold stress_of, vadd. destruct k as [|[|[|[|[|k]]]]]; cbn [vx vy vz]; ring.
  - intros i s e. rewrite (bs_err _ _ _ _ _ H2), (bs_err _ _ _ _ _ H1). auto.
Qed.

(** [t] is [s] with [x] added to the energy of configuration ci *)
Definition shift (ci : nat) (x : R) (s t : est) : Prop :=
  frc (dv t) = frc (dv s) /\ str (dv t) = str (dv s) /\ err (dv t) = err (dv s) /\ en (dv t) ci = en (dv s) ci + x /\
  (forall d, d <> ci -> en (dv t) d = en (dv s) d) /\ rho t = rho s /\ gradF t = gradF s /\ lim t = lim s /\ rsum t = rsum s /\ dum t = dum s.
Lemma shift_0 : forall ci s, shift ci 0 s s.
Proof. intros. repeat split; auto. ring. Qed.

Section Adp.
Variable bld0 : ebuild.
Notation bld := (one_band bld0).
Variables phi dphi : nat -> nat -> R -> R.
Variable in_range : nat -> nat -> R -> bool.
Variables dens ddens : nat -> nat -> R -> R.
Variable reach : nat -> nat -> R -> bool.
Variables F dF FA dFA : nat -> nat -> R -> R.
Variables fbegin fend fstep : nat -> nat -> R.
Variables u du : nat -> nat -> R -> R.
Variable u_range : nat -> nat -> R -> bool.
Variables w dw : nat -> nat -> R -> R.
Variable w_range : nat -> nat -> R -> bool.
Variables eweight sweight : R.
Variable limit_0 : nat -> R.
Variable ci : nat.
Variable c : conf.
Notation lo := (cnfstart c).
Notation hi := (cnfstart c + inconf c)%nat.

Lemma shift_neighbor : forall x i e s t, shift ci x s t ->
  shift ci x (EamModel.second_neighbor bld phi dphi in_range dens reach ci c i s e) (EamModel.second_neighbor bld phi dphi in_range dens reach ci c i t e).
Proof.
  intros x i e s t (A1 & A2 & A3 & A4 & A5 & A6 & A7 & A8 & A9 & A10).
  unfold EamModel.second_neighbor, with_rho, with_dv, shift. cbn [dv rho gradF lim rsum dum]. rewrite A6, A7, A8, A9, A10.
  unfold neighbor_body. destruct (in_range _ _ _); [destruct (uf c)|]; cbn [frc en str err]; rewrite ?A1, ?A2, ?A3, ?setf_eq, ?A4; repeat split; auto; try ring; intros d D; rewrite !setf_neq by auto; auto.
Qed.
Lemma shift_fold : forall x i l s t, shift ci x s t ->
  shift ci x (fold_left (EamModel.second_neighbor bld phi dphi in_range dens reach ci c i) l s) (fold_left (EamModel.second_neighbor bld phi dphi in_range dens reach ci c i) l t).
Proof. intros x i l. induction l as [|e l IH]; intros s t H; cbn [fold_left]; auto. apply IH. apply shift_neighbor. auto. Qed.
Lemma shift_embed : forall x i b s t, shift ci x s t ->
  shift ci x (embed_body bld F dF FA dFA fbegin fend fstep ci c i b s) (embed_body bld F dF FA dFA fbegin fend fstep ci c i b t).
Proof.
  intros x i b s t H. unfold embed_body. cbv zeta.
  assert (H1 : shift ci x (if RESCALE bld then clamp_low fbegin ci b (typ c i) i (clamp_high fend ci b (typ c i) i s) else s)
                          (if RESCALE bld then clamp_low fbegin ci b (typ c i) i (clamp_high fend ci b (typ c i) i t) else t)).
  { destruct (RESCALE bld); auto. destruct H as (A1 & A2 & A3 & A4 & A5 & A6 & A7 & A8 & A9 & A10).
    unfold clamp_low, clamp_high. rewrite A6, A8. destruct (Rlt_dec (fend b (typ c i)) (rho s b i)); cbn [rho dv lim gradF rsum dum]; rewrite ?A6, ?A8;
      match goal with |- context [Rlt_dec ?p ?q] => destruct (Rlt_dec p q) end; unfold shift; cbn [rho dv lim gradF rsum dum]; rewrite ?A6, ?A7, ?A8, ?A9, ?A10; auto 12. }
  set (s1 := if RESCALE bld then _ else s) in *. set (t1 := if RESCALE bld then _ else t) in *.
  clearbody s1 t1. destruct H1 as (A1 & A2 & A3 & A4 & A5 & A6 & A7 & A8 & A9 & A10). rewrite A6.
  destruct (embed _ _ _ _ _ _ _ _ b (typ c i) (rho s1 b i)) as [v g]. unfold shift. cbn [rho dv lim gradF rsum dum frc en str err]. rewrite ?A6, ?A7, ?A8, ?A9, ?A10, ?setf_eq.
  repeat split; auto; [rewrite A4; ring|]. intros d D. rewrite !setf_neq by auto. auto.
Qed.

(** ** distortions *)
Definition U (i : nat) (e : neigh) : vec :=
  if u_range (typ c i) (n_type e) (n_r e) then vscale (u_val u c i e) (n_dist e) else v0.
Definition Wt (i : nat) (e : neigh) : tens :=
  if w_range (typ c i) (n_type e) (n_r e) then tscale (w_val w c i e) (sqrdist e) else t0.
Definition wto (a i : nat) (e : neigh) : tens := if Nat.eqb (n_nr e) a then Wt i e else t0.
Notation sn := (AdpModel.second_neighbor bld0 phi dphi in_range dens reach u u_range w w_range ci c).
Lemma add_dipole_spec : forall i e m a, add_dipole u u_range c i e m a = vsub (vadd (m a) (if Nat.eqb a i then U i e else v0)) (gto U a i e).
Proof.
  intros i e m a. unfold add_dipole, gto, U. destruct (u_range _ _ _); [apply scatter_spec|]. destruct (Nat.eqb a i), (Nat.eqb (n_nr e) a); vring.
Qed.
Lemma add_quadrupole_spec : forall i e l a, add_quadrupole w w_range c i e l a = tadd (tadd (l a) (if Nat.eqb a i then Wt i e else t0)) (wto a i e).
Proof.
  intros i e l a. unfold add_quadrupole, wto, Wt. destruct (w_range _ _ _).
  - unfold setf. rewrite (Nat.eqb_sym (n_nr e) a). destruct (Nat.eqb_spec a (n_nr e)) as [E|N], (Nat.eqb_spec (n_nr e) i) as [E2|N2], (Nat.eqb_spec a i) as [E3|N3]; try congruence; rewrite <- ?E; rewrite ?E3; try tring.
  - destruct (Nat.eqb a i), (Nat.eqb (n_nr e) a); tring.
Qed.
Lemma fold_adp : forall i l s, let s' := fold_left (sn i) l s in
  es s' = fold_left (EamModel.second_neighbor bld phi dphi in_range dens reach ci c i) l (es s) /\ nu s' = nu s /\
  (forall a, mu s' a = vsub (vadd (mu s a) (if Nat.eqb a i then vsumf (U i) l else v0)) (vsumf (gto U a i) l)) /\
  (forall a, lam s' a = tadd (tadd (lam s a) (if Nat.eqb a i then tsumf (Wt i) l else t0)) (tsumf (wto a i) l)).
Proof.
  intros i. induction l as [|e l IH]; intros s.
  - cbn [fold_left]. cbv zeta. split; [auto|]. split; [auto|]. split.
    + intros a. change (vsumf (U i) []) with v0. change (vsumf (gto U a i) []) with v0. destruct (Nat.eqb a i); vring.
    + intros a. change (tsumf (Wt i) []) with t0. change (tsumf (wto a i) []) with t0. destruct (Nat.eqb a i); tring.
  - cbv zeta. cbn [fold_left]. destruct (IH (sn i s e)) as (A & B & M & L). split; [rewrite A; auto|]. split; [rewrite B; auto|]. split.
    + intros a. rewrite M, !vsumf_cons. unfold AdpModel.second_neighbor; cbn [mu]. rewrite add_dipole_spec. destruct (Nat.eqb a i); vring.
    + intros a. rewrite L, !tsumf_cons. unfold AdpModel.second_neighbor; cbn [lam]. rewrite add_quadrupole_spec. destruct (Nat.eqb a i); tring.
Qed.

Hypothesis ORD : ordered c.
Definition wgot (i a : nat) : tens := tsumf (fun k => tsumf (wto a k) (nb c k)) (seq lo (i - lo)).
Lemma wgot_S : forall i a, (lo <= i)%nat -> wgot (S i) a = tadd (wgot i a) (tsumf (wto a i) (nb c i)).
Proof. intros i a H. unfold wgot. rewrite seq_snoc by auto. rewrite tsumf_app, tsumf_cons. f_equal. change (tsumf (fun k => tsumf (wto a k) (nb c k)) []) with t0. tring. Qed.
Lemma wto_zero : forall a k, (lo <= k < hi)%nat -> (a < k)%nat \/ (hi <= a)%nat -> tsumf (wto a k) (nb c k) = t0.
Proof.
  intros a k Hk Ha. apply tsumf_zero. intros e He. unfold wto. destruct (Nat.eqb_spec (n_nr e) a); auto. pose proof (ORD k e Hk He). lia.
Qed.
Lemma wgot_done : forall i a, (lo <= a < hi)%nat -> (a < i)%nat -> (i <= hi)%nat -> wgot i a = wgot hi a.
Proof.
  intros i a Ha L H. remember (hi - i)%nat as d eqn:D. revert i L H D. induction d; intros i L H D.
  - f_equal. lia.
  - rewrite <- (IHd (S i)) by lia. rewrite wgot_S by lia. rewrite wto_zero by lia. tring.
Qed.
(** final distortions of atom a *)
Definition muF (a : nat) : vec := vsub (gown U c a) (ggot U c hi a).
Definition lamF (a : nat) : tens := tadd (tsumf (Wt a) (nb c a)) (wgot hi a).
Definition nuF (a : nat) : R := trace (lamF a).
Definition dF_e (a : nat) : R := distortion (muF a) (lamF a).

Notation eatom := (EamModel.second_atom bld phi dphi in_range dens reach F dF FA dFA fbegin fend fstep ci c).
Notation aatom := (AdpModel.second_atom bld0 phi dphi in_range dens reach F dF FA dFA fbegin fend fstep u u_range w w_range ci c).
Definition inva (e0 : est) (i : nat) (s : ast) : Prop :=
  shift ci (rsumf dF_e (seq lo (i - lo))) (for_up lo i eatom e0) (es s) /\
  (forall a, (lo <= a < i)%nat -> mu s a = muF a /\ lam s a = lamF a /\ nu s a = nuF a) /\
  (forall a, (i <= a < hi)%nat -> mu s a = vsub v0 (ggot U c i a) /\ lam s a = wgot i a).
Lemma inva_step : forall e0 i s, (lo <= i < hi)%nat -> inva e0 i s -> inva e0 (S i) (aatom i s).
Proof.
  intros e0 i s Hi (A & B & C). unfold AdpModel.second_atom.
  destruct (fold_adp i (nb c i) s) as (E & N & M & L). set (s1 := fold_left (sn i) (nb c i) s) in *. clearbody s1.
  assert (MI : mu s1 i = muF i).
  { rewrite M, Nat.eqb_refl. destruct (C i ltac:(lia)) as [-> _]. unfold muF, gown. rewrite <- (ggot_done U c ORD (S i) i) by lia. rewrite (ggot_S U c) by lia. vring. }
  assert (LI : lam s1 i = lamF i).
  { rewrite L, Nat.eqb_refl. destruct (C i ltac:(lia)) as [_ ->]. unfold lamF. rewrite <- (wgot_done (S i) i) by lia. rewrite wgot_S by lia. tring. }
  unfold inva. cbn [es mu lam nu]. split; [|split].
  - rewrite for_up_S by lia. rewrite seq_snoc, rsumf_snoc by lia.
    assert (S1 := shift_embed _ i 0 _ _ (shift_fold _ i (nb c i) _ _ A)). rewrite <- E in S1.
    change (for_up 0 (nbands bld) (embed_body bld F dF FA dFA fbegin fend fstep ci c i) ?z) with (embed_body bld F dF FA dFA fbegin fend fstep ci c i 0 z).
    change (eatom i (for_up lo i eatom e0)) with (embed_body bld F dF FA dFA fbegin fend fstep ci c i 0 (fold_left (EamModel.second_neighbor bld phi dphi in_range dens reach ci c i) (nb c i) (for_up lo i eatom e0))).
    set (z := embed_body bld F dF FA dFA fbegin fend fstep ci c i 0 (fold_left _ _ _)) in *. set (y := embed_body bld F dF FA dFA fbegin fend fstep ci c i 0 (es s1)) in *. clearbody y z.
    destruct S1 as (S1 & S2 & S3 & S4 & S5 & S6). unfold add_energy, shift, with_dv. cbn [dv rho gradF lim rsum dum frc en str err]. rewrite setf_eq, S4, MI, LI.
    split; [auto|]. split; [auto|]. split; [auto|]. split; [unfold dF_e; ring|]. split; [|auto]. intros d D. rewrite setf_neq; auto.
  - intros a Ha. unfold setf. destruct (Nat.eqb_spec a i) as [->|NE].
    + unfold nuF. rewrite MI, LI. auto.
    + destruct (B a ltac:(lia)) as (B1 & B2 & B3). rewrite M, L, N, B1, B2, B3. destruct (Nat.eqb_spec a i); [contradiction|].
      rewrite (gto_zero U c ORD a i), wto_zero by lia. repeat split; [vring|tring].
  - intros a Ha. rewrite M, L. destruct (C a ltac:(lia)) as (-> & ->). destruct (Nat.eqb_spec a i); [lia|]. rewrite (ggot_S U c), wgot_S by lia. split; [vring|tring].
Qed.
Lemma reset_adp_spec : forall s, let s' := for_up lo hi (reset_adp bld0 c) s in
  es s' = for_up lo hi (reset_rho bld c) (es s) /\ (forall a, (lo <= a < hi)%nat -> mu s' a = v0 /\ lam s' a = t0).
Proof.
  intros s. cbv zeta.
  pose (Q := fun i s' => es s' = for_up lo i (reset_rho bld c) (es s) /\ (forall a, (lo <= a < i)%nat -> mu s' a = v0 /\ lam s' a = t0)).
  change (Q hi (for_up lo hi (reset_adp bld0 c) s)). apply (for_up_inv Q); [lia| |].
  - split; [rewrite for_up_nil; auto|intros; lia].
  - intros i s1 Hi (A & B). unfold Q, reset_adp; cbn [es mu lam]. split; [rewrite for_up_S, A by lia; auto|].
    intros a Ha. unfold setf. destruct (Nat.eqb_spec a i); auto. apply B. lia.
Qed.
Lemma second_loop : forall s, (forall a, (lo <= a < hi)%nat -> mu s a = v0 /\ lam s a = t0) ->
  let s' := for_up lo hi aatom s in
  shift ci (rsumf dF_e (seq lo (inconf c))) (for_up lo hi eatom (es s)) (es s') /\
  (forall a, (lo <= a < hi)%nat -> mu s' a = muF a /\ lam s' a = lamF a /\ nu s' a = nuF a).
Proof.
  intros s Z. assert (I : inva (es s) hi (for_up lo hi aatom s)).
  { apply (for_up_inv (inva (es s))); [lia| |intros; apply inva_step; auto].
    split; [|split].
    - rewrite for_up_nil, Nat.sub_diag. apply shift_0.
    - intros; lia.
    - intros a Ha. destruct (Z a Ha) as [-> ->]. rewrite ggot_lo. unfold wgot. rewrite Nat.sub_diag. split; [vring|auto]. }
  destruct I as (A & B & _). replace (hi - lo)%nat with (inconf c) in A by lia. auto.
Qed.

(** ** third loop *)
Notation son := (STRESS (base bld) && us c)%bool.
Lemma push_spec : forall (on : nat -> neigh -> bool) (T : nat -> neigh -> vec),
  body_spec (fun i s e => if on i e then push_force bld0 ci c i e (T i e) s else s) ci (fun i e => if on i e then T i e else v0) (fun _ _ => 0) son.
Proof.
  intros on T. constructor.
  - intros i s e a. destruct (on i e); [apply scatter_spec|]. destruct (Nat.eqb a i), (Nat.eqb (n_nr e) a); vring.
  - intros i s e. destruct (on i e); unfold push_force; cbn [en]; ring.
  - intros i s e d D. destruct (on i e); auto.
  - intros i s e d k. destruct (on i e).
    + unfold push_force; cbn [str]. destruct (STRESS (base bld)), (us c); simpl; rewrite ?andb_false_r; simpl; auto.
      rewrite andb_true_r. unfold setf. destruct (Nat.eqb_spec d ci) as [->|]; simpl; auto.
    + rewrite stress_v0. destruct (Nat.eqb d ci && Nat.ltb k 6 && son)%bool; [ring|auto].
  - intros i s e. destruct (on i e); auto.
Qed.
Definition hv (i : nat) (e : neigh) (v : vec) : vec := if Nat.eqb (n_nr e) i then vscale (1 / 2) v else v.
Definition ht (i : nat) (e : neigh) (t : tens) : tens := if Nat.eqb (n_nr e) i then tscale (1 / 2) t else t.
Definition TU0 (m : nat -> vec) (i : nat) (e : neigh) : vec :=
  let f := hv i e (vsub (m i) (m (n_nr e))) in
  vadd (vscale (u_val u c i e) f) (vscale (sprod f (n_dist e) * u_grad du c i e) (n_dist_r e)).
Definition TU (m : nat -> vec) (i : nat) (e : neigh) : vec := if u_range (typ c i) (n_type e) (n_r e) then TU0 m i e else v0.
Definition TQ0 (l : nat -> tens) (n : nat -> R) (i : nat) (e : neigh) : vec :=
  let v := tmul (ht i e (tadd (l i) (l (n_nr e)))) (n_dist e) in
  let nu := (n i + n (n_nr e)) / 3 in
  let f1 := 2 * w_val w c i e in
  let f2 := (sprod v (n_dist e) - nu * n_r e * n_r e) * w_grad dw c i e - nu * f1 * n_r e in
  vadd (vscale f1 v) (vscale f2 (n_dist_r e)).
Definition TQ (l : nat -> tens) (n : nat -> R) (i : nat) (e : neigh) : vec := if w_range (typ c i) (n_type e) (n_r e) then TQ0 l n i e else v0.
Definition TA (g : nat -> nat -> R) (m : nat -> vec) (l : nat -> tens) (n : nat -> R) (i : nat) (e : neigh) : vec :=
  vadd (vadd (T3 bld ddens reach c g i e) (TU m i e)) (TQ l n i e).
Lemma third_spec : forall g m l n,
  body_spec (AdpModel.third_neighbor bld0 ddens reach u du u_range w dw w_range g m l n ci c) ci (TA g m l n) (fun _ _ => 0 + 0 + 0) son.
Proof.
  intros g m l n. unfold TA.
  apply (body_comp (fun i s e => dipole_force bld0 u du u_range m ci c i (EamModel.third_neighbor bld ddens reach g ci c i s e) e) (quadrupole_force bld0 w dw w_range l n ci c) ci
    (fun i e => vadd (T3 bld ddens reach c g i e) (TU m i e)) (TQ l n) (fun _ _ => 0 + 0) (fun _ _ => 0)).
  - apply (body_comp (EamModel.third_neighbor bld ddens reach g ci c) (dipole_force bld0 u du u_range m ci c) ci (T3 bld ddens reach c g) (TU m) (fun _ _ => 0) (fun _ _ => 0)).
    + apply third_body_spec.
    + apply (push_spec (fun i e => u_range (typ c i) (n_type e) (n_r e)) (TU0 m)).
  - apply (push_spec (fun i e => w_range (typ c i) (n_type e) (n_r e)) (TQ0 l n)).
Qed.
Lemma TA_ext : forall g m l n g' m' l' n', (forall a, (lo <= a < hi)%nat -> g 0%nat a = g' 0%nat a /\ m a = m' a /\ l a = l' a /\ n a = n' a) ->
  forall i e, (lo <= i < hi)%nat -> In e (nb c i) -> TA g m l n i e = TA g' m' l' n' i e.
Proof.
  intros g m l n g' m' l' n' H i e Hi He. pose proof (ORD i e Hi He) as Hj. unfold TA. f_equal; [f_equal|].
  - apply (T3_ext bld ddens reach c ORD); auto. intros b a Hb Ha. change (nbands bld) with 1%nat in Hb. assert (b = 0)%nat as -> by lia. apply H. auto.
  - unfold TU, TU0. destruct (H i Hi) as (_ & -> & _). destruct (H (n_nr e) ltac:(lia)) as (_ & -> & _). auto.
  - unfold TQ, TQ0. destruct (H i Hi) as (_ & _ & -> & ->). destruct (H (n_nr e) ltac:(lia)) as (_ & _ & -> & ->). auto.
Qed.

Hypothesis TYP : forall i e, (lo <= i < hi)%nat -> In e (nb c i) -> n_type e = typ c (n_nr e).
Notation T2 := (pT dphi in_range c).
Notation P2 := (P phi in_range c).
Notation gF := (gF bld dens reach F dF FA dFA fbegin fend fstep c).
Notation XA := (TA gF muF lamF nuF).
Notation upto := (upto bld c).
Notation eF := (eF bld dens reach F dF FA dFA fbegin fend fstep c).
Notation limc := (limc bld dens reach fbegin fend c).
Notation seen := (seen bld dens reach fbegin fend c).
(** results *)
Definition afrc (a : nat) : vec :=
  if uf c then scl (base bld) c a (vsub (vadd (vsub (vadd (vscale (-1) (force_0 c a)) (gown T2 c a)) (ggot T2 c hi a)) (gown XA c a)) (ggot XA c hi a))
  else v0.
Definition aen : R := (gen P2 c hi + upto hi eF + rsumf dF_e (seq lo (inconf c))) / INR (inconf c) - energy_0 c.
Definition astr (k : nat) : R :=
  if stress_on (base bld) c then (- (gstr T2 c k hi + gstr XA c k hi)) / conf_vol c - stress_0 c k else 0.
Definition alim : R := - limit_0 ci + upto hi limc.
Definition ascore (a : nat) : R := if scored (base bld) c a then conf_weight c * sqv (afrc a) else 0.

Theorem adp_config : forall s,
  let s' := es (AdpModel.config_body bld0 phi dphi in_range dens ddens reach F dF FA dFA fbegin fend fstep u du u_range w dw w_range eweight sweight limit_0 ci c s) in
  (forall a, (a < lo)%nat \/ (hi <= a)%nat -> frc (dv s') a = frc (dv (es s)) a) /\
  (forall a, (lo <= a < hi)%nat -> frc (dv s') a = afrc a) /\
  en (dv s') ci = aen /\ (forall d, d <> ci -> en (dv s') d = en (dv (es s)) d) /\
  (forall k, (k < 6)%nat -> STRESS (base bld) = true -> str (dv s') ci k = astr k) /\
  (forall d k, d <> ci -> str (dv s') d k = str (dv (es s)) d k) /\
  lim s' ci = alim /\ (forall d, d <> ci -> lim s' d = lim (es s) d) /\
  rsum s' 0%nat = rsum (es s) 0%nat + rsumf (seen 0%nat) (seq lo (inconf c)) /\ dum s' = dum (es s) /\
  err (dv s') = err (dv (es s)) + rsumf ascore (seq lo (inconf c)) + conf_weight c * eweight * sq aen +
    (if stress_on (base bld) c then rsumf (fun k => conf_weight c * sweight * sq (astr k)) (seq 0 6) else 0) +
    conf_weight c * sq alim.
Proof.
  intros s. cbv zeta. unfold AdpModel.config_body. set (e := es s). clearbody e.
  set (s1 := with_dv e _). set (s2 := mk_est (dv s1) _ _ _ _ _). set (a2 := mk_ast s2 _ _ _).
  destruct (reset_adp_spec a2) as (RE & RZ). set (a3 := for_up lo hi (reset_adp bld0 c) a2) in *. clearbody a3. change (es a2) with s2 in RE.
  destruct (reset_rho_spec bld c s2) as (A1 & A2 & A3 & A4 & A5 & A6). rewrite <- RE in A1, A2, A3, A4, A5, A6. clear RE.
  destruct (reset_spec c (dv s2)) as (B1 & B2 & B3 & B4). rewrite <- A1 in B1, B2, B3, B4. clear A1.
  destruct (second_loop a3 RZ) as (SH & FI). set (a4 := for_up lo hi aatom a3) in *. clearbody a4.
  set (s3 := es a3) in *. clearbody s3. 
  assert (I : inv2 bld phi dphi in_range dens reach F dF FA dFA fbegin fend fstep ci c s3 hi (for_up lo hi eatom s3)).
  { apply (for_up_inv (inv2 bld phi dphi in_range dens reach F dF FA dFA fbegin fend fstep ci c s3)); [lia|apply inv2_init; auto|]. intros i t Hi Ht. apply inv2_step; auto. }
  set (s4 := for_up lo hi eatom s3) in *. clearbody s4.
  destruct I as (C1 & C2 & C3 & C4 & C5 & _ & C7 & C8 & C9 & C10 & C11).
  specialize (C10 0%nat ltac:(unfold nbands, one_band; simpl; lia)). replace (hi - lo)%nat with (inconf c) in C10 by lia.
  destruct SH as (H1 & H2 & H3 & H4 & H5 & H6 & H7 & H8 & H9 & H10). set (s5 := es a4) in *.
  rewrite <- H1 in C1. rewrite <- H2 in C4. rewrite <- H3 in C5. rewrite <- H8 in C8, C9. rewrite <- H9 in C10. rewrite <- H10 in C11. rewrite <- H7 in C7.
  assert (E5 : en (dv s5) ci = en (dv s3) ci + gen P2 c hi + upto hi eF + rsumf dF_e (seq lo (inconf c))) by (rewrite H4, C2; auto).
  assert (E5' : forall d, d <> ci -> en (dv s5) d = en (dv s3) d) by (intros d D; rewrite H5, C3; auto).
  set (g5 := gradF s5) in *. set (m5 := mu a4) in *. set (l5 := lam a4) in *. set (n5 := nu a4) in *. clear H1 H2 H3 H4 H5 H6 H7 H8 H9 H10 C2 C3. clearbody g5 m5 l5 n5 s5.
  set (d5 := if uf c then for_up lo hi (AdpModel.third_atom bld0 ddens reach u du u_range w dw w_range g5 m5 l5 n5 ci c) (dv s5) else dv s5).
  assert (SON : forall d k, (k < 6)%nat -> STRESS (base bld) = true -> str (dv s3) d k = if Nat.eqb d ci then 0 else str (dv e) d k).
  { intros d k K ON. rewrite B3. unfold s2, s1, reset_conf; simpl. change (STRESS (base bld)) with (STRESS (base bld0)) in ON. rewrite ON. unfold setf. destruct (Nat.eqb_spec d ci) as [->|]; auto. destruct (Nat.ltb_spec k 6); [auto|lia]. }
  assert (SOTH : forall d k, d <> ci -> str (dv s3) d k = str (dv e) d k).
  { intros d k D. rewrite B3. unfold s2, s1, reset_conf; simpl. destruct (STRESS (base bld0)); auto. rewrite setf_neq; auto. }
  assert (HH : (forall a, (a < lo)%nat \/ (hi <= a)%nat -> frc d5 a = frc (dv e) a) /\ (forall a, (lo <= a < hi)%nat -> frc d5 a = afrc a) /\
    en d5 ci = gen P2 c hi + upto hi eF + rsumf dF_e (seq lo (inconf c)) /\ (forall d, d <> ci -> en d5 d = en (dv e) d) /\
    (forall k, (k < 6)%nat -> STRESS (base bld) = true -> str d5 ci k = if stress_on (base bld) c then - (gstr T2 c k hi + gstr XA c k hi) else 0) /\
    (forall d k, d <> ci -> str d5 d k = str (dv e) d k) /\
    err d5 = err (dv e) + rsumf ascore (seq lo (inconf c))).
  { assert (E3 : en (dv s5) ci = gen P2 c hi + upto hi eF + rsumf dF_e (seq lo (inconf c))).
    { rewrite E5, B2. unfold s2, s1, reset_conf; simpl. rewrite setf_eq. ring. }
    assert (E3' : forall d, d <> ci -> en (dv s5) d = en (dv e) d).
    { intros d D. rewrite E5', B2 by auto. unfold s2, s1, reset_conf; simpl. apply setf_neq; auto. }
    assert (F3 : forall a, (lo <= a < hi)%nat -> frc (dv s5) a = vsub (vadd (if uf c then vscale (-1) (force_0 c a) else v0) (gown T2 c a)) (ggot T2 c hi a)).
    { intros a Ha. rewrite C1, B1. destruct (Nat.leb_spec lo a), (Nat.ltb_spec a hi); try lia. simpl. auto. }
    assert (F3' : forall a, (a < lo)%nat \/ (hi <= a)%nat -> frc (dv s5) a = frc (dv e) a).
    { intros a Ha. rewrite C1, B1, (ggot_out _ _ ORD) by lia. destruct (Nat.leb_spec lo a), (Nat.ltb_spec a hi); try lia; simpl; vring. }
    assert (R3 : err (dv s5) = err (dv e)) by (rewrite C5, B4; auto).
    destruct (uf c) eqn:UF.
    - destruct (scored_loop _ ci _ _ _ (third_spec g5 m5 l5 n5) c ORD (base bld) UF (dv s5)) as (D1 & D2 & D3 & D4 & D5 & D6).
      change (for_up lo hi (satom (AdpModel.third_neighbor bld0 ddens reach u du u_range w dw w_range g5 m5 l5 n5 ci c) c (base bld)) (dv s5)) with d5 in D1, D2, D3, D4, D5, D6. clearbody d5.
      assert (EXT : forall a, (lo <= a < hi)%nat -> g5 0%nat a = gF 0%nat a /\ m5 a = muF a /\ l5 a = lamF a /\ n5 a = nuF a).
      { intros a Ha. split; [|apply FI; auto]. apply (C7 0%nat a); auto. }
      destruct (loop_ext c _ _ (TA_ext g5 m5 l5 n5 gF muF lamF nuF EXT)) as (X1 & X2 & X4).
      assert (FN : forall a, (lo <= a < hi)%nat -> gfinal (TA g5 m5 l5 n5) c (base bld) (frc (dv s5)) a = afrc a).
      { intros a Ha. unfold gfinal, afrc. rewrite UF. f_equal. rewrite X1, X2, F3 by auto. auto. }
      split; [intros; rewrite D1; auto|]. split; [intros; rewrite D2; auto|]. split; [|split; [intros; rewrite D4; auto|split; [|split]]].
      + rewrite D3, E3. unfold gen at 2. rewrite (rsumf_zero _ (seq lo (hi - lo))); [ring|]. intros k _. apply rsumf_zero. intros; ring.
      + intros k K ON. rewrite D5, C4, SON, Nat.eqb_refl by auto. destruct (Nat.ltb_spec k 6); [|lia]. unfold stress_on. rewrite ON, UF. simpl.
        destruct (us c); auto. rewrite X4. ring.
      + intros d k D. rewrite D5, C4, SOTH by auto. destruct (Nat.eqb_spec d ci); [contradiction|]. auto.
      + rewrite D6, R3. f_equal. apply rsumf_ext. intros a Ha. apply in_seq in Ha. unfold gscore, ascore, scored. rewrite UF, FN by lia. auto.
    - split; [auto|]. split; [|split; [auto|split; [auto|split; [|split]]]].
      + intros a Ha. unfold d5. rewrite F3 by auto. unfold afrc. rewrite UF.
        assert (Z : forall i e, T2 i e = v0) by (intros; unfold pT; rewrite UF; auto).
        unfold gown, ggot. rewrite (vsumf_zero (T2 a)) by auto. rewrite vsumf_zero; [vring|]. intros k _. apply vsumf_zero. intros e' _. unfold gto. rewrite Z. destruct (Nat.eqb (n_nr e') a); auto.
      + intros k K ON. unfold d5. rewrite C4, SON, Nat.eqb_refl by auto. unfold stress_on. rewrite UF, ON. cbn [andb].
        assert (Z : gstr T2 c k hi = 0).
        { unfold gstr. apply rsumf_zero. intros j _. apply rsumf_zero. intros e' _. unfold pT. rewrite UF. apply stress_v0. }
        rewrite Z. destruct (us c), (Nat.ltb k 6); cbn [andb]; rewrite ?ON; cbn [andb]; ring.
      + intros d k D. unfold d5. rewrite C4, SOTH by auto. destruct (Nat.eqb_spec d ci); [contradiction|]. auto.
      + unfold d5. rewrite R3. rewrite rsumf_zero; [ring|]. intros a _. unfold ascore, scored. rewrite UF. auto. }
  clearbody d5. destruct HH as (G1 & G2 & G3 & G4 & G5 & G6 & G7).
  destruct (tail_spec (base bld) eweight sweight ci c d5) as (T1 & T4 & T5 & T6 & T7).
  set (d6 := score_stress (base bld) sweight ci c (score_energy eweight ci c d5)) in *. clearbody d6.
  assert (L2 : lim s5 ci = alim).
  { rewrite C8, A4. unfold s2; cbn [lim]. rewrite setf_eq. auto. }
  assert (E6 : en d6 ci = aen) by (rewrite T4, G3; auto).
  assert (S6 : forall k, (k < 6)%nat -> STRESS (base bld) = true -> str d6 ci k = astr k).
  { intros k K ON. rewrite T6, Nat.eqb_refl. destruct (Nat.ltb_spec k 6); [|lia]. unfold astr. rewrite (G5 k K ON). cbn [andb]. destruct (stress_on (base bld) c); auto. }
  assert (SO6 : forall d k, d <> ci -> str d6 d k = str (dv e) d k).
  { intros d k D. rewrite T6. destruct (Nat.eqb_spec d ci); [contradiction|]. simpl. auto. }
  assert (R6 : err d6 = err (dv e) + rsumf ascore (seq lo (inconf c)) + conf_weight c * eweight * sq aen +
    (if stress_on (base bld) c then rsumf (fun k => conf_weight c * sweight * sq (astr k)) (seq 0 6) else 0)).
  { rewrite T7, E6, G7. f_equal. destruct (stress_on (base bld) c) eqn:ON; auto. apply rsumf_ext. intros k K. apply in_seq in K.
    rewrite S6; auto; [lia|]. unfold stress_on in ON. destruct (STRESS (base bld)); auto. }
  assert (LO : forall d, d <> ci -> lim s5 d = lim e d).
  { intros d D. rewrite C9, A4 by auto. unfold s2; cbn [lim]. apply setf_neq; auto. }
  assert (RB : rsum s5 0%nat = rsum e 0%nat + rsumf (seen 0%nat) (seq lo (inconf c))) by (rewrite C10, A5; auto).
  assert (DB : dum s5 = dum e) by (rewrite C11, A6; auto).
  cbn [es with_dv dv rho gradF lim rsum dum frc en str err]. rewrite ?T1.
  repeat (split; [auto; intros; rewrite ?T5, ?G1, ?G2, ?G4 by auto; auto|]). rewrite R6, L2. ring.
Qed.
End Adp.
