(** Fields in the electrostatic force routine as sums over all neighbours. *)
From Coq Require Import Reals ZArith List Bool Lia Lra Permutation.
From Verif Require Import Vec NbrModel NbrProof NbrProof2 LoopUtil PairModel PairProof PairSpec PairProof2 BondProof EamProof3 ForceLoop FuncModel ElSpec ElModel ElProof ElProof2 ElProof3.
Import ListNotations.
Local Open Scope R_scope.

(** ** Loops that add a vector to an atom and one to its neighbour *)
Section Acc.
Variable c : conf.
Notation lo := (cnfstart c).
Notation hi := (cnfstart c + inconf c)%nat.
Variable body : nat -> (nat -> vec) -> neigh -> (nat -> vec).
Variables A B : nat -> neigh -> vec.
Hypothesis BODY : forall i e, (lo <= i < hi)%nat -> In e (nb c i) -> forall X a,
  body i X e a = vadd (X a) (vadd (if Nat.eqb a i then A i e else v0) (if Nat.eqb (n_nr e) a then B i e else v0)).
Lemma acc_loop : forall X a, for_up lo hi (fun i X => fold_left (body i) (nb c i) X) X a =
  vadd (X a) (vsumf (fun i => vsumf (fun e => vadd (if Nat.eqb a i then A i e else v0) (if Nat.eqb (n_nr e) a then B i e else v0)) (nb c i)) (seq lo (inconf c))).
Proof.
  intros X a. 
  assert (F : forall i l X, (lo <= i < hi)%nat -> (forall e, In e l -> In e (nb c i)) -> fold_left (body i) l X a =
    vadd (X a) (vsumf (fun e => vadd (if Nat.eqb a i then A i e else v0) (if Nat.eqb (n_nr e) a then B i e else v0)) l)).
  { intros i l. induction l as [|e l IH]; intros Y Hi IN; [change (vsumf _ []) with v0; cbn [fold_left]; vring|]. cbn [fold_left].
    rewrite IH; [|auto|intros; apply IN; simpl; auto]. rewrite (BODY i e Hi) by (apply IN; simpl; auto). rewrite vsumf_cons. vring. }
  assert (G : forall n, (n <= inconf c)%nat -> for_up lo (lo + n) (fun i X => fold_left (body i) (nb c i) X) X a =
    vadd (X a) (vsumf (fun i => vsumf (fun e => vadd (if Nat.eqb a i then A i e else v0) (if Nat.eqb (n_nr e) a then B i e else v0)) (nb c i)) (seq lo n))).
  { induction n; intros Hn.
    - unfold for_up. rewrite Nat.add_0_r, Nat.sub_diag. change (vsumf _ (seq lo 0)) with v0. simpl. vring.
    - rewrite <- plus_n_Sm. rewrite for_up_S by lia. rewrite F by (auto; lia). rewrite IHn by lia. rewrite seq_S, vsumf_app, vsumf_cons. change (vsumf _ []) with v0. vring. }
  apply G. lia.
Qed.
Lemma acc_in : forall X a, (lo <= a < hi)%nat -> for_up lo hi (fun i X => fold_left (body i) (nb c i) X) X a =
  vadd (X a) (vadd (vsumf (A a) (nb c a)) (vsumf (fun k => vsumf (fun e => if Nat.eqb (n_nr e) a then B k e else v0) (nb c k)) (seq lo (inconf c)))).
Proof.
  intros X a Ha. rewrite acc_loop. f_equal.
  assert (Q : forall (pr : vec -> R), (forall v w, pr (vadd v w) = pr v + pr w) -> pr v0 = 0 ->
    rsumf (fun i => rsumf (fun e => pr (vadd (if Nat.eqb a i then A i e else v0) (if Nat.eqb (n_nr e) a then B i e else v0))) (nb c i)) (seq lo (inconf c)) =
    rsumf (fun e => pr (A a e)) (nb c a) + rsumf (fun k => rsumf (fun e => pr (if Nat.eqb (n_nr e) a then B k e else v0)) (nb c k)) (seq lo (inconf c))).
  { intros pr ADD Z.
    rewrite (rsumf_ext _ (fun i => (if Nat.eqb i a then rsumf (fun e => pr (A i e)) (nb c i) else 0) + rsumf (fun e => pr (if Nat.eqb (n_nr e) a then B i e else v0)) (nb c i))).
    - rewrite rsumf_plus. rewrite (pick (fun i => rsumf (fun e => pr (A i e)) (nb c i)) a); [auto|apply seq_NoDup|apply in_seq; lia].
    - intros i _. rewrite (Nat.eqb_sym a i). destruct (Nat.eqb_spec i a) as [->|N].
      + rewrite <- rsumf_plus. apply rsumf_ext. intros e _. apply ADD.
      + rewrite Rplus_0_l. apply rsumf_ext. intros e _. rewrite ADD, Z. ring. }
  apply vec_eq; [apply (Q vx)|apply (Q vy)|apply (Q vz)]; auto.
Qed.
Lemma acc_out : typed c -> forall X a, (a < lo)%nat \/ (hi <= a)%nat -> for_up lo hi (fun i X => fold_left (body i) (nb c i) X) X a = X a.
Proof.
  intros TY X a Ha. rewrite acc_loop. rewrite vsumf_zero; [vring|]. intros i Hi. apply in_seq in Hi. apply vsumf_zero. intros e He. destruct (TY i e ltac:(lia) He) as [R1 _].
  destruct (Nat.eqb_spec a i); [lia|]. destruct (Nat.eqb_spec (n_nr e) a); [lia|]. vring.
Qed.
End Acc.

Section El.
Variables (c : conf) (pos : nat -> vec) (bx : box) (rcut : nat -> nat -> R).
Hypothesis GEO : geometry c pos bx rcut.
Notation lo := (cnfstart c).
Notation hi := (cnfstart c + inconf c)%nat.
Notation ent i v := (entry pos (typ c) bx i (fst v) (snd v)).
Notation dd i v := (dvec pos bx i v).
Notation rr i v := (dist pos bx i v).
Variable L : nat -> list (nat * image).
Hypothesis HL : forall a, (lo <= a < hi)%nat -> all_neighbors c pos bx rcut a (L a).

(** images of an atom come in pairs on opposite sides *)
Lemma self_odd : forall (G : nat * image -> R) a, (lo <= a < hi)%nat -> (forall n, G (a, n) = - G (a, neg n)) ->
  rsumf (fun v => if Nat.eqb (fst v) a then G v else 0) (L a) = 0.
Proof.
  intros G a Ha ODD. rewrite <- (rsumf_filter G (fun v => Nat.eqb (fst v) a)). set (l := filter _ (L a)).
  destruct (HL a Ha) as [ND IFF].
  assert (IN : forall v, In v l <-> fst v = a /\ bond pos (typ c) bx rcut a a (snd v)).
  { intros [j n]. unfold l. rewrite filter_In, IFF. cbn [fst snd]. rewrite Nat.eqb_eq. split; intros H; [destruct H as [[_ B] ->]; auto|destruct H as [-> B]; auto]. }
  assert (P : Permutation l (map (fun v => (fst v, neg (snd v))) l)).
  { apply NoDup_Permutation.
    - apply NoDup_filter. auto.
    - apply FinFun.Injective_map_NoDup; [|apply NoDup_filter; auto]. intros [j n] [k m] E. cbn [fst snd] in E. injection E as E1 E2. subst k.
      rewrite <- (neg_neg n), <- (neg_neg m). rewrite E2. auto.
    - intros [j n]. rewrite in_map_iff. split.
      + intros H. apply IN in H. cbn [fst snd] in H. destruct H as [-> B]. exists (a, neg n). cbn [fst snd]. rewrite neg_neg. split; [auto|]. apply IN. cbn [fst snd]. split; [auto|].
        apply (bond_sym pos (typ c) bx rcut (geo_sym _ _ _ _ GEO)); rewrite ?neg_neg; auto.
      + intros ([k m] & E & H). cbn [fst snd] in E. injection E as E1 E2. subst. apply IN in H. cbn [fst snd] in H. destruct H as [-> B]. apply IN. cbn [fst snd]. split; [auto|].
        apply (bond_sym pos (typ c) bx rcut (geo_sym _ _ _ _ GEO)); rewrite ?neg_neg; auto. }
  pose proof (rsumf_perm G _ _ P) as E. rewrite rsumf_map in E.
  assert (E2 : rsumf (fun v => G (fst v, neg (snd v))) l = -1 * rsumf G l).
  { rewrite <- rsumf_scale. apply rsumf_ext. intros [j n] V. apply IN in V. cbn [fst snd] in V. destruct V as [-> _]. cbn [fst snd]. rewrite (ODD n). ring. }
  rewrite E2 in E. lra.
Qed.
Theorem vec_density : forall (A B : nat -> neigh -> vec) (G : nat -> nat * image -> vec),
  (forall i v, A i (ent i v) = G i v) ->
  (forall i j n, fst (j, n) <> i -> B i (ent i (j, n)) = G j (i, neg n)) ->
  (forall i e, n_nr e = i -> B i e = v0) ->
  forall a, (lo <= a < hi)%nat ->
  vadd (vsumf (A a) (nb c a)) (vsumf (fun k => vsumf (fun e => if Nat.eqb (n_nr e) a then B k e else v0) (nb c k)) (seq lo (inconf c))) =
  vsum (G a) (L a).
Proof.
  intros A B G HA HB HB0 a Ha.
  assert (Q : forall pr : vec -> R, pr v0 = 0 -> rsumf (fun e => pr (A a e)) (nb c a) + rsumf (fun k => rsumf (fun e => pr (if Nat.eqb (n_nr e) a then B k e else v0)) (nb c k)) (seq lo (inconf c)) =
    rsumf (fun v => pr (G a v)) (L a)).
  { intros pr Z. rewrite <- (gen_density c pos bx rcut GEO L HL (fun i e => pr (A i e)) (fun i e => pr (B i e)) (fun i v => pr (G i v))); auto.
    - f_equal. apply rsumf_ext. intros k _. apply rsumf_ext. intros e _. destruct (Nat.eqb (n_nr e) a); auto.
    - intros i v. rewrite HA. auto.
    - intros i j n N. rewrite HB by auto. auto.
    - intros i e E. rewrite HB0 by auto. auto. }
  apply vec_eq; [apply (Q vx)|apply (Q vy)|apply (Q vz)]; auto.
Qed.

Variables charge alpha : nat -> R.
Variables dpb dpc : nat -> nat -> R.
Hypothesis BS : forall s t, dpb s t = dpb t s.
Hypothesis CS : forall s t, dpc s t = dpc t s.
Variable gel : R -> R.
Variable dp_cut : R.
Notation WI := (within pos bx dp_cut).
Notation charged := (charged charge dp_cut).

(** ** the field of the charges *)
Definition stA (i : nat) (e : neigh) : vec := if ElModel.self i e then v0 else if charged c i e then vscale (charge (n_type e) * gel (n_r e)) (n_dist e) else v0.
Definition stB (i : nat) (e : neigh) : vec := if ElModel.self i e then v0 else if charged c i e then vscale (- (charge (typ c i) * gel (n_r e))) (n_dist e) else v0.
Definition st_body (i : nat) (E : nat -> vec) (e : neigh) : nat -> vec := if charged c i e then add_field charge gel c i e E else E.
Lemma st_body_spec : forall i e, (lo <= i < hi)%nat -> In e (nb c i) -> forall X a,
  st_body i X e a = vadd (X a) (vadd (if Nat.eqb a i then stA i e else v0) (if Nat.eqb (n_nr e) a then stB i e else v0)).
Proof.
  intros i e Hi He X a. destruct (ent_typed c pos bx rcut GEO L HL i e Hi He) as [_ TE]. unfold st_body, stA, stB.
  destruct (charged c i e); [|destruct (ElModel.self i e), (Nat.eqb a i), (Nat.eqb (n_nr e) a); vring].
  unfold add_field, half, ElModel.self. cbv zeta. unfold setf. destruct (Nat.eqb_spec (n_nr e) i) as [E|N].
  - rewrite TE, E, !Nat.eqb_refl. rewrite (Nat.eqb_sym i a). destruct (Nat.eqb_spec a i) as [->|]; vring.
  - assert (GJ : (if Nat.eqb (typ c i) (n_type e) then charge (n_type e) * gel (n_r e) else charge (typ c i) * gel (n_r e)) = charge (typ c i) * gel (n_r e)).
    { destruct (Nat.eqb_spec (typ c i) (n_type e)) as [->|]; auto. }
    rewrite GJ, (Nat.eqb_sym (n_nr e) a).
    destruct (Nat.eqb_spec a (n_nr e)) as [->|N1].
    + destruct (Nat.eqb_spec (n_nr e) i); [contradiction|]. vring.
    + destruct (Nat.eqb_spec a i) as [->|]; vring.
Qed.
Theorem static_spec : forall X a, (lo <= a < hi)%nat -> X a = v0 ->
  for_up lo hi (fun i X => fold_left (st_body i) (nb c i) X) X a = static_field c pos bx charge gel dp_cut L a.
Proof.
  intros X a Ha X0. rewrite (acc_in c st_body stA stB st_body_spec X a Ha), X0.
  pose (G := fun i v => if WI i v then vscale (charge (typ c (fst v)) * gel (rr i v)) (dd i v) else v0).
  rewrite (vec_density stA stB (fun i v => if Nat.eqb (fst v) i then v0 else G i v)); auto.
  - unfold static_field. fold (G a).
    assert (Q : forall pr : vec -> R, pr v0 = 0 -> (forall w v, pr (vscale w v) = w * pr v) ->
      0 + rsumf (fun v => pr (if Nat.eqb (fst v) a then v0 else G a v)) (L a) = rsumf (fun v => pr (G a v)) (L a)).
    { intros pr Z LIN. rewrite <- (self_odd (fun v => pr (G a v)) a Ha) at 1.
      - rewrite <- rsumf_plus. apply rsumf_ext. intros v _. destruct (Nat.eqb (fst v) a); rewrite ?Z; ring.
      - intros n. unfold G. rewrite (within_neg pos bx dp_cut a a n), (dist_sym pos bx a a n), (dd_neg pos bx a a n). cbn [fst].
        destruct (WI a (a, neg n)); rewrite ?LIN, ?Z; ring. }
    apply vec_eq; [apply (Q vx)|apply (Q vy)|apply (Q vz)]; auto.
  - intros i v. unfold stA, G, ElModel.charged, ElModel.self. rewrite near_within, ent_dist, ent_r. change (n_nr (ent i v)) with (fst v). change (n_type (ent i v)) with (typ c (fst v)).
    destruct (Nat.eqb (fst v) i); auto. destruct (WI i v); cbn [andb]; auto.
    destruct (nz_cases (charge (typ c i))) as [[-> Z1]|[-> _]], (nz_cases (charge (typ c (fst v)))) as [[-> Z2]|[-> _]]; rewrite ?Z1, ?Z2; cbn [orb]; vring.
  - intros i j n N. cbn [fst] in N. unfold stB, G, ElModel.charged, ElModel.self. rewrite near_within, ent_dist, ent_r. change (n_nr (ent i (j, n))) with j. change (n_type (ent i (j, n))) with (typ c j). cbn [fst].
    destruct (Nat.eqb_spec j i); [contradiction|]. destruct (Nat.eqb_spec i j); [subst; contradiction|].
    rewrite (within_neg pos bx dp_cut i j n), (dist_sym pos bx i j n), (dd_neg pos bx i j n).
    destruct (WI j (i, neg n)); cbn [andb]; auto.
    destruct (nz_cases (charge (typ c i))) as [[-> Z1]|[-> _]], (nz_cases (charge (typ c j))) as [[-> Z2]|[-> _]]; rewrite ?Z1, ?Z2; cbn [orb]; vring.
  - intros i e E. unfold stB, ElModel.self. rewrite E, Nat.eqb_refl. auto.
Qed.

(** ** the damping part *)
Definition srA (i : nat) (e : neigh) : vec := if (charged c i e && (nz (alpha (typ c i)) && has_sr dpb dpc c i e))%bool
  then vscale (charge (n_type e) * (gel (n_r e) * n_r e * shortrange_value (n_r e) (alpha (typ c i)) (dpb (typ c i) (n_type e)) (dpc (typ c i) (n_type e)))) (n_dist_r e) else v0.
Definition srB (i : nat) (e : neigh) : vec := if (charged c i e && (nz (alpha (n_type e)) && has_sr dpb dpc c i e && negb (ElModel.self i e)))%bool
  then vscale (- (charge (typ c i) * (gel (n_r e) * n_r e * shortrange_value (n_r e) (alpha (n_type e)) (dpb (typ c i) (n_type e)) (dpc (typ c i) (n_type e))))) (n_dist_r e) else v0.
Definition sr_body (i : nat) (E : nat -> vec) (e : neigh) : nat -> vec := if charged c i e then add_sr charge alpha dpb dpc gel c i e E else E.
Lemma sr_body_spec : forall i e X a, sr_body i X e a = vadd (X a) (vadd (if Nat.eqb a i then srA i e else v0) (if Nat.eqb (n_nr e) a then srB i e else v0)).
Proof.
  intros i e X a. unfold sr_body, srA, srB.
  destruct (charged c i e); cbn [andb]; [|destruct (Nat.eqb a i), (Nat.eqb (n_nr e) a); vring].
  unfold add_sr. cbv zeta. set (x1 := charge (n_type e) * _). set (x2 := charge (typ c i) * _). clearbody x1 x2.
  destruct (nz (alpha (typ c i)) && has_sr dpb dpc c i e)%bool, (nz (alpha (n_type e)) && has_sr dpb dpc c i e && negb (ElModel.self i e))%bool eqn:K;
    unfold setf; rewrite ?(Nat.eqb_sym (n_nr e) a).
  - apply andb_true_iff in K. destruct K as [_ K]. unfold ElModel.self in K. destruct (Nat.eqb_spec (n_nr e) i); [discriminate|].
    destruct (Nat.eqb_spec a (n_nr e)) as [->|N1].
    + destruct (Nat.eqb_spec (n_nr e) i); [contradiction|]. vring.
    + destruct (Nat.eqb_spec a i) as [->|]; vring.
  - destruct (Nat.eqb_spec a i) as [->|]; match goal with |- context[Nat.eqb ?x (n_nr e)] => destruct (Nat.eqb x (n_nr e)) end; vring.
  - destruct (Nat.eqb_spec a (n_nr e)) as [->|N1]; match goal with |- context[Nat.eqb ?x i] => destruct (Nat.eqb x i) end; vring.
  - destruct (Nat.eqb a i), (Nat.eqb a (n_nr e)); vring.
Qed.
Lemma sr_value : forall r a b k, shortrange_value r a b k = a * fst (shortrange_term r b k).
Proof. intros. unfold shortrange_value, shortrange_term. cbn [fst]. unfold Rdiv. ring. Qed.
Theorem damped_spec : forall X a, (lo <= a < hi)%nat -> X a = v0 ->
  for_up lo hi (fun i X => fold_left (sr_body i) (nb c i) X) X a = damped_moment c pos bx charge gel dp_cut L alpha dpb dpc a.
Proof.
  intros X a Ha X0. rewrite (acc_in c sr_body srA srB (fun i e _ _ => sr_body_spec i e) X a Ha), X0.
  pose (G := fun i v => if WI i v then vscale (alpha (typ c i) * damp c pos bx dpb dpc i v * (charge (typ c (fst v)) * gel (rr i v))) (dd i v) else v0).
  rewrite (vec_density srA srB G).
  - unfold damped_moment. fold (G a). vring.
  - intros i v. unfold srA, G, ElModel.charged, damp, damped, has_sr. rewrite near_within, ent_dr, ent_r, sr_value, !zero_nz, !negb_involutive. change (n_type (ent i v)) with (typ c (fst v)).
    destruct (WI i v); cbn [andb]; auto. destruct (nz (dpb (typ c i) (typ c (fst v))) && nz (dpc (typ c i) (typ c (fst v))))%bool; [|rewrite !andb_false_r; vring].
    rewrite andb_true_r. set (st := fst (shortrange_term _ _ _)). clearbody st.
    assert (Q : forall x, vscale (x * (gel (rr i v) * rr i v * (alpha (typ c i) * st))) (vscale (/ rr i v) (dd i v)) = vscale (alpha (typ c i) * st * (x * gel (rr i v))) (dd i v)).
    { intros x. destruct (Req_dec (rr i v) 0) as [Z|R0]; [rewrite (rr_zero _ _ _ _ Z); vring|]. apply vec_eq; simpl; field; auto. }
    rewrite Q. destruct (nz_cases (alpha (typ c i))) as [[-> ->]|[-> _]]; [rewrite andb_false_r; vring|rewrite andb_true_r].
    destruct (nz_cases (charge (typ c i))) as [[-> Z1]|[-> _]], (nz_cases (charge (typ c (fst v)))) as [[-> Z2]|[-> _]]; rewrite ?Z1, ?Z2; cbn [orb]; vring.
  - intros i j n N. cbn [fst] in N. unfold srB, G, ElModel.charged, damp, damped, has_sr, ElModel.self. rewrite near_within, ent_dr, ent_r, sr_value, !zero_nz, !negb_involutive.
    change (n_nr (ent i (j, n))) with j. change (n_type (ent i (j, n))) with (typ c j). cbn [fst].
    destruct (Nat.eqb_spec j i); [contradiction|]. cbn [negb]. rewrite andb_true_r.
    rewrite (within_neg pos bx dp_cut i j n), (dist_sym pos bx i j n), (dd_neg pos bx i j n), (BS (typ c i)), (CS (typ c i)).
    destruct (WI j (i, neg n)); cbn [andb]; auto. destruct (nz (dpb (typ c j) (typ c i)) && nz (dpc (typ c j) (typ c i)))%bool; [|rewrite !andb_false_r; vring].
    rewrite andb_true_r. set (st := fst (shortrange_term _ _ _)). clearbody st. set (r := rr j (i, neg n)).
    assert (Q : forall x, vscale (- (x * (gel r * r * (alpha (typ c j) * st)))) (vscale (/ r) (vscale (-1) (dd j (i, neg n)))) = vscale (alpha (typ c j) * st * (x * gel r)) (dd j (i, neg n))).
    { intros x. unfold r. destruct (Req_dec (rr j (i, neg n)) 0) as [Z|R0]; [rewrite (rr_zero _ _ _ _ Z); vring|]. apply vec_eq; simpl; field; auto. }
    rewrite Q. destruct (nz_cases (alpha (typ c j))) as [[-> ->]|[-> _]]; [rewrite andb_false_r; vring|rewrite andb_true_r].
    destruct (nz_cases (charge (typ c i))) as [[-> Z1]|[-> _]], (nz_cases (charge (typ c j))) as [[-> Z2]|[-> _]]; rewrite ?Z1, ?Z2; cbn [orb]; vring.
  - intros i e E. unfold srB, ElModel.self. rewrite E, Nat.eqb_refl. cbn [negb]. rewrite !andb_false_r. auto.
  - auto.
Qed.

(** ** the field of the dipoles *)
Section Ind.
Variable p : nat -> vec.
Definition inA (i : nat) (e : neigh) : vec := if (near dp_cut e && nz (alpha (typ c i)) && nz (alpha (n_type e)))%bool then dip_field gel (p (n_nr e)) e else v0.
Definition inB (i : nat) (e : neigh) : vec := if (near dp_cut e && nz (alpha (typ c i)) && nz (alpha (n_type e)))%bool then (if ElModel.self i e then v0 else dip_field gel (p i) e) else v0.
Lemma in_body_spec : forall i e X a, induce_neighbor alpha gel dp_cut c p i X e a = vadd (X a) (vadd (if Nat.eqb a i then inA i e else v0) (if Nat.eqb (n_nr e) a then inB i e else v0)).
Proof.
  intros i e X a. unfold induce_neighbor, inA, inB.
  destruct (_ && _ && _)%bool; [|destruct (Nat.eqb a i), (Nat.eqb (n_nr e) a); vring]. cbv zeta. unfold ElModel.self.
  destruct (Nat.eqb_spec (n_nr e) i) as [E|N]; unfold setf.
  - destruct (Nat.eqb_spec a i) as [->|]; match goal with |- context[Nat.eqb (n_nr e) ?x] => destruct (Nat.eqb (n_nr e) x) end; vring.
  - rewrite (Nat.eqb_sym (n_nr e) a). destruct (Nat.eqb_spec a (n_nr e)) as [->|N1].
    + destruct (Nat.eqb_spec (n_nr e) i); [contradiction|]. vring.
    + destruct (Nat.eqb_spec a i) as [->|]; vring.
Qed.
Theorem induce_spec : forall X a, (lo <= a < hi)%nat -> X a = v0 -> alpha (typ c a) <> 0 ->
  for_up lo hi (induce_atom alpha gel dp_cut c p) X a = dipole_field c pos bx gel dp_cut L alpha p a.
Proof.
  intros X a Ha X0 POL. unfold induce_atom.
  rewrite (acc_in c (induce_neighbor alpha gel dp_cut c p) inA inB (fun i e _ _ => in_body_spec i e) X a Ha), X0.
  pose (G := fun i v => if WI i v then vscale (gel (rr i v)) (vsub (vscale (3 * sprod (mom c alpha p (fst v)) (dd i v) / (rr i v * rr i v)) (dd i v)) (mom c alpha p (fst v))) else v0).
  rewrite (vec_density inA inB (fun i v => if nz (alpha (typ c i)) then G i v else v0)).
  - apply nz_true in POL. rewrite POL. unfold dipole_field. fold (G a). vring.
  - intros i v. unfold inA, G, dip_field. rewrite near_within, ent_dr, ent_r. change (n_nr (ent i v)) with (fst v). change (n_type (ent i v)) with (typ c (fst v)).
    destruct (WI i v), (nz (alpha (typ c i))); cbn [andb]; auto. destruct (nz (alpha (typ c (fst v)))) eqn:B.
    + rewrite (mom_nz c alpha p _ B). destruct (Req_dec (rr i v) 0) as [Z|R0]; [rewrite (rr_zero _ _ _ _ Z); unfold sprod, Rdiv; vring|].
      unfold sprod. apply vec_eq; simpl; field; auto.
    + rewrite (mom_z c alpha p _ B). unfold sprod, Rdiv. vring.
  - intros i j n N. cbn [fst] in N. unfold inB, G, dip_field, ElModel.self. rewrite near_within, ent_dr, ent_r. change (n_nr (ent i (j, n))) with j. change (n_type (ent i (j, n))) with (typ c j).
    cbn [fst]. destruct (Nat.eqb_spec j i); [contradiction|]. rewrite (within_neg pos bx dp_cut i j n), (dist_sym pos bx i j n), (dd_neg pos bx i j n).
    destruct (WI j (i, neg n)), (nz (alpha (typ c j))); cbn [andb]; rewrite ?andb_false_r, ?andb_true_r; auto. destruct (nz (alpha (typ c i))) eqn:B.
    + rewrite (mom_nz c alpha p _ B). destruct (Req_dec (rr j (i, neg n)) 0) as [Z|R0]; [rewrite (rr_zero _ _ _ _ Z); unfold sprod, Rdiv; vring|].
      unfold sprod. apply vec_eq; simpl; field; auto.
    + rewrite (mom_z c alpha p _ B). unfold sprod, Rdiv. vring.
  - intros i e E. unfold inB, ElModel.self. rewrite E, Nat.eqb_refl. destruct (_ && _ && _)%bool; auto.
  - auto.
Qed.
End Ind.
End El.
