(** The ADP force routine computes the textbook model, but for the stress of bonds to own images. *)
From Coq Require Import Reals ZArith List Bool Lia Lra.
From Verif Require Import Vec NbrModel NbrProof NbrProof2 NbrProof3 LoopUtil PairModel PairProof PairSpec PairProof2 PairProof3 ForceLoop BondProof EamModel EamProof EamSpec EamProof2 EamProof3 AdpModel AdpSpec AdpProof.
Import ListNotations.
Local Open Scope R_scope.

Lemma stress_vadd : forall d x y k, stress_of d (vadd x y) k = stress_of d x k + stress_of d y k.
Proof. intros. unfold stress_of, vadd. destruct k as [|[|[|[|[|]]]]]; cbn [vx vy vz]; ring. Qed.
Lemma vsumf_add : forall {A} (f g : A -> vec) l, vsumf (fun x => vadd (f x) (g x)) l = vadd (vsumf f l) (vsumf g l).
Proof. intros A f g. induction l as [|a l IH]; [apply vec_eq; cbn; ring|]. rewrite !vsumf_cons, IH. vring. Qed.
Section Loops.
Variable c : conf.
Notation lo := (cnfstart c).
Notation hi := (cnfstart c + inconf c)%nat.
Variables S T : nat -> neigh -> vec.
Notation ST := (fun i e => vadd (S i e) (T i e)).
Lemma gown_add : forall a, gown ST c a = vadd (gown S c a) (gown T c a).
Proof. intros. unfold gown. apply vsumf_add. Qed.
Lemma ggot_add : forall a, ggot ST c hi a = vadd (ggot S c hi a) (ggot T c hi a).
Proof.
  intros a. unfold ggot. rewrite <- vsumf_add. apply vsumf_ext. intros k _. rewrite <- vsumf_add. apply vsumf_ext. intros e _. unfold gto. destruct (Nat.eqb (n_nr e) a); vring.
Qed.
Lemma gstr_add : forall k, gstr ST c k hi = gstr S c k hi + gstr T c k hi.
Proof.
  intros k. unfold gstr. rewrite <- rsumf_plus. apply rsumf_ext. intros j _. rewrite <- rsumf_plus. apply rsumf_ext. intros e _. apply stress_vadd.
Qed.
(** bonds to own images push and pull the same atom *)
Hypothesis OWN : forall i e, (lo <= i < hi)%nat -> In e (nb c i) -> n_nr e <> i -> T i e = v0.
Lemma own_r : forall (f : nat -> neigh -> R), (forall i e, (lo <= i < hi)%nat -> In e (nb c i) -> n_nr e <> i -> f i e = 0) -> forall a, (lo <= a < hi)%nat ->
  rsumf (fun k => rsumf (fun e => if Nat.eqb (n_nr e) a then f k e else 0) (nb c k)) (seq lo (inconf c)) = rsumf (f a) (nb c a).
Proof.
  intros f Z a Ha. rewrite <- (pick (fun k => rsumf (f k) (nb c k)) a (seq lo (inconf c))); [|apply seq_NoDup|apply in_seq; lia].
  apply rsumf_ext. intros k K. apply in_seq in K. destruct (Nat.eqb_spec k a) as [->|N].
  - apply rsumf_ext. intros e He. destruct (Nat.eqb_spec (n_nr e) a); auto. symmetry. apply Z; auto.
  - apply rsumf_zero. intros e He. destruct (Nat.eqb_spec (n_nr e) a) as [E|]; auto. apply Z; auto; lia.
Qed.
Lemma own_cancel : forall a, (lo <= a < hi)%nat -> gown T c a = ggot T c hi a.
Proof.
  intros a Ha. unfold gown, ggot. replace (hi - lo)%nat with (inconf c) by lia.
  assert (Q : forall pr : vec -> R, pr v0 = 0 -> rsumf (fun e => pr (T a e)) (nb c a) = rsumf (fun k => rsumf (fun e => pr (gto T a k e)) (nb c k)) (seq lo (inconf c))).
  { intros pr Z. rewrite <- (own_r (fun i e => pr (T i e))); auto.
    - apply rsumf_ext. intros k _. apply rsumf_ext. intros e _. unfold gto. destruct (Nat.eqb (n_nr e) a); auto.
    - intros i e Hi He N. rewrite OWN; auto. }
  apply vec_eq; simpl; apply Q; auto.
Qed.
End Loops.

Section Run.
Variable bld0 : ebuild.
Notation bld := (one_band bld0).
Variables phi dphi : nat -> nat -> R -> R.
Variable in_range : nat -> nat -> R -> bool.
Variables dens ddens : nat -> nat -> R -> R.
Variable reach : nat -> nat -> R -> bool.
Variables F dF FA dFA : nat -> nat -> R -> R.
Variables fbegin fend fstep : nat -> nat -> R.
Variables u du : nat -> nat -> R -> R.
Variable u_range : nat -> nat -> R -> bool.
Variables w dw : nat -> nat -> R -> R.
Variable w_range : nat -> nat -> R -> bool.
Hypothesis PS : forall s t r, phi s t r = phi t s r.
Hypothesis DS : forall s t r, dphi s t r = dphi t s r.
Hypothesis IS : forall s t r, in_range s t r = in_range t s r.
Hypothesis US : forall s t r, u s t r = u t s r.
Hypothesis dUS : forall s t r, du s t r = du t s r.
Hypothesis URS : forall s t r, u_range s t r = u_range t s r.
Hypothesis WS : forall s t r, w s t r = w t s r.
Hypothesis dWS : forall s t r, dw s t r = dw t s r.
Hypothesis WRS : forall s t r, w_range s t r = w_range t s r.

Section Geo.
Variables (c : conf) (pos : nat -> vec) (bx : box) (rcut : nat -> nat -> R).
Hypothesis GEO : geometry c pos bx rcut.
Notation lo := (cnfstart c).
Notation hi := (cnfstart c + inconf c)%nat.
Variable L : nat -> list (nat * image).
Hypothesis HL : forall a, (lo <= a < hi)%nat -> all_neighbors c pos bx rcut a (L a).
Notation ent i v := (entry pos (typ c) bx i (fst v) (snd v)).
Notation cutf := (cut c pos bx).
Notation dip := (dipole c pos bx u u_range L).
Notation quad := (quadrupole c pos bx w w_range L).
Notation nuo := (nu_of c pos bx w w_range L).
Notation qmul := (quad_mul c pos bx w w_range L).
Notation dbond := (dipole_bond c pos bx u du u_range L).
Notation qbond := (quadrupole_bond c pos bx w dw w_range L).
Notation obond := (own_bond c pos bx w dw w_range L).

Lemma ent_dist : forall i v, n_dist (ent i v) = dvec pos bx i v.
Proof.
  intros i [j n]. unfold dvec. rewrite <- shift_displacement. unfold entry. cbn [n_dist fst snd]. set (d := shifted _ _ _). clearbody d.
  destruct (Req_dec (norm d) 0) as [Z|Z].
  - apply norm_0 in Z; rewrite Z. unfold unscale. apply vec_eq; cbn [vx vy vz v0]; unfold Rdiv; ring.
  - unfold unscale. apply vec_eq; cbn [vx vy vz]; field; auto.
Qed.
Lemma ent_dr' : forall i v, n_dist_r (ent i v) = vscale (/ dist pos bx i v) (dvec pos bx i v).
Proof. intros. apply ent_dr. Qed.
Lemma dvec_rev : forall i j n, dvec pos bx j (i, neg n) = vscale (-1) (dvec pos bx i (j, n)).
Proof. intros. unfold dvec. cbn [fst snd]. apply displacement_neg. Qed.
Lemma cut_sym : forall f g, (forall s t r, f s t r = f t s r) -> (forall s t r, g s t r = g t s r) -> forall i j n, cutf f g i (j, n) = cutf f g j (i, neg n).
Proof. intros f g HF HG i j n. unfold cut. cbn [fst]. rewrite (dist_sym pos bx i j n), (HG (typ c i)), (HF (typ c i)). auto. Qed.
Lemma sqrdist_ent : forall i v, let d := dvec pos bx i v in
  sqrdist (ent i v) = mk_tens (vx d * vx d) (vy d * vy d) (vz d * vz d) (vx d * vy d) (vy d * vz d) (vz d * vx d).
Proof.
  intros i v. cbv zeta. rewrite <- ent_dist. destruct v as [j n]. unfold sqrdist, entry. cbn [n_dist_r n_r n_dist vx vy vz fst snd]. apply tens_eq; cbn [xx yy zz xy yz zx]; ring.
Qed.

(** ** distortions *)
Lemma U_entry : forall i v, U u u_range c i (ent i v) = vscale (weight i v) (vscale (cutf u u_range i v) (dvec pos bx i v)).
Proof.
  intros i v. unfold U, u_val, halved, cut, weight. rewrite ent_r, ent_dist. change (n_type (ent i v)) with (typ c (fst v)). change (n_nr (ent i v)) with (fst v).
  destruct (u_range _ _ _), (Nat.eqb (fst v) i); unfold Rdiv, sprod; vring.
Qed.
Lemma mu_dipole : forall a, (lo <= a < hi)%nat -> muF u u_range c a = dip a.
Proof.
  intros a Ha. unfold muF, gown, ggot, dipole. replace (hi - lo)%nat with (inconf c) by lia.
  apply (gen_force c pos bx rcut GEO L HL (U u u_range c) (fun a v => vscale (cutf u u_range a v) (dvec pos bx a v)) U_entry); auto.
  intros i j n. rewrite (cut_sym u u_range US URS i j n), dvec_rev. vring.
Qed.
(** both atoms of a bond receive the same *)
Lemma both : forall (A : nat -> neigh -> R) (G : nat -> nat * image -> R), (forall i v, A i (ent i v) = weight i v * G i v) -> (forall i j n, G i (j, n) = G j (i, neg n)) ->
  forall a, (lo <= a < hi)%nat ->
  rsumf (A a) (nb c a) + rsumf (fun k => rsumf (fun e => if Nat.eqb (n_nr e) a then A k e else 0) (nb c k)) (seq lo (inconf c)) = rsumf (G a) (L a).
Proof.
  intros A G HA HG a Ha.
  rewrite <- (gen_density c pos bx rcut GEO L HL (fun i e => if Nat.eqb (n_nr e) i then 2 * A i e else A i e) (fun i e => if Nat.eqb (n_nr e) i then 0 else A i e) G); auto.
  - assert (O := own_r c (fun i e => if Nat.eqb (n_nr e) i then A i e else 0)). cbv beta in O. specialize (O ltac:(intros i e _ _ N; destruct (Nat.eqb_spec (n_nr e) i); [contradiction|auto]) a Ha).
    transitivity (rsumf (fun e => A a e) (nb c a) + (rsumf (fun e => if Nat.eqb (n_nr e) a then A a e else 0) (nb c a) +
       rsumf (fun k => rsumf (fun e => if Nat.eqb (n_nr e) a then (if Nat.eqb (n_nr e) k then 0 else A k e) else 0) (nb c k)) (seq lo (inconf c)))).
    + f_equal. rewrite <- O. rewrite <- rsumf_plus. apply rsumf_ext. intros k _. rewrite <- rsumf_plus. apply rsumf_ext. intros e _.
      destruct (Nat.eqb (n_nr e) a), (Nat.eqb (n_nr e) k); ring.
    + rewrite <- Rplus_assoc. f_equal. rewrite <- rsumf_plus. apply rsumf_ext. intros e _. destruct (Nat.eqb (n_nr e) a); ring.
  - intros i v. rewrite HA. unfold weight. change (n_nr (ent i v)) with (fst v). destruct (Nat.eqb (fst v) i); field.
  - intros i j n N. rewrite HA. unfold weight. cbn [fst snd] in *. change (n_nr (entry pos (typ c) bx i j n)) with j. destruct (Nat.eqb_spec j i); [contradiction|]. rewrite (HG i j n). ring.
  - intros i e E. rewrite E, Nat.eqb_refl. auto.
Qed.
Lemma lam_part : forall (p : tens -> R) k l, p t0 = 0 -> (forall x t, p (tscale x t) = x * p t) ->
  (forall i v, p (sqrdist (ent i v)) = co (dvec pos bx i v) k * co (dvec pos bx i v) l) -> forall a, (lo <= a < hi)%nat ->
  rsumf (fun e => p (Wt w w_range c a e)) (nb c a) + rsumf (fun j => rsumf (fun e => p (wto w w_range c a j e)) (nb c j)) (seq lo (inconf c)) = quad a k l.
Proof.
  intros p k l Z LIN SQ a Ha. unfold quadrupole.
  rewrite <- (both (fun i e => p (Wt w w_range c i e)) (fun a v => cutf w w_range a v * (co (dvec pos bx a v) k * co (dvec pos bx a v) l))); auto.
  - f_equal. apply rsumf_ext. intros j _. apply rsumf_ext. intros e _. unfold wto. destruct (Nat.eqb (n_nr e) a); auto.
  - intros i v. unfold Wt, w_val, halved, cut, weight. rewrite ent_r. change (n_type (ent i v)) with (typ c (fst v)). change (n_nr (ent i v)) with (fst v).
    destruct (w_range _ _ _); [|rewrite Z; ring]. rewrite LIN, SQ. destruct (Nat.eqb (fst v) i); field.
  - intros i j n. rewrite (cut_sym w w_range WS WRS i j n), dvec_rev. unfold co. destruct k as [|[|]], l as [|[|]]; cbn [vscale vx vy vz]; ring.
Qed.
Definition lamT (a : nat) : tens := mk_tens (quad a 0%nat 0%nat) (quad a 1%nat 1%nat) (quad a 2%nat 2%nat) (quad a 0%nat 1%nat) (quad a 1%nat 2%nat) (quad a 2%nat 0%nat).
Lemma lam_quad : forall a, (lo <= a < hi)%nat -> lamF w w_range c a = lamT a.
Proof.
  intros a Ha. unfold lamT, lamF, wgot. replace (hi - lo)%nat with (inconf c) by lia.
  apply tens_eq; cbn [tadd tsumf xx yy zz xy yz zx].
  - apply (lam_part xx 0 0); auto. intros. rewrite sqrdist_ent. auto.
  - apply (lam_part yy 1 1); auto. intros. rewrite sqrdist_ent. auto.
  - apply (lam_part zz 2 2); auto. intros. rewrite sqrdist_ent. auto.
  - apply (lam_part xy 0 1); auto. intros. rewrite sqrdist_ent. auto.
  - apply (lam_part yz 1 2); auto. intros. rewrite sqrdist_ent. auto.
  - apply (lam_part zx 2 0); auto. intros. rewrite sqrdist_ent. auto.
Qed.
Lemma quad_sym : forall a k l, quad a k l = quad a l k.
Proof. intros. unfold quadrupole. apply rsumf_ext. intros; ring. Qed.
Lemma nu_nu : forall a, (lo <= a < hi)%nat -> nuF w w_range c a = nuo a.
Proof. intros a Ha. unfold nuF, trace. rewrite lam_quad; auto. Qed.
Lemma tmul_qmul : forall a d, tmul (lamT a) d = qmul a d.
Proof.
  intros a d. unfold tmul, quad_mul, lamT. cbn [xx yy zz xy yz zx]. rewrite (quad_sym a 1 0), (quad_sym a 0 2), (quad_sym a 2 1). auto.
Qed.
Lemma distortion_energy : rsumf (dF_e u u_range w w_range c) (seq lo (inconf c)) = adp_energy c pos bx u u_range w w_range L.
Proof.
  unfold adp_energy. rewrite <- !rsumf_scale. unfold Rminus. 
  replace (- rsumf (fun x => 1 / 6 * sq (nuo x)) (seq lo (inconf c))) with (rsumf (fun x => -1 * (1 / 6 * sq (nuo x))) (seq lo (inconf c))) by (rewrite rsumf_scale; ring).
  rewrite <- !rsumf_plus. apply rsumf_ext. intros a Ha. apply in_seq in Ha. unfold dF_e, distortion, trace. rewrite mu_dipole, lam_quad by lia. unfold lamT. cbn [xx yy zz xy yz zx].
  set (m := dip a). clearbody m. unfold nu_of. cbn [seq]. unfold rsumf; cbn [map]; unfold Vec.rsum; cbn [fold_right].
  rewrite (quad_sym a 1 0), (quad_sym a 0 2), (quad_sym a 2 1).
  set (q00 := quad a 0%nat 0%nat). set (q11 := quad a 1%nat 1%nat). set (q22 := quad a 2%nat 2%nat). set (q01 := quad a 0%nat 1%nat). set (q12 := quad a 1%nat 2%nat). set (q20 := quad a 2%nat 0%nat).
  unfold sqv, sq. field.
Qed.

(** ** forces *)
Lemma dbond_sym : forall i j n, dbond i (j, n) = vscale (-1) (dbond j (i, neg n)).
Proof.
  intros i j n. unfold dipole_bond. cbn [fst]. rewrite (cut_sym u u_range US URS i j n), (cut_sym du u_range dUS URS i j n), (dist_sym pos bx i j n), dvec_rev.
  set (x := dip i). set (y := dip j). clearbody x y. unfold Rdiv, sprod. vring.
Qed.
Lemma qmul_opp : forall a d, qmul a (vscale (-1) d) = vscale (-1) (qmul a d).
Proof. intros. unfold quad_mul. apply vec_eq; cbn [vscale vx vy vz]; ring. Qed.
Lemma qbond_sym : forall i j n, qbond i (j, n) = vscale (-1) (qbond j (i, neg n)).
Proof.
  intros i j n. unfold quadrupole_bond. cbn [fst]. rewrite (cut_sym w w_range WS WRS i j n), (cut_sym dw w_range dWS WRS i j n), (dist_sym pos bx i j n), dvec_rev, !qmul_opp.
  set (x := qmul i _). set (y := qmul j _). clearbody x y. unfold Rdiv, sprod. vring.
Qed.
Lemma abond_sym : forall i j n, adp_bond c pos bx u du u_range w dw w_range L i (j, n) = vscale (-1) (adp_bond c pos bx u du u_range w dw w_range L j (i, neg n)).
Proof. intros i j n. unfold adp_bond. rewrite dbond_sym, qbond_sym. vring. Qed.

Notation TUF := (TU u du u_range c dip).
Notation TQF := (TQ w dw w_range c lamT nuo).
(** excess of an entry that belongs to an image of the atom itself *)
Definition ownT (i : nat) (e : neigh) : vec :=
  if (Nat.eqb (n_nr e) i && w_range (typ c i) (n_type e) (n_r e))%bool then
    let m := tmul (lamT i) (n_dist e) in
    vadd (vscale (w (typ c i) (n_type e) (n_r e)) m) (vscale (1/2 * dw (typ c i) (n_type e) (n_r e) * sprod m (n_dist e)) (n_dist_r e))
  else v0.
Lemma TU_entry : forall i v, TUF i (ent i v) = vscale (weight i v) (dbond i v).
Proof.
  intros i v. unfold TU, TU0, hv, u_val, u_grad, halved, dipole_bond, cut, weight. rewrite ent_r, ent_dist, ent_dr'.
  change (n_type (ent i v)) with (typ c (fst v)). change (n_nr (ent i v)) with (fst v).
  destruct (u_range _ _ _); [|unfold Rdiv, sprod; destruct (Nat.eqb (fst v) i); vring]. destruct (Nat.eqb_spec (fst v) i) as [->|]; unfold Rdiv, sprod; vring.
Qed.
Ltac tens_field := apply vec_eq; cbn [tmul tadd tscale vadd vsub vscale vx vy vz xx yy zz xy yz zx v0]; unfold sprod; cbn [tmul tadd tscale vadd vsub vscale vx vy vz xx yy zz xy yz zx]; field; auto.
Lemma TQ_entry : forall i v, vadd (TQF i (ent i v)) (ownT i (ent i v)) = vscale (weight i v) (qbond i v).
Proof.
  intros i v. unfold TQ, TQ0, ht, ownT, w_val, w_grad, halved, quadrupole_bond, cut, weight. rewrite ent_r, ent_dist, ent_dr'.
  change (n_type (ent i v)) with (typ c (fst v)). change (n_nr (ent i v)) with (fst v). rewrite <- !tmul_qmul.
  destruct (w_range _ _ _); [|rewrite andb_false_r; unfold Rdiv, sprod; destruct (Nat.eqb (fst v) i); vring]. rewrite andb_true_r.
  destruct (Req_dec (dist pos bx i v) 0) as [R0|R0].
  - unfold dist in R0 |- *; apply norm_0 in R0; rewrite R0. destruct (Nat.eqb (fst v) i); unfold Rdiv; apply vec_eq; cbn [tmul tadd tscale vadd vsub vscale vx vy vz xx yy zz xy yz zx v0]; unfold sprod; cbn [vx vy vz v0]; ring.
  - set (d := dvec pos bx i v) in *. set (r := dist pos bx i v) in *. clearbody d r.
    destruct (Nat.eqb_spec (fst v) i) as [->|].
    + set (x := lamT i). clearbody x. set (n1 := nuo i). clearbody n1. tens_field.
    + set (x := lamT i). clearbody x. set (y := lamT (fst v)). clearbody y. set (n1 := nuo i). clearbody n1. set (n2 := nuo (fst v)). clearbody n2. tens_field.
Qed.
Lemma own_entry : forall i v, ownT i (ent i v) = if Nat.eqb (fst v) i then obond i v else v0.
Proof.
  intros i v. unfold ownT, own_bond, cut. rewrite ent_r, ent_dist, ent_dr', tmul_qmul. change (n_type (ent i v)) with (typ c (fst v)). change (n_nr (ent i v)) with (fst v).
  destruct (Nat.eqb (fst v) i); cbn [andb]; auto. destruct (w_range _ _ _); unfold Rdiv, sprod; vring.
Qed.
Lemma obond_rev : forall i n, obond i (i, neg n) = vscale (-1) (obond i (i, n)).
Proof.
  intros i n. unfold own_bond. rewrite <- (cut_sym w w_range WS WRS i i n), <- (cut_sym dw w_range dWS WRS i i n), <- (dist_sym pos bx i i n), dvec_rev, !qmul_opp.
  set (x := qmul i _). clearbody x. unfold Rdiv, sprod. vring.
Qed.
Lemma ownT_own : forall i e, n_nr e <> i -> ownT i e = v0.
Proof. intros i e N. unfold ownT. destruct (Nat.eqb_spec (n_nr e) i); [contradiction|]. auto. Qed.

Lemma TU_force : forall a, (lo <= a < hi)%nat -> vsub (gown TUF c a) (ggot TUF c hi a) = vsum (dbond a) (L a).
Proof.
  intros a Ha. unfold gown, ggot. replace (hi - lo)%nat with (inconf c) by lia. apply (gen_force c pos bx rcut GEO L HL TUF dbond TU_entry dbond_sym a Ha).
Qed.
Lemma TQ_force : forall a, (lo <= a < hi)%nat -> vsub (gown TQF c a) (ggot TQF c hi a) = vsum (qbond a) (L a).
Proof.
  intros a Ha. rewrite <- (gen_force c pos bx rcut GEO L HL (fun i e => vadd (TQF i e) (ownT i e)) qbond TQ_entry qbond_sym a Ha).
  change (vsumf (fun e => vadd (TQF a e) (ownT a e)) (nb c a)) with (gown (fun i e => vadd (TQF i e) (ownT i e)) c a).
  assert (G := ggot_add c TQF ownT a). unfold ggot at 1 in G. replace (hi - lo)%nat with (inconf c) in G at 1 by lia. unfold gto at 1 in G. rewrite G.
  rewrite gown_add, (own_cancel c ownT (fun i e _ _ N => ownT_own i e N) a Ha). vring.
Qed.
Lemma TU_virial : forall k, gstr TUF c k hi = 1/2 * rsumf (fun a => rsumf (fun v => stress_of (dvec pos bx a v) (dbond a v) k) (L a)) (seq lo (inconf c)).
Proof. intros k. unfold gstr. replace (hi - lo)%nat with (inconf c) by lia. apply (gen_virial c pos bx rcut GEO L HL TUF dbond TU_entry dbond_sym k). Qed.
Lemma own_str : forall k, gstr ownT c k hi = own_virial c pos bx w dw w_range L k.
Proof.
  intros k. unfold gstr. replace (hi - lo)%nat with (inconf c) by lia.
  rewrite (gen_energy c pos bx rcut GEO L HL (fun i e => stress_of (n_dist e) (ownT i e) k)
    (fun a v => 2 * if Nat.eqb (fst v) a then stress_of (dvec pos bx a v) (obond a v) k else 0)).
  - rewrite <- rsumf_scale. apply rsumf_ext. intros a _. rewrite rsumf_scale. field.
  - intros i v. rewrite own_entry, ent_dist. unfold weight. destruct (Nat.eqb (fst v) i); [field|]. rewrite stress_v0. ring.
  - intros i j n. cbn [fst]. rewrite (Nat.eqb_sym i j). destruct (Nat.eqb_spec j i) as [->|]; auto. f_equal. rewrite dvec_rev, obond_rev, stress_scale, stress_scale_l. ring.
Qed.
Lemma TQ_virial : forall k, gstr TQF c k hi = 1/2 * rsumf (fun a => rsumf (fun v => stress_of (dvec pos bx a v) (qbond a v) k) (L a)) (seq lo (inconf c)) - own_virial c pos bx w dw w_range L k.
Proof.
  intros k. assert (V := gen_virial c pos bx rcut GEO L HL (fun i e => vadd (TQF i e) (ownT i e)) qbond TQ_entry qbond_sym k).
  rewrite <- V, <- own_str. assert (G := gstr_add c TQF ownT k). unfold gstr at 1 in G. replace (hi - lo)%nat with (inconf c) in G at 1 by lia. rewrite G. ring.
Qed.

Notation slp := (slope c pos bx dens reach (dEu bld F dF FA dFA fbegin fend fstep) L).
Notation XA := (TA bld0 ddens reach u du u_range w dw w_range c).
Notation XF := (XA (gF bld dens reach F dF FA dFA fbegin fend fstep c) (muF u u_range c) (lamF w w_range c) (nuF w w_range c)).
Notation X3 := (T3 bld ddens reach c slp).
Lemma nested : bands_nested bld reach.
Proof. intros H. discriminate. Qed.
Lemma XA_use : (forall a, (lo <= a < hi)%nat -> vsub (gown XF c a) (ggot XF c hi a) =
     vadd (vsub (gown X3 c a) (ggot X3 c hi a)) (vadd (vsub (gown TUF c a) (ggot TUF c hi a)) (vsub (gown TQF c a) (ggot TQF c hi a)))) /\
  (forall k, gstr XF c k hi = gstr X3 c k hi + gstr TUF c k hi + gstr TQF c k hi).
Proof.
  assert (EXT : forall a, (lo <= a < hi)%nat -> gF bld dens reach F dF FA dFA fbegin fend fstep c 0%nat a = slp 0%nat a /\ muF u u_range c a = dip a /\ lamF w w_range c a = lamT a /\ nuF w w_range c a = nuo a).
  { intros a Ha. split; [apply (gF_slope bld dens reach F dF FA dFA fbegin fend fstep c pos bx rcut GEO L HL); auto|]. split; [apply mu_dipole; auto|]. split; [apply lam_quad; auto|apply nu_nu; auto]. }
  destruct (loop_ext c _ _ (TA_ext bld0 ddens reach u du u_range w dw w_range c (geo_ordered c pos bx rcut GEO) _ _ _ _ _ _ _ _ EXT)) as (X1 & X2 & X4).
  split.
  - intros a Ha. rewrite X1, X2 by auto. unfold TA. rewrite (gown_add c (fun i e => vadd (X3 i e) (TUF i e)) TQF), (ggot_add c (fun i e => vadd (X3 i e) (TUF i e)) TQF), (gown_add c X3 TUF), (ggot_add c X3 TUF). vring.
  - intros k. rewrite X4. unfold TA. rewrite (gstr_add c (fun i e => vadd (X3 i e) (TUF i e)) TQF), (gstr_add c X3 TUF). auto.
Qed.

Notation dEu := (dEu bld F dF FA dFA fbegin fend fstep).
Notation Eu := (Eu bld F dF FA dFA fbegin fend fstep).
Definition full_force (a : nat) : vec :=
  vadd (vadd (pair_force c pos bx dphi in_range L a) (embed_force c pos bx 1 dens ddens reach dEu L a)) (adp_force c pos bx u du u_range w dw w_range L a).
Lemma adp_frc : forall a, (lo <= a < hi)%nat -> uf c = true ->
  afrc bld0 dphi in_range dens ddens reach F dF FA dFA fbegin fend fstep u du u_range w dw w_range c a = scl (base bld) c a (vsub (full_force a) (force_0 c a)).
Proof.
  intros a Ha UF. destruct XA_use as (XU & _). specialize (XU a Ha). rewrite TU_force, TQ_force in XU by auto.
  unfold afrc. rewrite UF. f_equal.
  pose proof (gen_force c pos bx rcut GEO L HL (T dphi in_range c) (bond_force c pos bx dphi in_range) (entry_T dphi in_range c pos bx) (bf_sym dphi in_range DS IS c pos bx) a Ha) as Q1.
  pose proof (gen_force c pos bx rcut GEO L HL X3 (embed_bond c pos bx 1 dens ddens reach dEu L) (X3_entry bld dens ddens reach F dF FA dFA fbegin fend fstep c pos bx L nested) (ebond_sym bld dens ddens reach F dF FA dFA fbegin fend fstep c pos bx L) a Ha) as Q2.
  assert (PT : gown (pT dphi in_range c) c a = vsumf (T dphi in_range c a) (nb c a) /\ ggot (pT dphi in_range c) c hi a = vsumf (fun k => vsumf (fun e => if Nat.eqb (n_nr e) a then T dphi in_range c k e else v0) (nb c k)) (seq lo (inconf c))).
  { unfold gown, ggot. replace (hi - lo)%nat with (inconf c) by lia. split.
    - apply vsumf_ext. intros e _. unfold pT. rewrite UF. auto.
    - apply vsumf_ext. intros k _. apply vsumf_ext. intros e _. unfold gto, pT. rewrite UF. auto. }
  destruct PT as [-> ->].
  assert (X3E : vsub (gown X3 c a) (ggot X3 c hi a) = vsum (embed_bond c pos bx 1 dens ddens reach dEu L a) (L a)).
  { rewrite <- Q2. unfold gown, ggot. replace (hi - lo)%nat with (inconf c) by lia. auto. }
  rewrite X3E in XU.
  unfold full_force, pair_force, embed_force, adp_force, adp_bond. rewrite vsum_add, <- Q1.
  set (x1 := vsumf (T dphi in_range c a) _) in *. set (x2 := vsumf _ (seq lo (inconf c))) in *. set (y1 := gown XF c a) in *. set (y2 := ggot XF c hi a) in *.
  set (z1 := vsum (dbond a) (L a)) in *. set (z2 := vsum (qbond a) (L a)) in *. set (z3 := vsum (embed_bond _ _ _ _ _ _ _ _ _ a) (L a)) in *.
  clearbody x1 x2 y1 y2 z1 z2 z3. clear - XU. 
  transitivity (vadd (vsub (vadd (vscale (-1) (force_0 c a)) x1) x2) (vsub y1 y2)); [vring|]. rewrite XU. vring.
Qed.
Lemma adp_en : aen bld0 phi in_range dens reach F dF FA dFA fbegin fend fstep u u_range w w_range c =
  (pair_energy c pos bx phi in_range L + embed_energy c pos bx 1 dens reach Eu L + adp_energy c pos bx u u_range w w_range L) / INR (inconf c) - energy_0 c.
Proof.
  unfold aen. rewrite distortion_energy. f_equal. f_equal. f_equal. f_equal.
  - unfold gen, pair_energy. replace (hi - lo)%nat with (inconf c) by lia.
    apply (gen_energy c pos bx rcut GEO L HL (P phi in_range c) (bond_energy c pos bx phi in_range) (entry_P phi in_range c pos bx) (be_sym phi in_range PS IS c pos bx)).
  - unfold upto, embed_energy. replace (hi - lo)%nat with (inconf c) by lia. apply rsumf_ext. intros a Ha. apply in_seq in Ha. apply rsumf_ext. intros b _.
    apply (eF_energy bld dens reach F dF FA dFA fbegin fend fstep c pos bx rcut GEO L HL). lia.
Qed.
Lemma adp_str : forall k, astr bld0 dphi in_range dens ddens reach F dF FA dFA fbegin fend fstep u du u_range w dw w_range c k =
  if stress_on (base bld) c then (pair_virial c pos bx dphi in_range L k + embed_virial c pos bx 1 dens ddens reach dEu L k +
     adp_virial c pos bx u du u_range w dw w_range L k + own_virial c pos bx w dw w_range L k) / conf_vol c - stress_0 c k else 0.
Proof.
  intros k. unfold astr. destruct (stress_on (base bld) c) eqn:ON; auto.
  assert (UF : uf c = true) by (unfold stress_on in ON; destruct (uf c); auto; destruct (STRESS (base bld)); discriminate).
  f_equal. f_equal. destruct XA_use as (_ & Q). rewrite Q, TU_virial, TQ_virial.
  pose proof (gen_virial c pos bx rcut GEO L HL (T dphi in_range c) (bond_force c pos bx dphi in_range) (entry_T dphi in_range c pos bx) (bf_sym dphi in_range DS IS c pos bx) k) as Q1.
  pose proof (gen_virial c pos bx rcut GEO L HL X3 (embed_bond c pos bx 1 dens ddens reach dEu L) (X3_entry bld dens ddens reach F dF FA dFA fbegin fend fstep c pos bx L nested) (ebond_sym bld dens ddens reach F dF FA dFA fbegin fend fstep c pos bx L) k) as Q2.
  unfold pair_virial, embed_virial, adp_virial. rewrite <- Q1, <- Q2. unfold gstr. replace (hi - lo)%nat with (inconf c) by lia.
  rewrite (rsumf_ext (fun j => rsumf (fun e => stress_of (n_dist e) (pT dphi in_range c j e) k) (nb c j)) (fun j => rsumf (fun e => stress_of (n_dist e) (T dphi in_range c j e) k) (nb c j))).
  - rewrite (rsumf_ext (fun a => rsumf (fun v => stress_of (dvec pos bx a v) (adp_bond c pos bx u du u_range w dw w_range L a v) k) (L a))
      (fun a => rsumf (fun v => stress_of (dvec pos bx a v) (dbond a v) k) (L a) + rsumf (fun v => stress_of (dvec pos bx a v) (qbond a v) k) (L a))); [rewrite rsumf_plus; ring|].
    intros a _. rewrite <- rsumf_plus. apply rsumf_ext. intros v _. apply stress_vadd.
  - intros j _. apply rsumf_ext. intros e _. unfold pT. rewrite UF. auto.
Qed.
Lemma adp_newton : vsum full_force (seq lo (inconf c)) = v0.
Proof.
  unfold full_force. rewrite vsum_add.
  pose proof (gen_newton c pos bx rcut GEO L HL _ abond_sym) as Q2. unfold adp_force. rewrite Q2.
  pose proof (eam_newton bld dphi in_range dens ddens reach F dF FA dFA fbegin fend fstep c pos bx rcut GEO L HL DS IS) as Q. unfold eam_force in Q. change (nbands bld) with 1%nat in Q. rewrite Q. vring.
Qed.
(** no atom within the cutoff of the quadrupole function of an own image: no excess *)
Lemma own_none : (forall a v, (lo <= a < hi)%nat -> In v (L a) -> fst v = a -> w_range (typ c a) (typ c a) (dist pos bx a v) = false) ->
  forall k, own_virial c pos bx w dw w_range L k = 0.
Proof.
  intros H k. unfold own_virial. apply rsumf_zero. intros a Ha. apply in_seq in Ha. apply rsumf_zero. intros v Hv. destruct (Nat.eqb_spec (fst v) a) as [E|]; auto.
  unfold own_bond, cut. rewrite E, (H a v) by (auto; lia). unfold stress_of. destruct k as [|[|[|[|[|]]]]]; cbn [vadd vscale vx vy vz]; unfold Rdiv; ring.
Qed.
End Geo.
End Run.
