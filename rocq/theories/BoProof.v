(** Full lists: what loops over neighbours and all their other neighbours add, in terms of
    the textbook sums of a bond-order model. *)
From Coq Require Import Reals ZArith List Bool Lia Lra Permutation.
From Verif Require Import Vec NbrModel NbrProof NbrProof2 LoopUtil PairModel PairProof PairSpec PairProof2 GradProof ThreeSpec ThreeProof ThreeProof2 ThreeProof3 ThreeProof4
  AddProof BoSpec TersModel.
Import ListNotations.
Local Open Scope R_scope.

(** vectors through their scalar products *)
Lemma by_sprod : forall x y, (forall u, sprod u x = sprod u y) -> x = y.
Proof.
  intros x y H. pose proof (H (V3 1 0 0)) as A. pose proof (H (V3 0 1 0)) as B. pose proof (H (V3 0 0 1)) as C.
  unfold sprod in *. cbn [vx vy vz] in *. apply vec_eq; lra.
Qed.
Lemma sprod_add : forall u x y, sprod u (vadd x y) = sprod u x + sprod u y.
Proof. intros. unfold sprod; simpl; ring. Qed.
Lemma sprod_sub : forall u x y, sprod u (vsub x y) = sprod u x - sprod u y.
Proof. intros. unfold sprod; simpl; ring. Qed.
Lemma sprod_scale : forall u k x, sprod u (vscale k x) = k * sprod u x.
Proof. intros. unfold sprod; simpl; ring. Qed.
Lemma sprod_0 : forall u, sprod u v0 = 0.
Proof. intros. unfold sprod; simpl; ring. Qed.
Lemma sprod_sum : forall {A} u (f : A -> vec) l, sprod u (vsum f l) = rsumf (fun x => sprod u (f x)) l.
Proof. intros. apply sprod_vsum. Qed.
Lemma sprod_sumf : forall {A} u (f : A -> vec) l, sprod u (vsumf f l) = rsumf (fun x => sprod u (f x)) l.
Proof. intros. apply (sprod_vsum u). Qed.
Lemma sprod_if : forall u (t : bool) x, sprod u (if t then x else v0) = if t then sprod u x else 0.
Proof. intros u [] x; auto. apply sprod_0. Qed.
Lemma rsumf_minus : forall {A} (f g : A -> R) l, rsumf (fun x => f x - g x) l = rsumf f l - rsumf g l.
Proof. intros. rewrite (rsumf_ext _ (fun x => f x + -1 * g x)) by (intros; ring). rewrite rsumf_plus, rsumf_scale. ring. Qed.
Lemma rsumf_if : forall {A} (t : bool) (f : A -> R) l, rsumf (fun x => if t then f x else 0) l = if t then rsumf f l else 0.
Proof. intros A [] f l; auto. apply rsumf_zero. auto. Qed.

Lemma fold_map : forall {A B S} (f : S -> B -> S) (g : A -> B) l s, fold_left f (map g l) s = fold_left (fun s x => f s (g x)) l s.
Proof. intros A B S f g l. induction l; intros s; simpl; auto. Qed.

(** the others of every element of a list *)
Lemma picks_map : forall {A B} (f : A -> B) l pre, picks (map f pre) (map f l) = map (fun p => (f (fst p), map f (snd p))) (picks pre l).
Proof.
  intros A B f l. induction l as [|x l IH]; intros pre; simpl; auto. rewrite <- map_app. f_equal. rewrite <- IH, map_app. auto.
Qed.
Lemma filter_all : forall {A} (f : A -> bool) l, (forall x, In x l -> f x = true) -> filter f l = l.
Proof. intros A f l. induction l as [|x l IH]; simpl; intros H; auto. rewrite H by auto. f_equal. apply IH. auto. Qed.
Lemma picks_others : forall l pre, NoDup (pre ++ l) ->
  picks pre l = map (fun v => (v, filter (fun w => negb (same v w)) (pre ++ l))) l.
Proof.
  intros l. induction l as [|x l IH]; intros pre N; simpl; auto. f_equal.
  - f_equal. rewrite filter_app. cbn [filter]. rewrite same_refl. cbn [negb].
    apply NoDup_remove_2 in N. rewrite in_app_iff in N.
    rewrite !filter_all; auto; intros y Y; rewrite same_neq; auto; intros ->; tauto.
  - rewrite IH by (rewrite <- app_assoc; exact N). rewrite <- app_assoc. auto.
Qed.

Section Full.
Variables (c : conf) (pos : nat -> vec) (b : box) (rcut : nat -> nat -> R) (ci : nat).
Hypothesis FG : full_geometry c pos b rcut.
Notation lo := (cnfstart c).
Notation hi := (cnfstart c + inconf c)%nat.
Notation sq' := (seq (cnfstart c) (inconf c)).
Notation ent i v := (entry pos (typ c) b i (fst v) (snd v)).

Section Terms.
Variables P P' bo bo' : nat -> nat -> R -> R.
Variables q q1 q2 qc : nat -> nat -> nat -> R -> R -> R -> R.
Notation Zt := (zeta c pos b q).
Notation GO L := (grad_own c pos b P P' bo bo' q q1 qc L).
Notation GX L := (grad_other c pos b P bo' q q2 qc L).
Notation GT L := (bo_grad c pos b P P' bo bo' q q1 q2 qc L).
Notation EN L := (bo_energy c pos b P bo q L).
Notation FO L := (bo_force c pos b P P' bo bo' q q1 q2 qc L).
Notation VI L := (bo_virial c pos b P P' bo bo' q q1 q2 qc L).

(** the order of the neighbours does not matter *)
Section Order.
Variables L M : nat -> list (nat * image).
Hypothesis PM : forall a, (lo <= a < hi)%nat -> Permutation (L a) (M a).
Lemma ord_others : forall a v (f : nat * image -> R), (lo <= a < hi)%nat -> rsumf f (others L a v) = rsumf f (others M a v).
Proof. intros a v f Ha. unfold others. rewrite !rsumf_filter. apply rsumf_perm. auto. Qed.
Lemma ord_vothers : forall a v (f : nat * image -> vec), (lo <= a < hi)%nat -> vsum f (others L a v) = vsum f (others M a v).
Proof. intros a v f Ha. unfold vsum. rewrite !(ord_others a v) by auto. auto. Qed.
Lemma ord_zeta : forall a v, (lo <= a < hi)%nat -> Zt L a v = Zt M a v.
Proof. intros. apply ord_others. auto. Qed.
Lemma ord_own : forall a v, (lo <= a < hi)%nat -> GO L a v = GO M a v.
Proof. intros. unfold grad_own. rewrite ord_zeta, ord_vothers by auto. auto. Qed.
Lemma ord_other : forall a v w, (lo <= a < hi)%nat -> GX L a v w = GX M a v w.
Proof. intros. unfold grad_other. rewrite ord_zeta by auto. auto. Qed.
Lemma ord_grad : forall a v, (lo <= a < hi)%nat -> GT L a v = GT M a v.
Proof.
  intros. unfold bo_grad. rewrite ord_own, ord_vothers by auto. f_equal. apply by_sprod. intros u. rewrite !sprod_sum. apply rsumf_ext. intros. rewrite ord_other by auto. auto.
Qed.
Lemma ord_energy : EN L = EN M.
Proof.
  unfold bo_energy. apply rsumf_ext. intros a Ha. apply in_seq in Ha. rewrite (rsumf_perm _ _ _ (PM a ltac:(lia))). apply rsumf_ext. intros v _.
  unfold bo_bond. rewrite ord_zeta by lia. auto.
Qed.
Lemma ord_force : forall a, (lo <= a < hi)%nat -> FO L a = FO M a.
Proof.
  intros a Ha. apply by_sprod. intros u. unfold bo_force. rewrite !sprod_sub, !sprod_sum. f_equal.
  - rewrite (rsumf_perm _ _ _ (PM a Ha)). apply rsumf_ext. intros v _. rewrite ord_grad by auto. auto.
  - apply rsumf_ext. intros i Hi. apply in_seq in Hi. rewrite !sprod_sum, (rsumf_perm _ _ _ (PM i ltac:(lia))). apply rsumf_ext. intros v _. rewrite ord_grad by lia. auto.
Qed.
Lemma ord_virial : forall k, VI L k = VI M k.
Proof.
  intros k. unfold bo_virial. f_equal. apply rsumf_ext. intros i Hi. apply in_seq in Hi. rewrite (rsumf_perm _ _ _ (PM i ltac:(lia))). apply rsumf_ext. intros v _.
  rewrite ord_grad by lia. auto.
Qed.
End Order.

(** ** The loop over the bonds of an atom *)
Variable B : nat -> list (nat * image).
Hypothesis NB : forall i, (lo <= i < hi)%nat -> nb c i = map (fun v => ent i v) (B i).
Hypothesis HB : forall a, (lo <= a < hi)%nat -> all_neighbors c pos b rcut a (B a).
Variable son : bool.
Variable body : nat -> dev -> neigh * list neigh -> dev.
Definition oF (i : nat) (v : nat * image) (a : nat) : vec :=
  vsub (vsub (if Nat.eqb a i then vadd (GO B i v) (vsum (GX B i v) (others B i v)) else v0) (if Nat.eqb (fst v) a then GO B i v else v0))
       (vsum (fun w => if Nat.eqb (fst w) a then GX B i v w else v0) (others B i v)).
Definition oS (i : nat) (v : nat * image) (k : nat) : R :=
  - (stress_of (dvec pos b i v) (GO B i v) k + rsumf (fun w => stress_of (dvec pos b i w) (GX B i v w) k) (others B i v)).
Hypothesis BB : forall i v, (lo <= i < hi)%nat -> In v (B i) ->
  adds ci (fun s => body i s (ent i v, map (fun w => ent i w) (others B i v))) (oF i v)
    (bo_bond c pos b P bo q B i v) (fun k => if (Nat.ltb k 6 && son)%bool then oS i v k else 0).
Lemma bonds_adds : forall i, (lo <= i < hi)%nat -> adds ci (fun s => fold_left (body i) (picks [] (nb c i)) s)
  (fun a => vsumf (fun v => oF i v a) (B i)) (rsumf (bo_bond c pos b P bo q B i) (B i))
  (fun k => if (Nat.ltb k 6 && son)%bool then rsumf (fun v => oS i v k) (B i) else 0).
Proof.
  intros i Hi. rewrite (NB i Hi). change (@nil neigh) with (map (fun v => ent i v) []). rewrite picks_map, picks_others by apply (HB i Hi).
  rewrite map_map. cbn [fst snd app].
  pose proof (adds_fold ci (fun s v => body i s (ent i v, map (fun w => ent i w) (others B i v))) _ _ _ (B i) (fun v Hv => BB i v Hi Hv)) as A.
  apply (adds_ext ci _ _ _ _ _ _ _ _ A); auto.
  - intros s. rewrite fold_map. auto.
  - intros k. cbv beta. rewrite rsumf_if. auto.
Qed.
Lemma force_scalar : forall (g : nat -> nat * image -> R) (o : nat -> nat * image -> nat * image -> R) a, (lo <= a < hi)%nat ->
  rsumf (fun i => rsumf (fun v => (if Nat.eqb a i then g i v + rsumf (o i v) (others B i v) else 0) - (if Nat.eqb (fst v) a then g i v else 0)
      - rsumf (fun w => if Nat.eqb (fst w) a then o i v w else 0) (others B i v)) (B i)) sq' =
  rsumf (fun v => g a v + rsumf (fun w => o a w v) (others B a v)) (B a) -
  rsumf (fun i => rsumf (fun v => if Nat.eqb (fst v) a then g i v + rsumf (fun w => o i w v) (others B i v) else 0) (B i)) sq'.
Proof.
  intros g o a Ha.
  pose (X := fun i => rsumf (fun v => g i v + rsumf (fun w => o i w v) (others B i v)) (B i)).
  transitivity (rsumf (fun i => (if Nat.eqb i a then X i else 0) - rsumf (fun v => if Nat.eqb (fst v) a then g i v + rsumf (fun w => o i w v) (others B i v) else 0) (B i)) sq').
  - apply rsumf_ext. intros i _. rewrite !rsumf_minus, rsumf_if, rsumf_plus, (Nat.eqb_sym i a). unfold X. rewrite rsumf_plus, (others_swap B (o i) i).
    rewrite <- (others_swap B (fun v w => if Nat.eqb (fst w) a then o i v w else 0) i).
    rewrite (rsumf_ext (fun v => if Nat.eqb (fst v) a then g i v + rsumf (fun w => o i w v) (others B i v) else 0)
      (fun v => (if Nat.eqb (fst v) a then g i v else 0) + rsumf (fun w => if Nat.eqb (fst v) a then o i w v else 0) (others B i v)))
      by (intros v _; rewrite rsumf_if; destruct (Nat.eqb (fst v) a); ring).
    rewrite rsumf_plus. ring.
  - rewrite rsumf_minus, (pick X); [auto|apply seq_NoDup|apply in_seq; lia].
Qed.
Lemma oF_sum : forall a, (lo <= a < hi)%nat -> vsumf (fun i => vsumf (fun v => oF i v a) (B i)) sq' = FO B a.
Proof.
  intros a Ha. apply by_sprod. intros u. unfold bo_force. rewrite sprod_sub, sprod_sumf, !sprod_sum.
  pose proof (force_scalar (fun i v => sprod u (GO B i v)) (fun i v w => sprod u (GX B i v w)) a Ha) as Q.
  etransitivity; [etransitivity; [|exact Q]|f_equal].
  - apply rsumf_ext. intros i _. rewrite sprod_sumf. apply rsumf_ext. intros v _. unfold oF. rewrite !sprod_sub, !sprod_if, sprod_add, !sprod_sum. f_equal.
    apply rsumf_ext. intros w _. apply sprod_if.
  - apply rsumf_ext. intros v _. unfold bo_grad. rewrite sprod_add, sprod_sum. auto.
  - apply rsumf_ext. intros i _. rewrite sprod_sum. apply rsumf_ext. intros v _. rewrite sprod_if. unfold bo_grad. rewrite sprod_add, sprod_sum. auto.
Qed.
Lemma oF_out : forall a, ~ (lo <= a < hi)%nat -> vsumf (fun i => vsumf (fun v => oF i v a) (B i)) sq' = v0.
Proof.
  intros a Ha. apply vsumf_zero. intros i Hi. apply in_seq in Hi. apply vsumf_zero. intros v Hv. unfold oF.
  assert (IN : forall w, In w (B i) -> fst w <> a). { intros [j m] W E. apply (HB i ltac:(lia)) in W. simpl in E. lia. }
  apply by_sprod. intros u. rewrite !sprod_sub, !sprod_if, !sprod_sum, sprod_0.
  destruct (Nat.eqb_spec a i); [lia|]. destruct (Nat.eqb_spec (fst v) a) as [E|_]; [exfalso; apply (IN v); auto|].
  rewrite rsumf_zero; [ring|]. intros w W. rewrite sprod_if. apply filter_In in W. destruct (Nat.eqb_spec (fst w) a) as [E|]; auto. exfalso. apply (IN w); tauto.
Qed.
Lemma stress_add : forall d x y k, stress_of d (vadd x y) k = stress_of d x k + stress_of d y k.
Proof. intros d x y k. unfold stress_of. destruct k as [|[|[|[|[|]]]]]; simpl; ring. Qed.
Lemma stress_sum : forall {A} d (f : A -> vec) l k, stress_of d (vsum f l) k = rsumf (fun x => stress_of d (f x) k) l.
Proof.
  intros A d f l k. induction l as [|x l IH].
  - change (vsum f []) with v0. apply stress_v0.
  - change (vsum f (x :: l)) with (vadd (f x) (vsum f l)). rewrite stress_add, IH, rsumf_cons. auto.
Qed.
Lemma oS_sum : forall k, rsumf (fun i => rsumf (fun v => oS i v k) (B i)) sq' = VI B k.
Proof.
  intros k. unfold bo_virial, oS.
  rewrite (rsumf_ext _ (fun i => -1 * rsumf (fun v => stress_of (dvec pos b i v) (GT B i v) k) (B i))); [rewrite rsumf_scale; ring|].
  intros i _. rewrite <- rsumf_scale.
  rewrite (rsumf_ext _ (fun v => -1 * stress_of (dvec pos b i v) (GO B i v) k + -1 * rsumf (fun w => stress_of (dvec pos b i w) (GX B i v w) k) (others B i v)))
    by (intros; ring).
  unfold bo_grad.
  rewrite (rsumf_ext (fun v => -1 * stress_of _ (vadd _ _) k) (fun v => -1 * stress_of (dvec pos b i v) (GO B i v) k + -1 * rsumf (fun w => stress_of (dvec pos b i v) (GX B i w v) k) (others B i v)))
    by (intros; rewrite stress_add, stress_sum; ring).
  rewrite !rsumf_plus, !rsumf_scale. f_equal. f_equal.
  symmetry. apply (others_swap B (fun v w => stress_of (dvec pos b i w) (GX B i v w) k) i).
Qed.

(** ** With a pair part *)
Variable L : nat -> list (nat * image).
Hypothesis HL : forall a, (lo <= a < hi)%nat -> all_neighbors c pos b rcut a (L a).
Lemma BLP : forall a, (lo <= a < hi)%nat -> Permutation (B a) (L a).
Proof. exact (BL c pos b rcut L HL B HB). Qed.
Variables phi dphi : nat -> nat -> R -> R.
Variable in_range : nat -> nat -> R -> bool.
Hypothesis DS : forall s t r, dphi s t r = dphi t s r.
Hypothesis IS : forall s t r, in_range s t r = in_range t s r.
Variables (ws : R) (pon : bool).
Variable pbody : nat -> dev -> neigh -> dev.
Hypothesis PB : forall i v, (lo <= i < hi)%nat -> In v (B i) -> adds ci (fun s => pbody i s (ent i v))
  (fun a => if (Nat.eqb a i && pon)%bool then vscale (wself ws i v) (bond_force c pos b dphi in_range i v) else v0)
  (1/2 * (wself ws i v * bond_energy c pos b phi in_range i v))
  (fun k => if (Nat.ltb k 6 && son && pon)%bool then - (1/2 * (wself ws i v * stress_of (dvec pos b i v) (bond_force c pos b dphi in_range i v) k)) else 0).
Theorem bond_order_adds : adds ci (for_up lo hi (fun i s => fold_left (body i) (picks [] (nb c i)) (fold_left (pbody i) (nb c i) s)))
  (fun a => if inside c a then vadd (if pon then pair_force c pos b dphi in_range L a else v0) (FO L a) else v0)
  (pair_energy c pos b phi in_range L - (1 - ws) * self_energy c pos b L phi in_range + EN L)
  (fun k => if (Nat.ltb k 6 && son)%bool then
     (if pon then pair_virial c pos b dphi in_range L k - (1 - ws) * self_virial c pos b L dphi in_range k else 0) + VI L k else 0).
Proof.
  pose proof (fun i Hi => adds_comp ci _ _ _ _ _ _ _ _ (pair_adds c pos b rcut ci FG L HL B NB HB phi dphi in_range DS IS ws pon son pbody PB i Hi) (bonds_adds i Hi)) as A.
  apply (adds_ext ci _ _ _ _ _ _ _ _ (adds_up ci _ _ _ _ lo (inconf c) A)); auto.
  - intros a. apply by_sprod. intros u. rewrite sprod_sumf, sprod_if, sprod_add, sprod_if.
    rewrite (rsumf_ext _ (fun i => (if Nat.eqb i a then (if pon then sprod u (pair_force c pos b dphi in_range L i) else 0) else 0) + sprod u (vsumf (fun v => oF i v a) (B i)))).
    + rewrite rsumf_plus, <- sprod_sumf. destruct (inside c a) eqn:I.
      * apply inside_true in I. rewrite pick, oF_sum, (ord_force B L BLP a I); auto; [apply seq_NoDup|apply in_seq; lia].
      * rewrite oF_out, rsumf_zero, sprod_0; [ring| |intros H; apply inside_true in H; congruence].
        intros i Hi. apply in_seq in Hi. destruct (Nat.eqb_spec i a) as [E|]; auto. rewrite E in Hi. assert (inside c a = true) by (apply inside_true; lia). congruence.
    + intros i _. rewrite sprod_add. f_equal. rewrite sprod_if, (Nat.eqb_sym i a). destruct (Nat.eqb a i), pon; auto.
  - rewrite rsumf_plus. change (rsumf (fun i => rsumf (bo_bond c pos b P bo q B i) (B i)) sq') with (EN B). rewrite (ord_energy B L BLP). f_equal. unfold pair_energy, self_energy.
    rewrite rsumf_scale.
    rewrite (rsumf_ext _ (fun i => rsumf (bond_energy c pos b phi in_range i) (L i) + (-(1 - ws)) * rsumf (fun v => if Nat.eqb (fst v) i then bond_energy c pos b phi in_range i v else 0) (L i))) by (intros; ring).
    rewrite rsumf_plus, rsumf_scale. ring.
  - intros k. rewrite rsumf_plus. destruct (Nat.ltb k 6), son; cbn [andb]; try (rewrite !rsumf_zero by auto; ring).
    f_equal; [|rewrite oS_sum; apply (ord_virial B L BLP)].
    destruct pon; [|apply rsumf_zero; auto]. unfold pair_virial, self_virial.
    rewrite (rsumf_ext _ (fun i => (-(1/2)) * rsumf (fun v => stress_of (dvec pos b i v) (bond_force c pos b dphi in_range i v) k) (L i) +
      (1/2 * (1 - ws)) * rsumf (fun v => if Nat.eqb (fst v) i then stress_of (dvec pos b i v) (bond_force c pos b dphi in_range i v) k else 0) (L i))) by (intros; ring).
    rewrite rsumf_plus, !rsumf_scale. ring.
Qed.
(** forces sum to zero *)
Theorem bo_newton : vsum (FO L) sq' = v0.
Proof.
  apply by_sprod. intros u. rewrite sprod_sum, sprod_0.
  apply (zero_sum c pos b rcut L HL _ (fun a => rsumf (fun i => rsumf (fun v => if Nat.eqb (fst v) a then sprod u (GT L i v) else 0) (L i)) sq') (fun a v => sprod u (GT L a v))); auto.
  intros a. unfold bo_force. rewrite sprod_sub, !sprod_sum. f_equal. apply rsumf_ext. intros i _. rewrite sprod_sum. apply rsumf_ext. intros v _. apply sprod_if.
Qed.
End Terms.
End Full.
