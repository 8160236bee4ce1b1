(** Full lists: what the loops over neighbours and pairs of neighbours add, in terms of the
    textbook sums. *)
From Coq Require Import Reals ZArith List Bool Lia Lra Permutation.
From Verif Require Import Vec NbrModel NbrProof NbrProof2 LoopUtil PairModel PairProof PairSpec PairProof2 ThreeSpec ThreeProof AddProof.
Import ListNotations.
Local Open Scope R_scope.

Lemma if_scale : forall (x : bool) (w y : R), (if x then w * y else 0) = w * (if x then y else 0).
Proof. intros [] w y; ring. Qed.

Section Full.
Variables (c : conf) (pos : nat -> vec) (b : box) (rcut : nat -> nat -> R) (ci : nat).
Hypothesis FG : full_geometry c pos b rcut.
Notation lo := (cnfstart c).
Notation hi := (cnfstart c + inconf c)%nat.
Notation ent i v := (entry pos (typ c) b i (fst v) (snd v)).
Variable L : nat -> list (nat * image).
Hypothesis HL : forall a, (lo <= a < hi)%nat -> all_neighbors c pos b rcut a (L a).
Variable B : nat -> list (nat * image).
Hypothesis NB : forall i, (lo <= i < hi)%nat -> nb c i = map (fun v => ent i v) (B i).
Hypothesis HB : forall a, (lo <= a < hi)%nat -> all_neighbors c pos b rcut a (B a).
Notation PM := (BL c pos b rcut L HL B HB).
Definition inside (a : nat) : bool := (Nat.leb lo a && Nat.ltb a hi)%bool.
Lemma inside_true : forall a, inside a = true <-> (lo <= a < hi)%nat.
Proof. intros a. unfold inside. rewrite andb_true_iff, Nat.leb_le, Nat.ltb_lt. tauto. Qed.
Lemma nbr_inside : forall i v, (lo <= i < hi)%nat -> In v (B i) -> (lo <= fst v < hi)%nat.
Proof. intros i [j m] Hi Hv. apply (HB i Hi) in Hv. simpl. tauto. Qed.

(** ** Pairs: self images with weight [ws] *)
Section Pairs.
Variables phi dphi : nat -> nat -> R -> R.
Variable in_range : nat -> nat -> R -> bool.
Hypothesis DS : forall s t r, dphi s t r = dphi t s r.
Hypothesis IS : forall s t r, in_range s t r = in_range t s r.
Variables (ws : R) (fon son : bool).
Notation be := (bond_energy c pos b phi in_range).
Notation bf := (bond_force c pos b dphi in_range).
Definition wself (i : nat) (v : nat * image) : R := if Nat.eqb (fst v) i then ws else 1.
Variable body : nat -> dev -> neigh -> dev.
Hypothesis PB : forall i v, (lo <= i < hi)%nat -> In v (B i) -> adds ci (fun s => body i s (ent i v))
  (fun a => if (Nat.eqb a i && fon)%bool then vscale (wself i v) (bf i v) else v0)
  (1/2 * (wself i v * be i v))
  (fun k => if (Nat.ltb k 6 && son && fon)%bool then - (1/2 * (wself i v * stress_of (dvec pos b i v) (bf i v) k)) else 0).
(** energy and virial of the bonds of atoms with their own images *)
Definition self_energy : R := 1/2 * rsumf (fun a => rsumf (fun v => if Nat.eqb (fst v) a then be a v else 0) (L a)) (seq lo (inconf c)).
Definition self_virial (k : nat) : R :=
  - (1/2 * rsumf (fun a => rsumf (fun v => if Nat.eqb (fst v) a then stress_of (dvec pos b a v) (bf a v) k else 0) (L a)) (seq lo (inconf c))).

Lemma wsum : forall (g : nat -> nat * image -> R) i, (lo <= i < hi)%nat ->
  rsumf (fun v => wself i v * g i v) (B i) = rsumf (g i) (L i) - (1 - ws) * rsumf (fun v => if Nat.eqb (fst v) i then g i v else 0) (L i).
Proof.
  intros g i Hi. rewrite (rsumf_perm _ _ _ (PM i Hi)).
  transitivity (rsumf (fun v => g i v + (-(1 - ws)) * (if Nat.eqb (fst v) i then g i v else 0)) (L i)).
  - apply rsumf_ext. intros v _. unfold wself. destruct (Nat.eqb (fst v) i); ring.
  - rewrite rsumf_plus, rsumf_scale. ring.
Qed.
Lemma bf_odd : forall a m, bf a (a, neg m) = vscale (-1) (bf a (a, m)).
Proof. intros a m. rewrite (bf_sym dphi in_range DS IS c pos b a a m). vring. Qed.
Lemma wforce : forall i, (lo <= i < hi)%nat -> vsumf (fun v => vscale (wself i v) (bf i v)) (B i) = pair_force c pos b dphi in_range L i.
Proof.
  intros i Hi. apply vec_eq; unfold pair_force; simpl.
  - rewrite (wsum (fun i v => vx (bf i v)) i Hi), (self_cancel c pos b rcut FG L HL (fun v => vx (bf i v)) i Hi); [ring|]. intros m. rewrite bf_odd. simpl. ring.
  - rewrite (wsum (fun i v => vy (bf i v)) i Hi), (self_cancel c pos b rcut FG L HL (fun v => vy (bf i v)) i Hi); [ring|]. intros m. rewrite bf_odd. simpl. ring.
  - rewrite (wsum (fun i v => vz (bf i v)) i Hi), (self_cancel c pos b rcut FG L HL (fun v => vz (bf i v)) i Hi); [ring|]. intros m. rewrite bf_odd. simpl. ring.
Qed.
Theorem pair_adds : forall i, (lo <= i < hi)%nat -> adds ci (fun s => fold_left (body i) (nb c i) s)
  (fun a => if (Nat.eqb a i && fon)%bool then pair_force c pos b dphi in_range L i else v0)
  (1/2 * (rsumf (be i) (L i) - (1 - ws) * rsumf (fun v => if Nat.eqb (fst v) i then be i v else 0) (L i)))
  (fun k => if (Nat.ltb k 6 && son && fon)%bool then
     - (1/2 * (rsumf (fun v => stress_of (dvec pos b i v) (bf i v) k) (L i) -
          (1 - ws) * rsumf (fun v => if Nat.eqb (fst v) i then stress_of (dvec pos b i v) (bf i v) k else 0) (L i))) else 0).
Proof.
  intros i Hi. rewrite (NB i Hi).
  pose proof (adds_fold ci (fun s v => body i s (ent i v)) _ _ _ (B i) (fun v Hv => PB i v Hi Hv)) as A.
  apply (adds_ext ci _ _ _ _ _ _ _ _ A).
  - intros s. generalize (B i) s. clear. intros l. induction l as [|v l IH]; intros s; simpl; auto.
  - intros a. destruct (Nat.eqb a i && fon)%bool.
    + apply wforce. auto.
    + apply vsumf_zero. auto.
  - rewrite rsumf_scale, wsum by auto. auto.
  - intros k. destruct (Nat.ltb k 6 && son && fon)%bool.
    + transitivity (rsumf (fun v => (-(1/2)) * (wself i v * stress_of (dvec pos b i v) (bf i v) k)) (B i)); [apply rsumf_ext; intros; ring|].
      rewrite rsumf_scale, (wsum (fun i v => stress_of (dvec pos b i v) (bf i v) k)) by auto. ring.
    + apply rsumf_zero. auto.
Qed.
End Pairs.

(** ** Pairs of neighbours *)
Section Tri.
Variables h h1 hc : nat -> nat -> nat -> R -> R -> R -> R.
Hypothesis HS : forall i v w, at_ c pos b h i v w = at_ c pos b h i w v.
Variables fon son : bool.
Notation T := (tri_grad c pos b h1 hc).
Variable body : nat -> dev -> neigh * neigh -> dev.
Hypothesis TB : forall i v w, (lo <= i < hi)%nat -> In v (B i) -> In w (B i) -> adds ci (fun s => body i s (ent i v, ent i w))
  (fun a => if fon then vsub (vsub (if Nat.eqb a i then vadd (T i v w) (T i w v) else v0) (if Nat.eqb (fst v) a then T i v w else v0)) (if Nat.eqb (fst w) a then T i w v else v0) else v0)
  (at_ c pos b h i v w)
  (fun k => if (Nat.ltb k 6 && son && fon)%bool then - (stress_of (dvec pos b i v) (T i v w) k + stress_of (dvec pos b i w) (T i w v) k) else 0).
Definition tF (i a : nat) : vec :=
  vsumf (fun p => vsub (vsub (if Nat.eqb a i then vadd (T i (fst p) (snd p)) (T i (snd p) (fst p)) else v0)
    (if Nat.eqb (fst (fst p)) a then T i (fst p) (snd p) else v0)) (if Nat.eqb (fst (snd p)) a then T i (snd p) (fst p) else v0)) (pairs (B i)).
Definition tE (i : nat) : R := rsumf (fun p => at_ c pos b h i (fst p) (snd p)) (pairs (B i)).
Definition tS (i k : nat) : R :=
  rsumf (fun p => - (stress_of (dvec pos b i (fst p)) (T i (fst p) (snd p)) k + stress_of (dvec pos b i (snd p)) (T i (snd p) (fst p)) k)) (pairs (B i)).
Theorem tri_adds : forall i, (lo <= i < hi)%nat -> adds ci (fun s => fold_left (body i) (pairs (nb c i)) s)
  (fun a => if fon then tF i a else v0) (tE i) (fun k => if (Nat.ltb k 6 && son && fon)%bool then tS i k else 0).
Proof.
  intros i Hi. rewrite (NB i Hi), pairs_map.
  assert (A := adds_fold ci (fun s p => body i s (ent i (fst p), ent i (snd p))) _ _ _ (pairs (B i))
    (fun p Hp => TB i (fst p) (snd p) Hi (proj1 (pairs_in _ _ Hp)) (proj2 (pairs_in _ _ Hp)))).
  apply (adds_ext ci _ _ _ _ _ _ _ _ A).
  - intros s. generalize (pairs (B i)) s. clear. intros l. induction l as [|v l IH]; intros s; simpl; auto.
  - intros a. destruct fon; [auto|]. apply vsumf_zero. auto.
  - auto.
  - intros k. destruct (Nat.ltb k 6 && son && fon)%bool; [auto|]. apply rsumf_zero. auto.
Qed.
Lemma tF_sum : forall a, (lo <= a < hi)%nat -> vsumf (fun i => tF i a) (seq lo (inconf c)) = three_force c pos b h1 hc L a.
Proof.
  intros a Ha. unfold tF, three_force. apply vec_eq; simpl.
  - transitivity (rsumf (fun i => rsumf (fun p => (if Nat.eqb a i then vx (T i (fst p) (snd p)) + vx (T i (snd p) (fst p)) else 0)
       - (if Nat.eqb (fst (fst p)) a then vx (T i (fst p) (snd p)) else 0) - (if Nat.eqb (fst (snd p)) a then vx (T i (snd p) (fst p)) else 0)) (pairs (B i))) (seq lo (inconf c))).
    + apply rsumf_ext. intros i _. apply rsumf_ext. intros p _. destruct (Nat.eqb a i), (Nat.eqb (fst (fst p)) a), (Nat.eqb (fst (snd p)) a); reflexivity.
    + rewrite (tri_scalar c pos b rcut L HL B HB (fun i v w => vx (T i v w)) a Ha). f_equal. apply rsumf_ext. intros i _. apply rsumf_ext. intros v _. destruct (Nat.eqb (fst v) a); reflexivity.
  - transitivity (rsumf (fun i => rsumf (fun p => (if Nat.eqb a i then vy (T i (fst p) (snd p)) + vy (T i (snd p) (fst p)) else 0)
       - (if Nat.eqb (fst (fst p)) a then vy (T i (fst p) (snd p)) else 0) - (if Nat.eqb (fst (snd p)) a then vy (T i (snd p) (fst p)) else 0)) (pairs (B i))) (seq lo (inconf c))).
    + apply rsumf_ext. intros i _. apply rsumf_ext. intros p _. destruct (Nat.eqb a i), (Nat.eqb (fst (fst p)) a), (Nat.eqb (fst (snd p)) a); reflexivity.
    + rewrite (tri_scalar c pos b rcut L HL B HB (fun i v w => vy (T i v w)) a Ha). f_equal. apply rsumf_ext. intros i _. apply rsumf_ext. intros v _. destruct (Nat.eqb (fst v) a); reflexivity.
  - transitivity (rsumf (fun i => rsumf (fun p => (if Nat.eqb a i then vz (T i (fst p) (snd p)) + vz (T i (snd p) (fst p)) else 0)
       - (if Nat.eqb (fst (fst p)) a then vz (T i (fst p) (snd p)) else 0) - (if Nat.eqb (fst (snd p)) a then vz (T i (snd p) (fst p)) else 0)) (pairs (B i))) (seq lo (inconf c))).
    + apply rsumf_ext. intros i _. apply rsumf_ext. intros p _. destruct (Nat.eqb a i), (Nat.eqb (fst (fst p)) a), (Nat.eqb (fst (snd p)) a); reflexivity.
    + rewrite (tri_scalar c pos b rcut L HL B HB (fun i v w => vz (T i v w)) a Ha). f_equal. apply rsumf_ext. intros i _. apply rsumf_ext. intros v _. destruct (Nat.eqb (fst v) a); reflexivity.
Qed.
Lemma tF_out : forall a, ~ (lo <= a < hi)%nat -> vsumf (fun i => tF i a) (seq lo (inconf c)) = v0.
Proof.
  intros a Ha. apply vsumf_zero. intros i Hi. apply in_seq in Hi. apply vsumf_zero. intros p Hp. apply pairs_in in Hp. destruct Hp as [H1 H2].
  apply nbr_inside in H1, H2; try lia.
  destruct (Nat.eqb_spec a i), (Nat.eqb_spec (fst (fst p)) a), (Nat.eqb_spec (fst (snd p)) a); try lia. vring.
Qed.
Lemma tE_sum : rsumf tE (seq lo (inconf c)) = three_energy c pos b h L.
Proof.
  unfold tE, three_energy.
  transitivity (rsumf (fun i => rsumf (fun p => 1/2 * at_ c pos b h i (fst p) (snd p) + 1/2 * at_ c pos b h i (snd p) (fst p)) (pairs (B i))) (seq lo (inconf c))).
  - apply rsumf_ext. intros i _. apply rsumf_ext. intros p _. rewrite (HS i (snd p) (fst p)). field.
  - rewrite (tri_sum c pos b rcut L HL B HB (fun i v w => 1/2 * at_ c pos b h i v w)). apply rsumf_ext. intros i _. rewrite <- rsumf_scale. apply rsumf_ext. intros v _. apply rsumf_scale.
Qed.
Lemma tS_sum : forall k, rsumf (fun i => tS i k) (seq lo (inconf c)) = three_virial c pos b h1 hc L k.
Proof.
  intros k. unfold tS, three_virial.
  transitivity (rsumf (fun i => rsumf (fun p => -1 * stress_of (dvec pos b i (fst p)) (T i (fst p) (snd p)) k + -1 * stress_of (dvec pos b i (snd p)) (T i (snd p) (fst p)) k) (pairs (B i))) (seq lo (inconf c))).
  - apply rsumf_ext. intros i _. apply rsumf_ext. intros p _. ring.
  - rewrite (tri_sum c pos b rcut L HL B HB (fun i v w => -1 * stress_of (dvec pos b i v) (T i v w) k)).
    replace (- rsumf (fun a => rsumf (fun v => rsumf (fun w => stress_of (dvec pos b a v) (T a v w) k) (others L a v)) (L a)) (seq lo (inconf c)))
      with (-1 * rsumf (fun a => rsumf (fun v => rsumf (fun w => stress_of (dvec pos b a v) (T a v w) k) (others L a v)) (L a)) (seq lo (inconf c))) by ring.
    rewrite <- rsumf_scale. apply rsumf_ext. intros i _. rewrite <- rsumf_scale. apply rsumf_ext. intros v _. apply rsumf_scale.
Qed.
End Tri.

(** ** Both *)
Section Both.
Variables phi dphi : nat -> nat -> R -> R.
Variable in_range : nat -> nat -> R -> bool.
Hypothesis DS : forall s t r, dphi s t r = dphi t s r.
Hypothesis IS : forall s t r, in_range s t r = in_range t s r.
Variables (ws : R) (pon ton son : bool).
Variable pbody : nat -> dev -> neigh -> dev.
Hypothesis PB : forall i v, (lo <= i < hi)%nat -> In v (B i) -> adds ci (fun s => pbody i s (ent i v))
  (fun a => if (Nat.eqb a i && pon)%bool then vscale (wself ws i v) (bond_force c pos b dphi in_range i v) else v0)
  (1/2 * (wself ws i v * bond_energy c pos b phi in_range i v))
  (fun k => if (Nat.ltb k 6 && son && pon)%bool then - (1/2 * (wself ws i v * stress_of (dvec pos b i v) (bond_force c pos b dphi in_range i v) k)) else 0).
Variables h h1 hc : nat -> nat -> nat -> R -> R -> R -> R.
Hypothesis HS : forall i v w, at_ c pos b h i v w = at_ c pos b h i w v.
Notation T := (tri_grad c pos b h1 hc).
Variable atom : nat -> dev -> dev.
Variable tbody : nat -> dev -> neigh * neigh -> dev.
Hypothesis TB : forall i v w, (lo <= i < hi)%nat -> In v (B i) -> In w (B i) -> adds ci (fun s => tbody i s (ent i v, ent i w))
  (fun a => if ton then vsub (vsub (if Nat.eqb a i then vadd (T i v w) (T i w v) else v0) (if Nat.eqb (fst v) a then T i v w else v0)) (if Nat.eqb (fst w) a then T i w v else v0) else v0)
  (at_ c pos b h i v w)
  (fun k => if (Nat.ltb k 6 && son && ton)%bool then - (stress_of (dvec pos b i v) (T i v w) k + stress_of (dvec pos b i w) (T i w v) k) else 0).
Hypothesis ATOM : forall i, (lo <= i < hi)%nat -> forall F E S,
  adds ci (fun s => fold_left (tbody i) (pairs (nb c i)) (fold_left (pbody i) (nb c i) s)) F E S -> adds ci (atom i) F E S.

Theorem both_adds : adds ci (for_up lo hi atom)
  (fun a => if inside a then vadd (if pon then pair_force c pos b dphi in_range L a else v0) (if ton then three_force c pos b h1 hc L a else v0) else v0)
  (pair_energy c pos b phi in_range L - (1 - ws) * self_energy phi in_range + three_energy c pos b h L)
  (fun k => if (Nat.ltb k 6 && son)%bool then
     (if pon then pair_virial c pos b dphi in_range L k - (1 - ws) * self_virial dphi in_range k else 0) + (if ton then three_virial c pos b h1 hc L k else 0) else 0).
Proof.
  pose proof (fun i Hi => ATOM i Hi _ _ _ (adds_comp ci _ _ _ _ _ _ _ _ (pair_adds phi dphi in_range DS IS ws pon son pbody PB i Hi)
    (tri_adds h h1 hc ton son tbody TB i Hi))) as A.
  apply (adds_ext ci _ _ _ _ _ _ _ _ (adds_up ci atom _ _ _ lo (inconf c) A)); auto.
  - intros a.
    transitivity (vadd (if inside a then (if pon then pair_force c pos b dphi in_range L a else v0) else v0)
      (if ton then vsumf (fun i => tF h1 hc i a) (seq lo (inconf c)) else v0)).
    + assert (Q : forall (x : nat -> R) (y : nat -> R), (if pon then rsumf (fun i => if Nat.eqb i a then x i else 0) (seq lo (inconf c)) else 0) + (if ton then rsumf y (seq lo (inconf c)) else 0) =
        (if inside a then (if pon then x a else 0) else 0) + (if ton then rsumf y (seq lo (inconf c)) else 0)).
      { intros x y. f_equal. destruct pon; [|destruct (inside a); auto]. destruct (inside a) eqn:I.
        - apply inside_true in I. apply pick; [apply seq_NoDup|apply in_seq; lia].
        - apply rsumf_zero. intros i Hi. apply in_seq in Hi. destruct (Nat.eqb_spec i a) as [->|]; auto.
          assert (inside a = true) by (apply inside_true; lia). congruence. }
      apply vec_eq; cbn [vsumf vadd vx vy vz].
      * rewrite (rsumf_plus (fun i => vx (if (Nat.eqb a i && pon)%bool then _ i else v0)) (fun i => vx (if ton then tF h1 hc i a else v0))).
        pose proof (Q (fun i => vx (pair_force c pos b dphi in_range L i)) (fun i => vx (tF h1 hc i a))) as Q1.
        etransitivity; [|etransitivity; [exact Q1|]].
        -- f_equal.
           ++ destruct pon; [apply rsumf_ext; intros i _; rewrite (Nat.eqb_sym i a); destruct (Nat.eqb a i); auto|]. apply rsumf_zero. intros i _. rewrite andb_false_r. auto.
           ++ destruct ton; [auto|]. apply rsumf_zero. auto.
        -- f_equal; [destruct (inside a), pon; auto|destruct ton; auto].
      * rewrite (rsumf_plus (fun i => vy (if (Nat.eqb a i && pon)%bool then _ i else v0)) (fun i => vy (if ton then tF h1 hc i a else v0))).
        pose proof (Q (fun i => vy (pair_force c pos b dphi in_range L i)) (fun i => vy (tF h1 hc i a))) as Q1.
        etransitivity; [|etransitivity; [exact Q1|]].
        -- f_equal.
           ++ destruct pon; [apply rsumf_ext; intros i _; rewrite (Nat.eqb_sym i a); destruct (Nat.eqb a i); auto|]. apply rsumf_zero. intros i _. rewrite andb_false_r. auto.
           ++ destruct ton; [auto|]. apply rsumf_zero. auto.
        -- f_equal; [destruct (inside a), pon; auto|destruct ton; auto].
      * rewrite (rsumf_plus (fun i => vz (if (Nat.eqb a i && pon)%bool then _ i else v0)) (fun i => vz (if ton then tF h1 hc i a else v0))).
        pose proof (Q (fun i => vz (pair_force c pos b dphi in_range L i)) (fun i => vz (tF h1 hc i a))) as Q1.
        etransitivity; [|etransitivity; [exact Q1|]].
        -- f_equal.
           ++ destruct pon; [apply rsumf_ext; intros i _; rewrite (Nat.eqb_sym i a); destruct (Nat.eqb a i); auto|]. apply rsumf_zero. intros i _. rewrite andb_false_r. auto.
           ++ destruct ton; [auto|]. apply rsumf_zero. auto.
        -- f_equal; [destruct (inside a), pon; auto|destruct ton; auto].
    + destruct (inside a) eqn:I.
      * apply inside_true in I. rewrite tF_sum by auto. auto.
      * rewrite tF_out; [destruct ton; vring|]. intros H. apply inside_true in H. congruence.
  - rewrite rsumf_plus, (tE_sum h HS). f_equal. unfold pair_energy, self_energy. rewrite rsumf_scale.
    rewrite (rsumf_ext _ (fun i => rsumf (bond_energy c pos b phi in_range i) (L i) + (-(1 - ws)) * rsumf (fun v => if Nat.eqb (fst v) i then bond_energy c pos b phi in_range i v else 0) (L i))) by (intros; ring).
    rewrite rsumf_plus, rsumf_scale. ring.
  - intros k. rewrite rsumf_plus. destruct (Nat.ltb k 6), son; cbn [andb]; try (rewrite !rsumf_zero by auto; ring).
    f_equal.
    + destruct pon; [|apply rsumf_zero; auto]. unfold pair_virial, self_virial.
      rewrite (rsumf_ext _ (fun i => (-(1/2)) * rsumf (fun v => stress_of (dvec pos b i v) (bond_force c pos b dphi in_range i v) k) (L i) +
        (1/2 * (1 - ws)) * rsumf (fun v => if Nat.eqb (fst v) i then stress_of (dvec pos b i v) (bond_force c pos b dphi in_range i v) k else 0) (L i))) by (intros; ring).
      rewrite rsumf_plus, !rsumf_scale. ring.
    + destruct ton; [apply tS_sum|apply rsumf_zero; auto].
Qed.
End Both.
End Full.
