(** Sums over pairs of neighbours in full lists. *)
From Coq Require Import Reals ZArith List Bool Lia Lra Permutation.
From Verif Require Import Vec NbrModel NbrProof NbrProof2 LoopUtil PairModel PairProof PairSpec PairProof2 ThreeSpec.
Import ListNotations.
Local Open Scope R_scope.

Lemma same_spec : forall v w, same v w = true <-> v = w.
Proof.
  intros [j [[x y] z]] [j' [[x' y'] z']]. unfold same. rewrite !andb_true_iff, Nat.eqb_eq, !Z.eqb_eq.
  split; [intros [[[-> ->] ->] ->]; auto|]. intros E. injection E. auto.
Qed.
Lemma same_refl : forall v, same v v = true.
Proof. intros. apply same_spec. auto. Qed.
Lemma same_neq : forall v w, v <> w -> same v w = false.
Proof. intros v w N. destruct (same v w) eqn:E; auto. apply same_spec in E. contradiction. Qed.

(** the pairs of a list, the first before the second *)
Fixpoint pairs {A} (l : list A) : list (A * A) :=
  match l with [] => [] | x :: r => map (pair x) r ++ pairs r end.
Lemma pairs_map : forall {A B} (f : A -> B) l, pairs (map f l) = map (fun p => (f (fst p), f (snd p))) (pairs l).
Proof. intros A B f l. induction l; simpl; auto. rewrite map_app, IHl, !map_map. auto. Qed.
Lemma pairs_in : forall {A} (l : list A) p, In p (pairs l) -> In (fst p) l /\ In (snd p) l.
Proof.
  intros A l p. induction l as [|x l IH]; simpl; [tauto|]. rewrite in_app_iff, in_map_iff. intros [(y & <- & Y)|H]; simpl; auto. destruct (IH H). auto.
Qed.
(** loops over the pairs *)
Lemma fold_pairs : forall {A S} (t : A -> bool) (body : A -> S -> A -> S) (loop : list A -> S -> S),
  (forall s, loop [] s = s) -> (forall x r s, loop (x :: r) s = loop r (if t x then fold_left (body x) r s else s)) ->
  forall l s, loop l s = fold_left (fun s p => if t (fst p) then body (fst p) s (snd p) else s) (pairs l) s.
Proof.
  intros A S t body loop L0 LC l. induction l as [|x r IH]; intros s; [apply L0|].
  rewrite LC, IH. simpl. rewrite fold_left_app. f_equal.
  assert (G : forall r s, (if t x then fold_left (body x) r s else s) = fold_left (fun s p => if t (fst p) then body (fst p) s (snd p) else s) (map (pair x) r) s).
  { clear. intros r. induction r as [|y r IH]; intros s; simpl; [destruct (t x); auto|]. rewrite <- IH. destruct (t x); auto. }
  apply G.
Qed.

Lemma rsumf_ext_id : forall {A} (f g : A -> R) l, (forall x, f x = g x) -> rsumf f l = rsumf g l.
Proof. intros. apply rsumf_ext. auto. Qed.
Lemma pairs_sum : forall (g : nat * image -> nat * image -> R) l, NoDup l ->
  rsumf (fun p => g (fst p) (snd p) + g (snd p) (fst p)) (pairs l) =
  rsumf (fun v => rsumf (g v) (filter (fun w => negb (same v w)) l)) l.
Proof.
  intros g l N. induction N as [|x r NI N IH]; [reflexivity|].
  cbn [pairs]. rewrite rsumf_app, rsumf_map, IH. cbn [fst snd]. rewrite rsumf_plus, rsumf_cons. cbn [filter]. rewrite same_refl. cbn [negb].
  rewrite (rsumf_ext (fun v => rsumf (g v) (if negb (same v x) then x :: filter (fun w => negb (same v w)) r else filter (fun w => negb (same v w)) r))
    (fun v => g v x + rsumf (g v) (filter (fun w => negb (same v w)) r))).
  - rewrite rsumf_plus. replace (filter (fun w => negb (same x w)) r) with r; [ring|].
    symmetry. clear - NI. induction r as [|y r IH]; auto. simpl. rewrite same_neq by (intros ->; apply NI; left; auto). cbn [negb]. f_equal. apply IH. intros I. apply NI. right. auto.
  - intros v Hv. rewrite same_neq by (intros ->; contradiction). cbn [negb]. rewrite rsumf_cons. auto.
Qed.
Lemma others_perm : forall (g : nat * image -> nat * image -> R) l m, Permutation l m ->
  rsumf (fun v => rsumf (g v) (filter (fun w => negb (same v w)) l)) l = rsumf (fun v => rsumf (g v) (filter (fun w => negb (same v w)) m)) m.
Proof.
  intros g l m P. rewrite (rsumf_perm _ _ _ P). apply rsumf_ext. intros v _. rewrite !rsumf_filter. apply rsumf_perm. auto.
Qed.

(** ** Full lists *)
Definition with_nb (c : conf) (f : nat -> list neigh) : conf :=
  mk_conf (cnfstart c) (inconf c) (uf c) (us c) (conf_weight c) (conf_vol c) f (typ c) (contrib c) (absforce c) (force_0 c) (energy_0 c) (stress_0 c).
Section Full.
Variables (c : conf) (pos : nat -> vec) (b : box) (rcut : nat -> nat -> R).
Hypothesis FG : full_geometry c pos b rcut.
Notation lo := (cnfstart c).
Notation hi := (cnfstart c + inconf c)%nat.
Notation ent i v := (entry pos (typ c) b i (fst v) (snd v)).

(** the same structure with half lists *)
Lemma half_exists : exists f, geometry (with_nb c f) pos b rcut.
Proof.
  destruct (fg_box _ _ _ _ FG) as (t & rm & scale & MB & R0 & IB & RM & NB).
  exists (fun i => match init_neighbors lo (inconf c) pos (typ c) b rcut scale false i with Neighbors l => l | _ => [] end).
  constructor; cbn [with_nb cnfstart inconf conf_vol typ nb]; [|apply (fg_cell _ _ _ _ FG)|apply (fg_sym _ _ _ _ FG)].
  exists t, rm, scale. split; [auto|]. split; [auto|]. split; [auto|]. split; [auto|]. intros i Hi.
  pose proof (init_neighbors_spec lo (inconf c) pos (typ c) b rcut scale false i) as H. cbv zeta in H.
  pose proof (init_neighbors_spec lo (inconf c) pos (typ c) b rcut scale true i) as G. cbv zeta in G. rewrite (NB i Hi) in G. destruct G as [_ G].
  destruct (init_neighbors lo (inconf c) pos (typ c) b rcut scale false i); auto; try contradiction.
  destruct H as (j & m & J & W & O). exfalso. apply (G j m); auto. simpl in *. lia.
Qed.
Lemma nb_full : exists B, 
  (forall i, (lo <= i < hi)%nat -> nb c i = map (fun v => ent i v) (B i)) /\
  (forall a, (lo <= a < hi)%nat -> all_neighbors c pos b rcut a (B a)) /\
  forall a v, (lo <= a < hi)%nat -> In v (B a) -> dvec pos b a v <> v0.
Proof.
  destruct (fg_box _ _ _ _ FG) as (t & rm & scale & MB & R0 & IB & RM & NB).
  exists (all_bonds lo (inconf c) pos (typ c) b rcut scale).
  destruct half_exists as (f & GEO).
  assert (AN : forall a, (lo <= a < hi)%nat -> all_neighbors c pos b rcut a (all_bonds lo (inconf c) pos (typ c) b rcut scale a)).
  { intros a Ha. split.
    + apply NoDup_filter, visits_nodup.
    + intros j m. unfold all_bonds. rewrite filter_In, visits_in, bondb_true. split; [tauto|]. intros [J Q]. split; [split; [auto|]|auto].
      apply (scale_suffices pos b scale t (conf_vol c) rm a j m); auto; [apply (fg_cell _ _ _ _ FG); auto|apply (fg_cell _ _ _ _ FG); auto|].
      destruct Q as [_ Q]. eapply Rle_trans; [exact Q|apply RM]. }
  split; [|split; [exact AN|]].
  - intros i Hi. pose proof (init_neighbors_spec lo (inconf c) pos (typ c) b rcut scale true i) as H. cbv zeta in H. rewrite (NB i Hi) in H. apply H.
  - intros a [j m] Ha Hv D. pose proof (init_neighbors_spec lo (inconf c) pos (typ c) b rcut scale true a) as H. cbv zeta in H. rewrite (NB a Ha) in H. destruct H as [_ NO].
    unfold all_bonds in Hv. apply filter_In in Hv. destruct Hv as [V Q]. apply visits_in in V. apply bondb_true in Q. apply (NO j m); [simpl; tauto|tauto|]. split; [apply Q|auto].
Qed.

Lemma ent_r : forall i v, n_r (ent i v) = dist pos b i v.
Proof. intros i [j m]. unfold entry, dist, dvec. simpl. rewrite shift_displacement. auto. Qed.
Lemma dist_pos : forall i v, dvec pos b i v <> v0 -> 0 < dist pos b i v.
Proof.
  intros i v D. unfold dist. pose proof (norm_nonneg (dvec pos b i v)) as N. pose proof (proj1 (norm_0 (dvec pos b i v))) as Z.
  destruct N as [N|N]; auto. symmetry in N. tauto.
Qed.
Lemma ent_dist_r : forall i v, dvec pos b i v <> v0 -> n_dist_r (ent i v) = vscale (/ dist pos b i v) (dvec pos b i v).
Proof.
  intros i [j m] D. pose proof (dist_pos i (j, m) D). unfold entry, dist, dvec in *. cbn [n_dist_r fst snd] in *. rewrite shift_displacement.
  unfold unscale. apply vec_eq; simpl; field; lra.
Qed.
Lemma ent_dist : forall i v, dvec pos b i v <> v0 -> n_dist (ent i v) = dvec pos b i v.
Proof.
  intros i [j m] D. pose proof (dist_pos i (j, m) D). unfold entry, dist, dvec in *. cbn [n_dist fst snd] in *. rewrite shift_displacement.
  unfold unscale. apply vec_eq; simpl; field; lra.
Qed.
Lemma ent_cos : forall i v w, dvec pos b i v <> v0 -> dvec pos b i w <> v0 ->
  sprod (n_dist_r (ent i v)) (n_dist_r (ent i w)) = cosine pos b i v w.
Proof.
  intros i v w D1 D2. rewrite (ent_dist_r i v D1), (ent_dist_r i w D2). pose proof (dist_pos i v D1). pose proof (dist_pos i w D2).
  unfold cosine, sprod, vscale; simpl. field. lra.
Qed.

(** ** Sums over the full lists *)
Variable L : nat -> list (nat * image).
Hypothesis HL : forall a, (lo <= a < hi)%nat -> all_neighbors c pos b rcut a (L a).
Section Sums.
Variable B : nat -> list (nat * image).
Hypothesis HB : forall a, (lo <= a < hi)%nat -> all_neighbors c pos b rcut a (B a).
Lemma BL : forall a, (lo <= a < hi)%nat -> Permutation (B a) (L a).
Proof. intros a Ha. destruct (HB a Ha) as [N1 H1], (HL a Ha) as [N2 H2]. apply NoDup_Permutation; auto. intros [j m]. rewrite H1, H2. tauto. Qed.

Lemma tri_scalar : forall (t : nat -> nat * image -> nat * image -> R) a, (lo <= a < hi)%nat ->
  rsumf (fun i => rsumf (fun p => (if Nat.eqb a i then t i (fst p) (snd p) + t i (snd p) (fst p) else 0)
       - (if Nat.eqb (fst (fst p)) a then t i (fst p) (snd p) else 0) - (if Nat.eqb (fst (snd p)) a then t i (snd p) (fst p) else 0)) (pairs (B i))) (seq lo (inconf c)) =
  rsumf (fun v => rsumf (t a v) (others L a v)) (L a) -
  rsumf (fun i => rsumf (fun v => if Nat.eqb (fst v) a then rsumf (t i v) (others L i v) else 0) (L i)) (seq lo (inconf c)).
Proof.
  intros t a Ha.
  transitivity (rsumf (fun i => (if Nat.eqb i a then rsumf (fun v => rsumf (t i v) (others L i v)) (L i) else 0) +
    (-1) * rsumf (fun v => if Nat.eqb (fst v) a then rsumf (t i v) (others L i v) else 0) (L i)) (seq lo (inconf c))).
  - apply rsumf_ext. intros i Hi. apply in_seq in Hi. rewrite (Nat.eqb_sym i a).
    pose (g := fun v w => (if Nat.eqb a i then t i v w else 0) - (if Nat.eqb (fst v) a then t i v w else 0)).
    transitivity (rsumf (fun p => g (fst p) (snd p) + g (snd p) (fst p)) (pairs (B i))).
    { apply rsumf_ext. intros p _. unfold g. destruct (Nat.eqb a i), (Nat.eqb (fst (fst p)) a), (Nat.eqb (fst (snd p)) a); ring. }
    rewrite pairs_sum by (apply HB; lia). rewrite (others_perm g _ _ (BL i ltac:(lia))). fold (others L i).
    rewrite <- rsumf_scale.
    transitivity (rsumf (fun v => (if Nat.eqb a i then rsumf (t i v) (others L i v) else 0) + -1 * (if Nat.eqb (fst v) a then rsumf (t i v) (others L i v) else 0)) (L i)).
    + apply rsumf_ext. intros v _. unfold g, others. destruct (Nat.eqb a i), (Nat.eqb (fst v) a).
      * rewrite rsumf_zero; [ring|intros; ring].
      * rewrite (rsumf_ext _ (t i v)); [ring|intros; ring].
      * rewrite (rsumf_ext _ (fun x => -1 * t i v x)); [rewrite rsumf_scale; ring|intros; ring].
      * rewrite rsumf_zero; [ring|intros; ring].
    + rewrite rsumf_plus. destruct (Nat.eqb a i); auto. rewrite rsumf_zero by auto. auto.
  - rewrite rsumf_plus, rsumf_scale. rewrite (pick (fun i => rsumf (fun v => rsumf (t i v) (others L i v)) (L i))); [ring|apply seq_NoDup|apply in_seq; lia].
Qed.
Lemma tri_sum : forall (t : nat -> nat * image -> nat * image -> R),
  rsumf (fun i => rsumf (fun p => t i (fst p) (snd p) + t i (snd p) (fst p)) (pairs (B i))) (seq lo (inconf c)) =
  rsumf (fun i => rsumf (fun v => rsumf (t i v) (others L i v)) (L i)) (seq lo (inconf c)).
Proof.
  intros t. apply rsumf_ext. intros i Hi. apply in_seq in Hi. rewrite pairs_sum by (apply HB; lia). apply (others_perm (t i)), BL. lia.
Qed.
(** self images cancel in a sum of odd bond quantities *)
Lemma self_cancel : forall (G : nat * image -> R) a, (lo <= a < hi)%nat ->
  (forall m, G (a, neg m) = - G (a, m)) -> rsumf (fun v => if Nat.eqb (fst v) a then G v else 0) (L a) = 0.
Proof.
  intros G a Ha ODD. destruct half_exists as (f & GEO). destruct (nb_half _ pos b rcut GEO) as (scale & _ & AN). cbn [with_nb cnfstart inconf typ] in AN.
  assert (PM : Permutation (L a) (all_bonds lo (inconf c) pos (typ c) b rcut scale a)).
  { destruct (HL a Ha) as [N1 H1], (AN a Ha) as [N2 H2]. apply NoDup_Permutation; auto. intros [j m]. rewrite H1, H2. tauto. }
  rewrite (rsumf_perm _ _ _ PM).
  pose proof (reverse lo (inconf c) pos (typ c) b rcut scale (fg_sym _ _ _ _ FG) a (fun i v => if Nat.eqb i a then G v else 0) Ha) as H. cbv beta in H.
  assert (H2 : rsumf (fun v => if Nat.eqb (fst v) a then G (a, neg (snd v)) else 0) (all_bonds lo (inconf c) pos (typ c) b rcut scale a) =
    - rsumf (fun v => if Nat.eqb (fst v) a then G v else 0) (all_bonds lo (inconf c) pos (typ c) b rcut scale a)).
  { replace (- rsumf (fun v => if Nat.eqb (fst v) a then G v else 0) (all_bonds lo (inconf c) pos (typ c) b rcut scale a))
      with (-1 * rsumf (fun v => if Nat.eqb (fst v) a then G v else 0) (all_bonds lo (inconf c) pos (typ c) b rcut scale a)) by ring.
    rewrite <- rsumf_scale. apply rsumf_ext. intros [j m] _. cbn [fst snd]. destruct (Nat.eqb_spec j a) as [->|]; [rewrite ODD; ring|ring]. }
  rewrite H2 in H. clear H2.
  rewrite (rsumf_ext _ (fun k => if Nat.eqb k a then rsumf (fun v => if Nat.eqb (fst v) a then G v else 0) (all_bonds lo (inconf c) pos (typ c) b rcut scale k) else 0)) in H.
  - rewrite (pick (fun k => rsumf (fun v => if Nat.eqb (fst v) a then G v else 0) (all_bonds lo (inconf c) pos (typ c) b rcut scale k))) in H; [lra|apply seq_NoDup|apply in_seq; lia].
  - intros k _. destruct (Nat.eqb k a); auto. apply rsumf_zero. intros v _. destruct (Nat.eqb (fst v) a); auto.
Qed.
End Sums.
End Full.
