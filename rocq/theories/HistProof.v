(** Proofs for C164. *)
From Coq Require Import Reals ZArith List Bool Arith Lia Lra.
From Verif Require Import HistModel HistSpec.
Import ListNotations.
Local Open Scope R_scope.

Lemma x_up : forall e t i j, sound e t -> (t_first t <= i)%nat -> (i < j)%nat -> (j <= t_last t)%nat -> t_x t i < t_x t j.
Proof.
  intros e t i j S A B C. induction B as [|j B IH]; [apply (s_up e t S); lia|].
  apply Rlt_trans with (t_x t j); [apply IH; lia|apply (s_up e t S); lia].
Qed.
Lemma x_le : forall e t i j, sound e t -> (t_first t <= i)%nat -> (i <= j)%nat -> (j <= t_last t)%nat -> t_x t i <= t_x t j.
Proof. intros e t i j S A B C. destruct (Nat.eq_dec i j) as [<-|N]; [lra|]. left. apply (x_up e t); auto. lia. Qed.
Definition bin (t : table) (v : R) (i : nat) : Prop := (t_first t <= i < t_last t)%nat /\ t_x t i <= v < t_x t (S i).
Lemma bin_unique : forall e t v i j, sound e t -> bin t v i -> bin t v j -> i = j.
Proof.
  intros e t v i j S (A & B) (C & D). destruct (lt_eq_lt_dec i j) as [[H|H]|H]; [|exact H|].
  - pose proof (x_le e t (Datatypes.S i) j S ltac:(lia) ltac:(lia) ltac:(lia)). lra.
  - pose proof (x_le e t (Datatypes.S j) i S ltac:(lia) ltac:(lia) ltac:(lia)). lra.
Qed.

Lemma bisect_bin : forall x v fuel k l, (k < l)%nat -> (l - k <= fuel)%nat -> x k <= v < x l ->
  let j := bisect fuel x v k l in (k <= j < l)%nat /\ x j <= v < x (S j).
Proof.
  intros x v. induction fuel as [|fuel IH]; intros k l A B C; [lia|]. cbn [bisect]. cbv zeta.
  destruct (Nat.leb_spec (l - k) 1) as [D|D].
  - assert (l = S k) as -> by lia. split; [lia|exact C].
  - pose proof (Nat.div_mod (k + l) 2 ltac:(lia)) as M. pose proof (Nat.mod_upper_bound (k + l) 2 ltac:(lia)) as U.
    set (j := ((k + l) / 2)%nat) in *. destruct (Rlt_dec v (x j)) as [L|L].
    + destruct (IH k j ltac:(lia) ltac:(lia) ltac:(lra)) as (P & Q). split; [lia|exact Q].
    + destruct (IH j l ltac:(lia) ltac:(lia) ltac:(lra)) as (P & Q). split; [lia|exact Q].
Qed.

Lemma trunc_spec : forall x, 0 <= x -> INR (trunc x) <= x < INR (S (trunc x)).
Proof.
  intros x H. unfold trunc. destruct (base_Int_part x) as (A & B).
  assert (P : (0 <= Int_part x)%Z). { apply le_IZR. apply Rnot_lt_le. intro C. assert (Int_part x <= -1)%Z by (apply lt_IZR in C; lia). apply IZR_le in H0. lra. }
  rewrite S_INR, INR_IZR_INZ, Z2Nat.id by exact P. lra.
Qed.

Lemma eq_bin : forall t v, sound true t -> t_begin t <= v < t_end t ->
  bin t v (trunc ((v - t_begin t) * t_invstep t) + t_first t).
Proof.
  intros t v S H. destruct (s_step true t S eq_refl) as (P & X). pose proof (s_size true t S) as L.
  set (k := trunc ((v - t_begin t) * t_invstep t)).
  assert (I : 0 < / t_invstep t) by (apply Rinv_0_lt_compat; exact P).
  assert (Z : 0 <= (v - t_begin t) * t_invstep t) by (apply Rmult_le_pos; lra).
  destruct (trunc_spec _ Z) as (A & B). fold k in A, B.
  assert (A' : INR k * / t_invstep t <= v - t_begin t).
  { apply Rmult_le_reg_r with (t_invstep t); [exact P|]. rewrite Rmult_assoc, Rinv_l by lra. lra. }
  assert (B' : v - t_begin t < INR (1 + k) * / t_invstep t).
  { apply Rmult_lt_reg_r with (t_invstep t); [exact P|]. rewrite Rmult_assoc, Rinv_l by lra. rewrite Rmult_1_r. exact B. }
  assert (K : (k < t_last t - t_first t)%nat).
  { apply INR_lt. apply Rmult_lt_reg_r with (/ t_invstep t); [exact I|].
    pose proof (X (t_last t) ltac:(lia)) as E. rewrite (s_end true t S) in E. lra. }
  split; [lia|]. rewrite (X (k + t_first t)%nat), (X (Datatypes.S (k + t_first t))%nat) by lia.
  replace (k + t_first t - t_first t)%nat with k by lia. replace (Datatypes.S (k + t_first t) - t_first t)%nat with (1 + k)%nat by lia. lra.
Qed.

Section H.
Variables eqdist rescale eam : bool.
Variable ntypes : nat.
Variable tab : nat -> table.

Lemma slot_bin : forall t v, sound eqdist t -> t_begin t <= v < t_end t -> exists k, slot eqdist t v = Some k /\ bin t v k.
Proof.
  intros t v S H. unfold slot. destruct eqdist eqn:E.
  - destruct (Rlt_dec (v - t_begin t) 0); [lra|]. eexists. split; [reflexivity|]. apply eq_bin; auto.
  - eexists. split; [reflexivity|]. unfold bisection. rewrite <- (s_begin _ t S), <- (s_end _ t S) in H. pose proof (s_size _ t S).
    apply (bisect_bin (t_x t) v); [lia|lia|exact H].
Qed.
Lemma embed_bin : forall t v, sound eqdist t -> t_begin t <= v < t_end t -> exists k, embed_slot eqdist rescale t v = Some k /\ bin t v k.
Proof.
  intros t v S H. unfold embed_slot. destruct eqdist eqn:E.
  - destruct rescale; (destruct (Rlt_dec (v - t_begin t) 0); [lra|]); (eexists; split; [reflexivity|]).
    + apply eq_bin; auto.
    + pose proof (eq_bin t v S H) as B. rewrite Nat.min_l; [exact B|]. destruct B. lia.
  - eexists. split; [reflexivity|]. unfold bisection. rewrite <- (s_begin _ t S), <- (s_end _ t S) in H. pose proof (s_size _ t S).
    apply (bisect_bin (t_x t) v); [lia|lia|exact H].
Qed.

Definition is_at (k : nat) (o : option nat) : bool := match o with Some i => (i =? k)%nat | None => false end.
Definition occ (k : nat) (l : list (option nat)) : nat := length (filter (is_at k) l).
Lemma occ_app : forall k a b, occ k (a ++ b) = (occ k a + occ k b)%nat.
Proof. intros. unfold occ. rewrite filter_app, app_length. reflexivity. Qed.
Lemma hits_app : forall c k a b, hits tab c k (a ++ b) = (hits tab c k a + hits tab c k b)%nat.
Proof. intros. unfold hits. rewrite filter_app, app_length. reflexivity. Qed.

Lemma count_occ_of : forall n l f0, (forall o, In o l -> exists k, o = Some k /\ (k < n)%nat) ->
  exists f, count n l f0 = Counted f /\ forall k, f k = (f0 k + occ k l)%nat.
Proof.
  intros n. induction l as [|o l IH]; intros f0 H; cbn [count].
  - exists f0. split; [reflexivity|]. intros k. cbn. lia.
  - destruct (H o (or_introl eq_refl)) as (k & -> & K). destruct (Nat.ltb_spec k n); [|lia].
    destruct (IH (fun i => if (i =? k)%nat then S (f0 i) else f0 i)) as (f & F & G); [intros o O; apply H; right; exact O|].
    exists f. split; [exact F|]. intros i. rewrite G. unfold occ. cbn [filter is_at]. rewrite (Nat.eqb_sym i k).
    destruct (k =? i)%nat; cbn [length]; lia.
Qed.

Variable ncols n : nat.
Hypothesis T : forall c, (c < ncols)%nat -> sound eqdist (tab c) /\ (t_last (tab c) < n)%nat.
Hypothesis D : forall c c', (c < c')%nat -> (c' < ncols)%nat -> (t_last (tab c) < t_first (tab c'))%nat.

Lemma same_column : forall c c' i, (c < ncols)%nat -> (c' < ncols)%nat ->
  (t_first (tab c) <= i < t_last (tab c))%nat -> (t_first (tab c') <= i < t_last (tab c'))%nat -> c' = c.
Proof.
  intros c c' i C C' A B. destruct (lt_eq_lt_dec c c') as [[H|H]|H]; [|auto|].
  - pose proof (D c c' H C'). lia.
  - pose proof (D c' c H C). lia.
Qed.
(** one argument that lies in the table *)
Lemma one_hit : forall c i c' v o, (c < ncols)%nat -> (t_first (tab c) <= i < t_last (tab c))%nat -> (c' < ncols)%nat ->
  (exists k, o = Some k /\ bin (tab c') v k) -> occ i [o] = hits tab c i [(c', v)].
Proof.
  intros c i c' v o C I C' (k & -> & B). unfold occ, hits. cbn [filter is_at]. unfold hit. cbn [fst snd].
  destruct (Nat.eqb_spec k i) as [->|N].
  - assert (c' = c) as -> by (apply (same_column c c' i); auto; apply B). destruct B as (_ & B).
    rewrite Nat.eqb_refl. destruct (Rle_dec (t_x (tab c) i) v); [|lra]. destruct (Rlt_dec v (t_x (tab c) (S i))); [|lra]. reflexivity.
  - destruct (Nat.eqb_spec c' c) as [->|M]; [|reflexivity]. destruct (Rle_dec (t_x (tab c) i) v); [|reflexivity].
    destruct (Rlt_dec v (t_x (tab c) (S i))); [|reflexivity]. exfalso. apply N. apply (bin_unique eqdist (tab c) v); [apply T; exact C|exact B|]. split; [exact I|lra].
Qed.
Lemma inside_hit : forall c i c' v, (c < ncols)%nat -> (t_first (tab c) <= i < t_last (tab c))%nat -> (c' < ncols)%nat ->
  t_begin (tab c') <= v -> occ i (if_inside eqdist (tab c') v) = hits tab c i [(c', v)].
Proof.
  intros c i c' v C I C' B. unfold if_inside. destruct (Rlt_dec v (t_end (tab c'))) as [L|L].
  - apply one_hit; auto. apply slot_bin; [apply T; exact C'|lra].
  - unfold occ, hits. cbn [filter]. unfold hit. cbn [fst snd]. destruct (Nat.eqb_spec c' c) as [->|M]; [|reflexivity].
    destruct (T c C) as (S & _). pose proof (x_le eqdist (tab c) (1 + i) (t_last (tab c)) S ltac:(lia) ltac:(lia) ltac:(lia)) as X. rewrite (s_end _ _ S) in X.
    destruct (Rlt_dec v (t_x (tab c) (Datatypes.S i))) as [Y|Y]; [cbn [plus] in X; lra|]. rewrite andb_false_r. reflexivity.
Qed.

Lemma hits_flat : forall {A} c i (f : A -> list (option nat)) g (l : list A), (forall a, In a l -> occ i (f a) = hits tab c i (g a)) ->
  occ i (flat_map f l) = hits tab c i (flat_map g l).
Proof.
  intros A c i f g. induction l as [|a l IH]; intros H; [reflexivity|]. cbn [flat_map]. rewrite occ_app, hits_app, (H a (or_introl eq_refl)), IH; [reflexivity|].
  intros b B. apply H. right. exact B.
Qed.
Lemma atom_hits : forall c i a, (c < ncols)%nat -> (t_first (tab c) <= i < t_last (tab c))%nat -> placed eam ntypes tab ncols a ->
  occ i (of_atom eqdist rescale eam ntypes tab a) = hits tab c i (arguments eam ntypes a).
Proof.
  intros c i a C I (P & Q). unfold of_atom, arguments. rewrite occ_app, hits_app. f_equal.
  - apply hits_flat. intros (typ, r) M. destruct (P typ r M) as (P1 & P2 & P3). unfold of_neighbor. cbn [fst snd].
    change ((pair_column ntypes (a_type a) typ, r) :: (if eam then [((paircol ntypes + typ)%nat, r)] else [])) with ([(pair_column ntypes (a_type a) typ, r)] ++ (if eam then [((paircol ntypes + typ)%nat, r)] else [])).
    rewrite occ_app, hits_app. f_equal; [apply inside_hit; auto|]. destruct eam; [|reflexivity]. destruct (P3 eq_refl). apply inside_hit; auto.
  - destruct eam; [|reflexivity]. destruct (Q eq_refl) as (Q1 & Q2). apply one_hit; auto. apply embed_bin; [apply T; exact Q1|exact Q2].
Qed.

Lemma inside_ok : forall c v o, (c < ncols)%nat -> t_begin (tab c) <= v -> In o (if_inside eqdist (tab c) v) -> exists k, o = Some k /\ (k < n)%nat.
Proof.
  intros c v o C B H. unfold if_inside in H. destruct (Rlt_dec v (t_end (tab c))) as [L|L]; [|contradiction]. destruct H as [<-|[]]. destruct (T c C) as (S & N).
  destruct (slot_bin (tab c) v S ltac:(lra)) as (k & -> & K & _). exists k. split; [reflexivity|lia].
Qed.
Lemma atom_ok : forall a o, placed eam ntypes tab ncols a -> In o (of_atom eqdist rescale eam ntypes tab a) -> exists k, o = Some k /\ (k < n)%nat.
Proof.
  intros a o (P & Q) H. unfold of_atom in H. apply in_app_or in H. destruct H as [H|H].
  - apply in_flat_map in H. destruct H as ((typ, r) & M & H). destruct (P typ r M) as (P1 & P2 & P3). unfold of_neighbor in H. cbn [fst snd] in H.
    apply in_app_or in H. destruct H as [H|H]; [exact (inside_ok _ _ _ P1 P2 H)|]. destruct eam; [|contradiction]. destruct (P3 eq_refl) as (P4 & P5). exact (inside_ok _ _ _ P4 P5 H).
  - destruct eam; [|contradiction]. destruct H as [<-|[]]. destruct (Q eq_refl) as (Q1 & Q2). destruct (T _ Q1) as (S & N).
    destruct (embed_bin _ _ S Q2) as (k & -> & K & _). exists k. split; [reflexivity|lia].
Qed.

Lemma histogram : forall atoms, (forall a, In a atoms -> placed eam ntypes tab ncols a) ->
  exists f, bindist eqdist rescale eam ntypes tab n atoms = Counted f /\
  forall c i, (c < ncols)%nat -> (t_first (tab c) <= i < t_last (tab c))%nat ->
    f i = hits tab c i (flat_map (arguments eam ntypes) atoms).
Proof.
  intros atoms P. unfold bindist. destruct (count_occ_of n (flat_map (of_atom eqdist rescale eam ntypes tab) atoms) (fun _ => 0%nat)) as (f & F & G).
  - intros o O. apply in_flat_map in O. destruct O as (a & A & O). exact (atom_ok a o (P a A) O).
  - exists f. split; [exact F|]. intros c i C I. rewrite G. cbn [plus]. apply hits_flat. intros a A. apply atom_hits; auto.
Qed.
End H.

Lemma trunc_ge : forall m x, INR m <= x -> (m <= trunc x)%nat.
Proof.
  intros m x H. destruct (trunc_spec x) as (_ & B); [pose proof (pos_INR m); lra|].
  assert (INR m < INR (S (trunc x))) as L by lra. apply INR_lt in L. lia.
Qed.
Lemma trunc_INR : forall m, trunc (INR m) = m.
Proof.
  intros m. destruct (trunc_spec (INR m) (pos_INR m)) as (A & B). apply INR_le in A. apply INR_lt in B. lia.
Qed.

Lemma beyond_end : forall t v, sound true t -> t_end t <= v -> embed_slot true false t v = Some (t_last t).
Proof.
  intros t v S H. destruct (s_step true t S eq_refl) as (P & X). pose proof (s_size true t S) as L.
  pose proof (X (t_last t) ltac:(lia)) as E. rewrite (s_end true t S) in E.
  assert (Q : INR (t_last t - t_first t) <= (v - t_begin t) * t_invstep t).
  { apply Rmult_le_reg_r with (/ t_invstep t); [apply Rinv_0_lt_compat; exact P|]. rewrite Rmult_assoc, Rinv_r by lra. lra. }
  unfold embed_slot. destruct (Rlt_dec (v - t_begin t) 0) as [N|N].
  - exfalso. pose proof (pos_INR (t_last t - t_first t)). assert ((v - t_begin t) * t_invstep t < 0) by nra.
    assert (t_begin t < t_end t); [|lra]. rewrite <- (s_begin true t S), <- (s_end true t S). apply (x_up true t); auto; lia.
  - apply trunc_ge in Q. rewrite Nat.min_r by lia. reflexivity.
Qed.
Lemma bisect_beyond : forall x v fuel k l, (k < l)%nat -> (l - k <= fuel)%nat -> (forall i, (k <= i < l)%nat -> x i <= v) -> bisect fuel x v k l = (l - 1)%nat.
Proof.
  intros x v. induction fuel as [|fuel IH]; intros k l A B C; [lia|]. cbn [bisect].
  destruct (Nat.leb_spec (l - k) 1) as [D|D]; [lia|].
  pose proof (Nat.div_mod (k + l) 2 ltac:(lia)) as M. pose proof (Nat.mod_upper_bound (k + l) 2 ltac:(lia)) as U. cbv zeta.
  set (j := ((k + l) / 2)%nat) in *. pose proof (C j ltac:(lia)). destruct (Rlt_dec v (x j)) as [L|L]; [lra|].
  apply IH; [lia|lia|]. intros i I. apply C. lia.
Qed.
Lemma beyond_end_4 : forall rs t v, sound false t -> t_end t <= v -> embed_slot false rs t v = Some (t_last t - 1)%nat.
Proof.
  intros rs t v S H. unfold embed_slot, bisection. f_equal. pose proof (s_size false t S). apply bisect_beyond; [lia|lia|].
  intros i I. apply Rle_trans with (t_x t (t_last t)); [apply (x_le false t); auto; lia|]. rewrite (s_end false t S). exact H.
Qed.
Lemma below_begin : forall t v, sound true t -> v < t_begin t ->
  embed_slot true false t v = Some (t_first t) /\ embed_slot true true t v = None.
Proof.
  intros t v S H. pose proof (s_size true t S). unfold embed_slot. destruct (Rlt_dec (v - t_begin t) 0); [|lra]. split; [|reflexivity].
  rewrite Rmult_0_l. change 0 with (INR 0). rewrite trunc_INR. rewrite Nat.min_l by lia. reflexivity.
Qed.

Lemma lines_nth : forall f t j, (j < t_last t - t_first t)%nat ->
  nth_error (lines f t) j = Some (1 / 2 * (t_x t (t_first t + j) + t_x t (S (t_first t + j))), f (t_first t + j)%nat).
Proof.
  intros f t j H. unfold lines. erewrite map_nth_error; [reflexivity|]. rewrite nth_error_nth' with (d := 0%nat) by (rewrite seq_length; exact H).
  rewrite seq_nth by exact H. reflexivity.
Qed.

(** tables of two points each: 0 and 1 *)
Definition tab2 (c : nat) : table := Table (2 * c) (2 * c + 1) 0 1 1 (fun i => INR (i - 2 * c)).
Lemma tab2_sound : forall e c, sound e (tab2 c).
Proof.
  intros e c. constructor; cbn [tab2 t_first t_last t_begin t_end t_invstep t_x].
  - lia.
  - rewrite Nat.sub_diag. reflexivity.
  - replace (2 * c + 1 - 2 * c)%nat with 1%nat by lia. reflexivity.
  - intros i H. apply lt_INR. lia.
  - intros _. split; [lra|]. intros i H. rewrite Rinv_1. lra.
Qed.
Lemma density_lost : exists f, bindist true false true 1 tab2 6 [Atom 0 1 []] = Counted f /\ f 5%nat = 1%nat /\
  forall c i, (c < 3)%nat -> (t_first (tab2 c) <= i < t_last (tab2 c))%nat -> f i = 0%nat.
Proof.
  unfold bindist, of_atom. cbn [flat_map a_neigh app a_type a_rho]. rewrite beyond_end; [|apply tab2_sound|cbn; lra].
  unfold paircol. cbn. eexists. split; [reflexivity|]. split; [reflexivity|]. intros c i C I. destruct (Nat.eqb_spec i 5); [|reflexivity]. exfalso.
  destruct c as [|[|[|c]]]; cbn in I; lia.
Qed.
Lemma rescale_out : bindist true true true 1 tab2 6 [Atom 0 2 []] = Undefined.
Proof.
  unfold bindist, of_atom. cbn [flat_map a_neigh app a_type a_rho]. unfold embed_slot.
  change (paircol 1 + 1 + 0)%nat with 2%nat. cbn [tab2 t_begin t_invstep t_first t_last].
  destruct (Rlt_dec (2 - 0) 0); [lra|]. replace ((2 - 0) * 1) with (INR 2) by (cbn; lra). rewrite trunc_INR. reflexivity.
Qed.
