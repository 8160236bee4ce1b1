From Coq Require Import String List Arith Bool ZArith Reals Lia.
From Verif Require Import BcModel BcSpec.
Import ListNotations.
Open Scope string_scope.

Lemma eqb_in : forall n l, existsb (String.eqb n) l = true <-> In n l.
Proof.
  intros n l. rewrite existsb_exists. split.
  - intros (x & I & E). apply String.eqb_eq in E. subst. exact I.
  - intros I. exists n. split; [exact I|apply String.eqb_refl].
Qed.

Lemma nth_error_firstn_lt : forall A (l : list A) n j, (j < n)%nat -> nth_error (firstn n l) j = nth_error l j.
Proof. intros A l. induction l as [|x l IH]; intros [|n] [|j] L; cbn; try reflexivity; try lia. apply IH. lia. Qed.
Lemma nth_error_skipn_add : forall A (l : list A) n j, nth_error (skipn n l) j = nth_error l (n + j).
Proof. intros A l. induction l as [|x l IH]; intros [|n] j; cbn [skipn Nat.add nth_error]; try reflexivity; [destruct j; reflexivity|]. apply IH. Qed.

Section Copy.
Variable byte : Type.

Lemma put_all : forall dt (src dst : mem byte) n k,
  fold_left (put_block byte src) dt dst n k = src n k \/ fold_left (put_block byte src) dt dst n k = dst n k.
Proof.
  intros dt. induction dt as [|blk dt IH]; intros src dst n k; cbn [fold_left]; [right; reflexivity|].
  destruct (IH src (put_block byte src dst blk) n k) as [E|E]; [left; exact E|]. rewrite E. unfold put_block.
  destruct (String.eqb n (fst blk) && (k <? snd blk)%nat); [left|right]; reflexivity.
Qed.

Lemma put_same : forall dt (src dst : mem byte) n k, dst n k = src n k -> fold_left (put_block byte src) dt dst n k = src n k.
Proof. intros dt src dst n k E. destruct (put_all dt src dst n k) as [H|H]; [exact H|]. rewrite H. exact E. Qed.

Lemma put_in : forall dt (src dst : mem byte) n s k, In (n, s) dt -> (k < s)%nat -> fold_left (put_block byte src) dt dst n k = src n k.
Proof.
  intros dt. induction dt as [|blk dt IH]; intros src dst n s k I L; [destruct I|]. cbn [fold_left]. destruct I as [E|I].
  - subst blk. apply put_same. unfold put_block. cbn [fst snd]. rewrite String.eqb_refl.
    replace (k <? s)%nat with true by (symmetry; apply Nat.ltb_lt; exact L). reflexivity.
  - exact (IH _ _ n s k I L).
Qed.

Lemma put_out : forall dt (src dst : mem byte) n k, ~ In n (map fst dt) -> fold_left (put_block byte src) dt dst n k = dst n k.
Proof.
  intros dt. induction dt as [|blk dt IH]; intros src dst n k N; cbn [fold_left]; [reflexivity|].
  rewrite IH by (intros I; apply N; right; exact I). unfold put_block. destruct (String.eqb n (fst blk)) eqn:E; [|reflexivity].
  exfalso. apply N. left. apply String.eqb_eq in E. symmetry. exact E.
Qed.

Definition cover (fs : list field) (dt : datatype) (skip : list string) : bool :=
  forallb (block_ok fs) dt &&
  forallb (fun f => existsb (String.eqb (f_name f)) skip || existsb (fun blk => String.eqb (fst blk) (f_name f) && (f_bytes f <=? snd blk)%nat) dt) fs &&
  forallb (fun n => negb (existsb (String.eqb n) (map fst dt))) skip.

Lemma cover_sound : forall fs dt skip, cover fs dt skip = true -> forall src dst : mem byte, exists m, bcast byte fs dt src dst = Some m /\
  agree byte fs skip m src /\ (forall n, In n skip -> forall k, m n k = dst n k).
Proof.
  intros fs dt skip C src dst. unfold cover in C. apply andb_true_iff in C. destruct C as [C C3]. apply andb_true_iff in C. destruct C as [C1 C2].
  unfold bcast. rewrite C1. eexists. refine (conj eq_refl (conj _ _)).
  - intros f If Nf k L. rewrite forallb_forall in C2. specialize (C2 f If). apply orb_true_iff in C2. destruct C2 as [C2|C2].
    + apply eqb_in in C2. contradiction.
    + apply existsb_exists in C2. destruct C2 as ([n s] & Ib & E). cbn [fst snd] in E. apply andb_true_iff in E. destruct E as [E1 E2].
      apply String.eqb_eq in E1. apply Nat.leb_le in E2. subst n. apply (put_in dt src dst _ s k Ib). lia.
  - intros n In_ k. apply put_out. rewrite forallb_forall in C3. specialize (C3 n In_). apply negb_true_iff in C3. intros I.
    apply eqb_in in I. rewrite I in C3. discriminate.
Qed.

Definition dt_neigh (b : build) : datatype := combine (neigh_addr b) (map (fun it => csize (snd it) * fst it)%nat (neigh_items b)).
Definition dt_angle (b : build) : datatype := combine (angle_addr b) (map (fun it => csize (snd it) * fst it)%nat (angle_items b)).
Definition dt_atom (b : build) : datatype := combine (atom_addr b) (map (fun it => csize (snd it) * fst it)%nat (atom_items b)).

Lemma create_neigh : forall b, create (neigh_items b) (neigh_addr b) = Ok (dt_neigh b).
Proof. intros [[] [] [] []]; vm_compute; reflexivity. Qed.
Lemma create_angle : forall b, create (angle_items b) (angle_addr b) = Ok (dt_angle b).
Proof. intros [[] [] [] []]; vm_compute; reflexivity. Qed.
Lemma create_atom : forall b, create (atom_items b) (atom_addr b) = Ok (dt_atom b).
Proof. intros [[] [] [] []]; vm_compute; reflexivity. Qed.
Lemma cover_neigh : forall b, cover (neigh_t b) (dt_neigh b) [] = true.
Proof. intros [[] [] [] []]; vm_compute; reflexivity. Qed.
Lemma cover_angle : forall b, cover (angle_t b) (dt_angle b) [] = true.
Proof. intros [[] [] [] []]; vm_compute; reflexivity. Qed.
Lemma cover_atom : forall b, cover (atom_t b) (dt_atom b) not_sent = true.
Proof. intros [[] [] [] []]; vm_compute; reflexivity. Qed.

Lemma types_sound : forall b, (exists dt, create (neigh_items b) (neigh_addr b) = Ok dt /\ transfers byte (neigh_t b) dt []) /\
  (exists dt, create (angle_items b) (angle_addr b) = Ok dt /\ transfers byte (angle_t b) dt []) /\
  (exists dt, create (atom_items b) (atom_addr b) = Ok dt /\ transfers byte (atom_t b) dt not_sent).
Proof.
  intros b. refine (conj _ (conj _ _)); eexists.
  - split; [apply create_neigh|]. intros src dst. apply cover_sound. apply cover_neigh.
  - split; [apply create_angle|]. intros src dst. apply cover_sound. apply cover_angle.
  - split; [apply create_atom|]. intros src dst. apply cover_sound. apply cover_atom.
Qed.

(** *** loops *)
Variable b : build.
Variable root : bool.
Variables first my : nat.
Variable zero : byte.

Lemma agree_refl : forall fs skip m, agree byte fs skip m m.
Proof. intros fs skip m f _ _ k _. reflexivity. Qed.

Lemma receive_ok : forall fs dt skip, cover fs dt skip = true -> forall src loc, exists m, receive byte root fs dt src loc = Some m /\ agree byte fs skip m src.
Proof.
  intros fs dt skip C src loc. unfold receive. destruct root; [exists src; split; [reflexivity|apply agree_refl]|].
  destruct (cover_sound fs dt skip C src loc) as (m & E & A & _). exists m. split; assumption.
Qed.

Lemma set_nth_length : forall A (l : list A) k x, length (set_nth l k x) = length l.
Proof. intros A l. induction l as [|y l IH]; intros [|k] x; cbn [set_nth length]; [reflexivity..|]. rewrite IH. reflexivity. Qed.
Lemma set_nth_eq : forall A (l : list A) k x, (k < length l)%nat -> nth_error (set_nth l k x) k = Some x.
Proof. intros A l. induction l as [|y l IH]; intros [|k] x L; cbn [set_nth length nth_error] in *; [lia|lia|reflexivity|]. apply IH. lia. Qed.
Lemma set_nth_ne : forall A (l : list A) k j x, j <> k -> nth_error (set_nth l k x) j = nth_error l j.
Proof. intros A l. induction l as [|y l IH]; intros [|k] [|j] x N; cbn [set_nth nth_error]; try reflexivity; [congruence|]. apply IH. congruence. Qed.

Lemma mine_iff : forall i, mine first my i = true <-> (first <= i < first + my)%nat.
Proof. intros i. unfold mine. rewrite andb_true_iff, Nat.leb_le, Nat.ltb_lt. tauto. Qed.

(** inner loop *)
Lemma bc_list_ok : forall fs dt, cover fs dt [] = true -> forall l j loc arr, length arr = (j + length l)%nat ->
  exists loc' arr', bc_list byte root fs dt true j l loc arr = Some (loc', arr') /\ length arr' = length arr /\
    (forall k, (k < j)%nat -> nth_error arr' k = nth_error arr k) /\
    (forall k x, nth_error l k = Some x -> exists y, nth_error arr' (j + k) = Some y /\ agree byte fs [] y x).
Proof.
  intros fs dt C l. induction l as [|x l IH]; intros j loc arr L; cbn [bc_list length] in *.
  - exists loc, arr. refine (conj eq_refl (conj eq_refl (conj (fun _ _ => eq_refl) _))). intros [|k] y E; discriminate.
  - destruct (receive_ok fs dt [] C x loc) as (m & E & A). rewrite E.
    destruct (IH (S j) m (set_nth arr j m)) as (loc' & arr' & E2 & L2 & K1 & K2); [rewrite set_nth_length; lia|].
    exists loc', arr'. rewrite set_nth_length in L2. refine (conj E2 (conj L2 (conj _ _))).
    + intros k Lk. rewrite K1 by lia. apply set_nth_ne. lia.
    + intros [|k] y Ey; cbn [nth_error] in Ey.
      * injection Ey as Ey. subst y. exists m. rewrite Nat.add_0_r. split; [|exact A]. rewrite K1 by lia. apply set_nth_eq. lia.
      * destruct (K2 k y Ey) as (z & Ez & Az). exists z. rewrite Nat.add_succ_r. split; assumption.
Qed.

Lemma bc_list_any : forall fs dt, cover fs dt [] = true -> forall l j loc arr, exists loc', bc_list byte root fs dt false j l loc arr = Some (loc', arr).
Proof.
  intros fs dt C l. induction l as [|x l IH]; intros j loc arr; cbn [bc_list]; [eexists; reflexivity|].
  destruct (receive_ok fs dt [] C x loc) as (m & E & _). rewrite E. apply IH.
Qed.

Lemma list_all : forall fs dt, cover fs dt [] = true -> forall l loc, exists loc' arr,
  bc_list byte root fs dt true 0 l loc (repeat (zeros byte zero) (length l)) = Some (loc', arr) /\ Forall2 (agree byte fs []) arr l.
Proof.
  intros fs dt C l loc. destruct (bc_list_ok fs dt C l 0 loc (repeat (zeros byte zero) (length l))) as (loc' & arr & E & L & _ & K); [rewrite repeat_length; reflexivity|].
  rewrite repeat_length in L. exists loc', arr. split; [exact E|]. cbn [Nat.add] in K. clear E. revert arr L K. induction l as [|x l IH]; intros [|y arr] L K; cbn [length] in L; try discriminate; constructor.
  - destruct (K 0%nat x eq_refl) as (z & Ez & A). cbn [nth_error] in Ez. injection Ez as Ez. subst z. exact A.
  - apply IH; [congruence|]. intros k z Ez. exact (K (S k) z Ez).
Qed.

(** atoms *)
Lemma atoms_loop : forall l i loc conf, length conf = my -> exists conf', bc_atoms byte b root first my (dt_atom b) i l loc conf = Some conf' /\ length conf' = my /\
  (forall j, (j < my)%nat -> (first + j < i)%nat -> nth_error conf' j = nth_error conf j) /\
  (forall j a, (j < my)%nat -> (i <= first + j)%nat -> nth_error l (first + j - i) = Some a ->
     exists c, nth_error conf' j = Some c /\ agree byte (atom_t b) not_sent (c_mem byte c) (a_mem byte a) /\ c_neigh byte c = None /\ c_angle byte c = None).
Proof.
  intros l. induction l as [|a l IH]; intros i loc conf L; cbn [bc_atoms].
  - exists conf. refine (conj eq_refl (conj L (conj (fun _ _ _ => eq_refl) _))). intros j a _ _ E. destruct (first + j - i)%nat; discriminate.
  - destruct (receive_ok _ _ _ (cover_atom b) (a_mem byte a) loc) as (m & E & A). rewrite E.
    set (conf1 := if mine first my i then set_nth conf (i - first) (mk_catom byte m None None) else conf).
    destruct (IH (S i) m conf1) as (conf' & E2 & L2 & K1 & K2); [unfold conf1; destruct (mine first my i); [rewrite set_nth_length|]; exact L|].
    exists conf'. refine (conj E2 (conj L2 (conj _ _))).
    + intros j Lj Hj. rewrite K1 by lia. unfold conf1. destruct (mine first my i); [|reflexivity]. apply set_nth_ne. lia.
    + intros j a' Lj Hj Ea. destruct (Nat.eq_dec (first + j) i) as [Eq|Ne].
      * replace (first + j - i)%nat with 0%nat in Ea by lia. cbn [nth_error] in Ea. injection Ea as Ea. subst a'.
        rewrite K1 by lia. unfold conf1. replace (mine first my i) with true by (symmetry; apply mine_iff; lia).
        replace (i - first)%nat with j by lia. exists (mk_catom byte m None None). rewrite set_nth_eq by lia. refine (conj eq_refl (conj A (conj eq_refl eq_refl))).
      * replace (first + j - i)%nat with (S (first + j - S i)) in Ea by lia. cbn [nth_error] in Ea. apply (K2 j a' Lj); [lia|exact Ea].
Qed.

Lemma upd_length : forall f conf k, length (upd_nth byte f conf k) = length conf.
Proof. intros f conf k. unfold upd_nth. destruct (nth_error conf k); [apply set_nth_length|reflexivity]. Qed.
Lemma upd_eq : forall f conf k c, nth_error conf k = Some c -> nth_error (upd_nth byte f conf k) k = Some (f c).
Proof. intros f conf k c E. unfold upd_nth. rewrite E. apply set_nth_eq. apply nth_error_Some. rewrite E. discriminate. Qed.
Lemma upd_ne : forall f conf k j, j <> k -> nth_error (upd_nth byte f conf k) j = nth_error conf j.
Proof. intros f conf k j N. unfold upd_nth. destruct (nth_error conf k); [apply set_nth_ne; exact N|reflexivity]. Qed.

(** neighbours *)
Lemma neigh_loop : forall l i loc conf, length conf = my -> exists conf', bc_neigh byte b root first my zero (dt_neigh b) i l loc conf = Some conf' /\ length conf' = my /\
  (forall j, (j < my)%nat -> (first + j < i)%nat -> nth_error conf' j = nth_error conf j) /\
  (forall j a c, (j < my)%nat -> (i <= first + j)%nat -> nth_error l (first + j - i) = Some a -> nth_error conf j = Some c ->
     exists c', nth_error conf' j = Some c' /\ c_mem byte c' = c_mem byte c /\ c_angle byte c' = c_angle byte c /\
       (a_neigh byte a <> [] -> exists arr, c_neigh byte c' = Some arr /\ Forall2 (agree byte (neigh_t b) []) arr (a_neigh byte a))).
Proof.
  intros l. induction l as [|a l IH]; intros i loc conf L; cbn [bc_neigh].
  - exists conf. refine (conj eq_refl (conj L (conj (fun _ _ _ => eq_refl) _))). intros j a c _ _ E. destruct (first + j - i)%nat; discriminate.
  - assert (X : exists loc' arr, bc_list byte root (neigh_t b) (dt_neigh b) (mine first my i) 0 (a_neigh byte a) loc (repeat (zeros byte zero) (length (a_neigh byte a))) = Some (loc', arr) /\
        (mine first my i = true -> Forall2 (agree byte (neigh_t b) []) arr (a_neigh byte a))).
    { destruct (mine first my i).
      - destruct (list_all _ _ (cover_neigh b) (a_neigh byte a) loc) as (loc' & arr & E & F). exists loc', arr. split; [exact E|]. intros _. exact F.
      - destruct (bc_list_any _ _ (cover_neigh b) (a_neigh byte a) 0 loc (repeat (zeros byte zero) (length (a_neigh byte a)))) as (loc' & E).
        eexists. eexists. split; [exact E|]. discriminate. }
    destruct X as (loc' & arr & E & F). rewrite E.
    set (conf1 := if (0 <? length (a_neigh byte a))%nat && mine first my i then upd_nth byte (upd_neigh byte arr) conf (i - first) else conf).
    destruct (IH (S i) loc' conf1) as (conf' & E2 & L2 & K1 & K2); [unfold conf1; destruct (_ && _); [rewrite upd_length|]; exact L|].
    exists conf'. refine (conj E2 (conj L2 (conj _ _))).
    + intros j Lj Hj. rewrite K1 by lia. unfold conf1. destruct (_ && mine first my i) eqn:M; [|reflexivity].
      apply andb_true_iff in M. destruct M as [_ M]. apply mine_iff in M. apply upd_ne. lia.
    + intros j a' c Lj Hj Ea Ec. destruct (Nat.eq_dec (first + j) i) as [Eq|Ne].
      * replace (first + j - i)%nat with 0%nat in Ea by lia. cbn [nth_error] in Ea. injection Ea as Ea. subst a'.
        rewrite K1 by lia. assert (M : mine first my i = true) by (apply mine_iff; lia). unfold conf1. rewrite M, andb_true_r.
        destruct (0 <? length (a_neigh byte a))%nat eqn:Z.
        -- replace (i - first)%nat with j by lia. exists (upd_neigh byte arr c). rewrite (upd_eq _ _ _ _ Ec). refine (conj eq_refl (conj eq_refl (conj eq_refl _))).
           intros _. exists arr. split; [reflexivity|]. exact (F M).
        -- exists c. refine (conj Ec (conj eq_refl (conj eq_refl _))). intros N. exfalso. apply N. apply Nat.ltb_ge in Z. destruct (a_neigh byte a); [reflexivity|cbn [length] in Z; lia].
      * replace (first + j - i)%nat with (S (first + j - S i)) in Ea by lia. cbn [nth_error] in Ea. apply (K2 j a' c Lj); [lia|exact Ea|].
        unfold conf1. destruct (_ && mine first my i) eqn:M; [|exact Ec]. apply andb_true_iff in M. destruct M as [_ M]. apply mine_iff in M. rewrite upd_ne by lia. exact Ec.
Qed.

(** angles *)
Lemma angle_loop : forall l i loc conf, length conf = my ->
  (dANG b = true \/ forall j a, (j < my)%nat -> (i <= first + j)%nat -> nth_error l (first + j - i) = Some a -> a_angle byte a <> []) ->
  exists conf', bc_angle byte b root first my zero (dt_angle b) i l loc conf = Ok conf' /\ length conf' = my /\
  (forall j, (j < my)%nat -> (first + j < i)%nat -> nth_error conf' j = nth_error conf j) /\
  (forall j a c, (j < my)%nat -> (i <= first + j)%nat -> nth_error l (first + j - i) = Some a -> nth_error conf j = Some c ->
     exists c', nth_error conf' j = Some c' /\ c_mem byte c' = c_mem byte c /\ c_neigh byte c' = c_neigh byte c /\
       (a_angle byte a <> [] -> exists arr, c_angle byte c' = Some arr /\ Forall2 (agree byte (angle_t b) []) arr (a_angle byte a))).
Proof.
  intros l. induction l as [|a l IH]; intros i loc conf L H; cbn [bc_angle].
  - exists conf. refine (conj eq_refl (conj L (conj (fun _ _ _ => eq_refl) _))). intros j a c _ _ E. destruct (first + j - i)%nat; discriminate.
  - assert (H' : dANG b = true \/ forall j a, (j < my)%nat -> (S i <= first + j)%nat -> nth_error l (first + j - S i) = Some a -> a_angle byte a <> []).
    { destruct H as [H|H]; [left; exact H|right]. intros j a' Lj Hj E. apply (H j a' Lj); [lia|]. replace (first + j - i)%nat with (S (first + j - S i)) by lia. exact E. }
    assert (S_ : forall j a', (i <= first + j)%nat -> (first + j)%nat <> i -> nth_error (a :: l) (first + j - i) = Some a' -> nth_error l (first + j - S i) = Some a').
    { intros j a' Hj Ne E. replace (first + j - i)%nat with (S (first + j - S i)) in E by lia. exact E. }
    assert (Z_ : forall j a', (first + j)%nat = i -> nth_error (a :: l) (first + j - i) = Some a' -> a' = a).
    { intros j a' Eq E. replace (first + j - i)%nat with 0%nat in E by lia. cbn [nth_error] in E. injection E as E. symmetry. exact E. }
    destruct (dANG b && (length (a_angle byte a) =? 0)%nat) eqn:G.
    + destruct (IH (S i) loc conf L H') as (conf' & E2 & L2 & K1 & K2). exists conf'. refine (conj E2 (conj L2 (conj _ _))).
      * intros j Lj Hj. apply K1; lia.
      * intros j a' c Lj Hj Ea Ec. destruct (Nat.eq_dec (first + j) i) as [Eq|Ne].
        -- rewrite (Z_ j a' Eq Ea). rewrite K1 by lia. exists c. refine (conj Ec (conj eq_refl (conj eq_refl _))). intros N. exfalso. apply N.
           apply andb_true_iff in G. destruct G as [_ G]. apply Nat.eqb_eq in G. destruct (a_angle byte a); [reflexivity|discriminate].
        -- apply (K2 j a' c Lj); [lia|exact (S_ j a' Hj Ne Ea)|exact Ec].
    + replace (mine first my i && (length (a_angle byte a) =? 0)%nat) with false.
      2:{ symmetry. destruct (mine first my i) eqn:M; [|reflexivity]. cbn [andb]. apply Nat.eqb_neq. intros Z0.
          destruct H as [H|H]; [rewrite H, Z0 in G; discriminate|]. apply mine_iff in M. apply (H (i - first)%nat a); [lia|lia| |].
          - replace (first + (i - first) - i)%nat with 0%nat by lia. reflexivity.
          - destruct (a_angle byte a); [reflexivity|discriminate]. }
      assert (X : exists loc' arr, bc_list byte root (angle_t b) (dt_angle b) (mine first my i) 0 (a_angle byte a) loc (repeat (zeros byte zero) (length (a_angle byte a))) = Some (loc', arr) /\
        (mine first my i = true -> Forall2 (agree byte (angle_t b) []) arr (a_angle byte a))).
      { destruct (mine first my i).
        - destruct (list_all _ _ (cover_angle b) (a_angle byte a) loc) as (loc' & arr & E & F). exists loc', arr. split; [exact E|]. intros _. exact F.
        - destruct (bc_list_any _ _ (cover_angle b) (a_angle byte a) 0 loc (repeat (zeros byte zero) (length (a_angle byte a)))) as (loc' & E).
          eexists. eexists. split; [exact E|]. discriminate. }
      destruct X as (loc' & arr & E & F). rewrite E.
      set (conf1 := if mine first my i then upd_nth byte (upd_angle byte arr) conf (i - first) else conf).
      destruct (IH (S i) loc' conf1) as (conf' & E2 & L2 & K1 & K2); [unfold conf1; destruct (mine first my i); [rewrite upd_length|]; exact L|exact H'|].
      exists conf'. refine (conj E2 (conj L2 (conj _ _))).
      * intros j Lj Hj. rewrite K1 by lia. unfold conf1. destruct (mine first my i) eqn:M; [|reflexivity]. apply mine_iff in M. apply upd_ne. lia.
      * intros j a' c Lj Hj Ea Ec. destruct (Nat.eq_dec (first + j) i) as [Eq|Ne].
        -- rewrite (Z_ j a' Eq Ea). rewrite K1 by lia. assert (M : mine first my i = true) by (apply mine_iff; lia). unfold conf1. rewrite M.
           replace (i - first)%nat with j by lia. exists (upd_angle byte arr c). rewrite (upd_eq _ _ _ _ Ec). refine (conj eq_refl (conj eq_refl (conj eq_refl _))).
           intros _. exists arr. split; [reflexivity|]. exact (F M).
        -- apply (K2 j a' c Lj); [lia|exact (S_ j a' Hj Ne Ea)|]. unfold conf1. destruct (mine first my i) eqn:M; [|exact Ec]. apply mine_iff in M. rewrite upd_ne by lia. exact Ec.
Qed.

Lemma angle_exit : forall l i loc conf, dANG b = false ->
  (exists j a, (j < my)%nat /\ (i <= first + j)%nat /\ nth_error l (first + j - i) = Some a /\ a_angle byte a = []) ->
  bc_angle byte b root first my zero (dt_angle b) i l loc conf = Exit.
Proof.
  intros l. induction l as [|a l IH]; intros i loc conf G (j & a' & Lj & Hj & E & Z0).
  - destruct (first + j - i)%nat; discriminate.
  - cbn [bc_angle]. rewrite G. cbn [andb]. destruct (Nat.eq_dec (first + j) i) as [Eq|Ne].
    + replace (first + j - i)%nat with 0%nat in E by lia. cbn [nth_error] in E. injection E as E. subst a'. rewrite Z0.
      replace (mine first my i) with true by (symmetry; apply mine_iff; lia). reflexivity.
    + destruct (mine first my i && (length (a_angle byte a) =? 0)%nat); [reflexivity|].
      assert (X : exists p, bc_list byte root (angle_t b) (dt_angle b) (mine first my i) 0 (a_angle byte a) loc (repeat (zeros byte zero) (length (a_angle byte a))) = Some p).
      { destruct (mine first my i).
        - destruct (list_all _ _ (cover_angle b) (a_angle byte a) loc) as (? & ? & E' & _). eexists. exact E'.
        - destruct (bc_list_any _ _ (cover_angle b) (a_angle byte a) 0 loc (repeat (zeros byte zero) (length (a_angle byte a)))) as (? & E'). eexists. exact E'. }
      destruct X as ([loc' arr] & ->). apply IH; [exact G|]. exists j, a'. refine (conj Lj (conj _ (conj _ Z0))); [lia|].
      replace (first + j - i)%nat with (S (first + j - S i)) in E by lia. exact E.
Qed.

Lemma local_ok : forall l loc, (first + my <= length l)%nat ->
  (dTHREEBODY b = true -> dANG b = false -> forall j a, (j < my)%nat -> nth_error l (first + j) = Some a -> a_angle byte a <> []) ->
  exists conf, local_atoms byte b root first my zero l loc = Ok conf /\ length conf = my /\
  forall j a, (j < my)%nat -> nth_error l (first + j) = Some a -> exists c, nth_error conf j = Some c /\ received byte b c a.
Proof.
  intros l loc Hl H. unfold local_atoms. rewrite create_neigh, create_angle, create_atom. unfold broadcast_atoms, broadcast_neighbors, broadcast_angles.
  destruct (atoms_loop l 0 loc (repeat (mk_catom byte (zeros byte zero) None None) my)) as (c1 & E1 & L1 & _ & K1); [apply repeat_length|]. 
  destruct (neigh_loop l 0 (zeros byte zero) c1 L1) as (c2 & E2 & L2 & _ & K2).
  assert (K12 : forall j a, (j < my)%nat -> nth_error l (first + j) = Some a -> exists c, nth_error c2 j = Some c /\
     agree byte (atom_t b) not_sent (c_mem byte c) (a_mem byte a) /\
     (a_neigh byte a <> [] -> exists arr, c_neigh byte c = Some arr /\ Forall2 (agree byte (neigh_t b) []) arr (a_neigh byte a))).
  { intros j a Lj E. assert (E' : nth_error l (first + j - 0) = Some a) by (rewrite Nat.sub_0_r; exact E).
    destruct (K1 j a Lj ltac:(lia) E') as (c & Ec & A & _). destruct (K2 j a c Lj ltac:(lia) E' Ec) as (c' & Ec' & M & _ & N).
    exists c'. refine (conj Ec' (conj _ N)). rewrite M. exact A. }
  destruct (dTHREEBODY b) eqn:T.
  - rewrite E1, E2. destruct (angle_loop l 0 (zeros byte zero) c2 L2) as (c3 & E3 & L3 & _ & K3).
    { destruct (dANG b) eqn:G; [left; reflexivity|right]. intros j a Lj _ E. rewrite Nat.sub_0_r in E. exact (H eq_refl eq_refl j a Lj E). }
    exists c3. refine (conj E3 (conj L3 _)). intros j a Lj E. destruct (K12 j a Lj E) as (c & Ec & A & N).
    destruct (K3 j a c Lj ltac:(lia) ltac:(rewrite Nat.sub_0_r; exact E) Ec) as (c' & Ec' & M & N' & G). exists c'. split; [exact Ec'|].
    unfold received. rewrite M, N'. refine (conj A (conj N _)). intros _. exact G.
  - rewrite E1, E2. exists c2. refine (conj eq_refl (conj L2 _)). intros j a Lj E. destruct (K12 j a Lj E) as (c & Ec & A & N). exists c. split; [exact Ec|].
    refine (conj A (conj N _)). intros T'. rewrite T in T'. discriminate.
Qed.

Lemma local_exit : forall l loc, dTHREEBODY b = true -> dANG b = false ->
  (exists j a, (j < my)%nat /\ nth_error l (first + j) = Some a /\ a_angle byte a = []) ->
  local_atoms byte b root first my zero l loc = Exit.
Proof.
  intros l loc T G (j & a & Lj & E & Z0). unfold local_atoms. rewrite create_neigh, create_angle, create_atom. unfold broadcast_atoms, broadcast_neighbors, broadcast_angles.
  rewrite T. destruct (atoms_loop l 0 loc (repeat (mk_catom byte (zeros byte zero) None None) my)) as (c1 & E1 & L1 & _ & K1); [apply repeat_length|].
  destruct (neigh_loop l 0 (zeros byte zero) c1 L1) as (c2 & E2 & L2 & _ & K2). rewrite E1, E2. apply angle_exit; [exact G|].
  exists j, a. refine (conj Lj (conj _ (conj _ Z0))); [lia|]. rewrite Nat.sub_0_r. exact E.
Qed.

Lemma local_angles : forall l loc, (first + my <= length l)%nat -> dTHREEBODY b = true -> dANG b = false ->
  (local_atoms byte b root first my zero l loc = Exit <-> exists j a, (j < my)%nat /\ nth_error l (first + j) = Some a /\ a_angle byte a = []).
Proof.
  intros l loc Hl T G. split; [|apply local_exit; assumption]. intros E.
  destruct (existsb (fun a => match a_angle byte a with [] => true | _ => false end) (firstn my (skipn first l))) eqn:X.
  - apply existsb_exists in X. destruct X as (a & Ia & Ea). apply In_nth_error in Ia. destruct Ia as (j & Ej).
    assert (Lj : (j < my)%nat).
    { assert (j < length (firstn my (skipn first l)))%nat by (apply nth_error_Some; rewrite Ej; discriminate). rewrite firstn_length in H. lia. }
    exists j, a. refine (conj Lj (conj _ _)); [|destruct (a_angle byte a); [reflexivity|discriminate]].
    rewrite nth_error_firstn_lt in Ej by exact Lj. rewrite nth_error_skipn_add in Ej. exact Ej.
  - exfalso. destruct (local_ok l loc Hl) as (conf & E' & _); [|congruence]. intros _ _ j a Lj Ej Z0.
    assert (Y : existsb (fun a => match a_angle byte a with [] => true | _ => false end) (firstn my (skipn first l)) = true).
    { apply existsb_exists. exists a. rewrite Z0. split; [|reflexivity]. apply (nth_error_In _ j). rewrite nth_error_firstn_lt by exact Lj. rewrite nth_error_skipn_add. exact Ej. }
    rewrite Y in X. discriminate.
Qed.
End Copy.
