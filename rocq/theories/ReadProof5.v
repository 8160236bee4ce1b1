(** No write behind the arrays of the configurations, if every "#N" is at the beginning of a line. *)
From Coq Require Import ZArith List Bool Ascii String QArith Qcanon Arith Lia.
From Verif Require Import ParamsModel LinesModel ReadModel ReadProof ReadProof2.
Import ListNotations.
Local Open Scope nat_scope.

Definition suffix (r t : text) : Prop := exists p, t = p ++ r.
Lemma suffix_refl : forall t, suffix t t.
Proof. intro t. exists []. reflexivity. Qed.
Lemma suffix_trans : forall a b c, suffix a b -> suffix b c -> suffix a c.
Proof. intros a b c [p ->] [q ->]. exists (q ++ p). rewrite app_assoc. reflexivity. Qed.
Lemma suffix_cons : forall c t, suffix t (c :: t).
Proof. intros c t. exists [c]. reflexivity. Qed.
Lemma suffix_len : forall a b, suffix a b -> List.length a <= List.length b.
Proof. intros a b [p ->]. rewrite app_length. lia. Qed.

Lemma fgets_aux_app : forall k t l r e, fgets_aux k t = (l, r, e) -> t = l ++ r.
Proof.
  induction k as [|k IH]; intros t l r e H; cbn [fgets_aux] in H; [injection H as <- <- <-; reflexivity|].
  destruct t as [|c t]; [injection H as <- <- <-; reflexivity|].
  destruct (ascii_dec c LF); [injection H as <- <- <-; reflexivity|].
  destruct (fgets_aux k t) as [[l' r'] e'] eqn:E. injection H as <- <- <-. cbn. f_equal. eapply IH. exact E.
Qed.
Lemma fgets_aux_eof : forall k t l r, fgets_aux k t = (l, r, true) -> ~ In LF t /\ r = [].
Proof.
  induction k as [|k IH]; intros t l r H; cbn [fgets_aux] in H; [discriminate|].
  destruct t as [|c t]; [injection H as <- <-; split; [intros []|reflexivity]|].
  destruct (ascii_dec c LF) as [|N]; [discriminate|].
  destruct (fgets_aux k t) as [[l' r'] e'] eqn:E. injection H as <- <- ->.
  destruct (IH _ _ _ E) as [A B]. split; [|exact B]. intros [F|F]; [congruence|exact (A F)].
Qed.

(** occurrences of "#N", and the sum of the numbers behind them *)
Fixpoint occ (t : text) : nat := match t with [] => 0 | c :: t' => (if is_N t then 1 else 0) + occ t' end.
Definition cnt (t : text) : Z :=
  match scan_d (skipn 3 (fst (fst (fgets_aux LINE t)))) with Some (n, _) => n | None => 0%Z end.
Fixpoint wsum (t : text) : Z := match t with [] => 0%Z | c :: t' => ((if is_N t then cnt t else 0) + wsum t')%Z end.
Fixpoint okN (b : bool) (t : text) : Prop :=
  match t with
  | [] => True
  | c :: t' => (is_N t = true -> b = true) /\ okN (if ascii_dec c LF then true else false) t'
  end.
Definition nonneg (t : text) : Prop := forall s, suffix s t -> is_N s = true -> (0 <= cnt s)%Z.

Lemma nonneg_suffix : forall s t, suffix s t -> nonneg t -> nonneg s.
Proof. intros s t S N x X. apply N. exact (suffix_trans _ _ _ X S). Qed.
Lemma occ_suffix : forall p r, occ r <= occ (p ++ r).
Proof. induction p as [|c p IH]; intro r; [reflexivity|]. cbn [app occ]. specialize (IH r). lia. Qed.
Lemma wsum_suffix : forall p r, nonneg (p ++ r) -> (wsum r <= wsum (p ++ r))%Z.
Proof.
  induction p as [|c p IH]; intros r N; [reflexivity|].
  assert (N' : nonneg (p ++ r)) by (eapply nonneg_suffix; [apply (suffix_cons c)|exact N]).
  specialize (IH r N'). cbn [app wsum].
  destruct (is_N (c :: p ++ r)) eqn:E; [|lia].
  assert (0 <= cnt (c :: p ++ r))%Z by (apply N; [apply suffix_refl|exact E]). lia.
Qed.
Lemma occ_suf : forall r t, suffix r t -> occ r <= occ t.
Proof. intros r t [p ->]. apply occ_suffix. Qed.
Lemma wsum_suf : forall r t, suffix r t -> nonneg t -> (wsum r <= wsum t)%Z.
Proof. intros r t [p ->] N. apply wsum_suffix. exact N. Qed.
Lemma wsum_nonneg : forall t, nonneg t -> (0 <= wsum t)%Z.
Proof. intros t N. change 0%Z with (wsum []). apply wsum_suf; [exists t; rewrite app_nil_r; reflexivity|exact N]. Qed.

(** a line holds no further "#N" *)
Lemma chunk_false : forall k t l r e, fgets_aux k t = (l, r, e) -> okN false t ->
  occ t = occ r /\ wsum t = wsum r /\ ((exists l', l = l' ++ [LF]) \/ okN false r).
Proof.
  induction k as [|k IH]; intros t l r e H O; cbn [fgets_aux] in H; [injection H as <- <- <-; auto|].
  destruct t as [|c t]; [injection H as <- <- <-; auto|].
  cbn [okN] in O. destruct O as [O1 O2].
  assert (N : is_N (c :: t) = false) by (destruct (is_N (c :: t)); [specialize (O1 eq_refl); discriminate|reflexivity]).
  cbn [occ wsum]. rewrite N.
  destruct (ascii_dec c LF) as [->|D].
  - injection H as <- <- <-. split; [reflexivity|]. split; [reflexivity|]. left. exists []. reflexivity.
  - destruct (fgets_aux k t) as [[l' r'] e'] eqn:E. injection H as <- <- <-.
    destruct (IH _ _ _ _ E O2) as (A & B & C). split; [exact A|]. split; [exact B|].
    destruct C as [[l'' ->]|C]; [left; exists (c :: l''); reflexivity|right; exact C].
Qed.
Lemma okN_weak : forall b t, okN false t -> okN b t.
Proof. intros [] [|c t] H; cbn in *; auto. destruct H; split; auto. Qed.
Lemma chunk : forall k c t l r e b, fgets_aux (S k) (c :: t) = (l, r, e) -> okN b (c :: t) ->
  occ (c :: t) = (if is_N (c :: t) then 1 else 0) + occ r /\
  wsum (c :: t) = ((if is_N (c :: t) then cnt (c :: t) else 0) + wsum r)%Z /\ (exists b', okN b' r).
Proof.
  intros k c t l r e b H O. cbn [fgets_aux] in H. cbn [okN] in O. destruct O as [O1 O2]. cbn [occ wsum].
  destruct (ascii_dec c LF) as [->|D].
  - injection H as <- <- <-. split; [reflexivity|]. split; [reflexivity|]. exists true. exact O2.
  - destruct (fgets_aux k t) as [[l' r'] e'] eqn:E. injection H as <- <- <-.
    destruct (chunk_false _ _ _ _ _ E O2) as (A & B & C). rewrite A, B.
    split; [reflexivity|]. split; [reflexivity|].
    destruct C as [[l'' ->]|C]; [|exists false; exact C].
    exists true. apply fgets_aux_app in E. subst t. clear - O2.
    revert O2. generalize false as b0. induction l'' as [|x l'' IH]; intros b0 O2.
    + exact (proj2 O2).
    + change (okN b0 (x :: ((l'' ++ [LF]) ++ r'))) in O2. destruct O2 as [_ O2]. eapply IH. exact O2.
Qed.

Lemma line_is_N : forall t l r e, fgets_aux LINE t = (l, r, e) -> is_N l = is_N t.
Proof.
  intros t l r e H. change LINE with (S (S (pred (pred LINE)))) in H. remember (pred (pred LINE)) as k eqn:K. clear K.
  unfold is_N, ch. cbn [fgets_aux] in H.
  destruct t as [|a t]; [injection H as <- <- <-; reflexivity|].
  destruct (ascii_dec a LF) as [->|A]; [injection H as <- <- <-; reflexivity|].
  destruct t as [|b t]; [injection H as <- <- <-; reflexivity|].
  destruct (ascii_dec b LF) as [->|B]; [injection H as <- <- <-; reflexivity|].
  destruct (fgets_aux k t) as [[l' r'] e']. injection H as <- <- <-. reflexivity.
Qed.
Definition noCR (t : text) : Prop := ~ In CR t.
Lemma noCR_suffix : forall s t, suffix s t -> noCR t -> noCR s.
Proof. intros s t [p ->] N H. apply N. apply in_or_app. right. exact H. Qed.
Lemma fgets_inv : forall t l r e, noCR t -> fgets t = Some (l, r, e) ->
  t <> [] /\ fgets_aux LINE t = (l, r, e) /\ is_N l = is_N t /\ suffix r t /\ (List.length r < List.length t).
Proof.
  intros t l r e N H. unfold fgets in H. destruct t as [|c t]; [discriminate|].
  destruct (fgets_aux LINE (c :: t)) as [[l' r'] e'] eqn:E.
  pose proof (fgets_aux_app _ _ _ _ _ E) as A.
  assert (NL : ~ In CR l') by (intro I; apply N; rewrite A; apply in_or_app; left; exact I).
  rewrite fgets_potfit_id in H by exact NL. injection H as <- <- <-.
  split; [discriminate|]. split; [reflexivity|]. split; [exact (line_is_N _ _ _ _ E)|]. split; [exists l'; exact A|].
  rewrite A, app_length. assert (l' <> []); [|destruct l'; [congruence|cbn; lia]].
  intro Z. subst l'. change LINE with (S (pred LINE)) in E. cbn [fgets_aux] in E.
  destruct (ascii_dec c LF); [discriminate|]. destruct (fgets_aux _ t) as [[x y] z]; discriminate.
Qed.

(** last character *)
Definition ends (t : text) : Prop := t = [] \/ exists t', t = t' ++ [LF].
Lemma ends_suffix : forall s t, suffix s t -> ends t -> ends s.
Proof.
  intros s t [p ->] E. destruct s as [|c s]; [left; reflexivity|]. right.
  destruct E as [E|[t' E]]; [destruct p; discriminate|].
  destruct (exists_last (l := c :: s)) as (s' & x & X); [discriminate|]. rewrite X in *.
  rewrite app_assoc in E. apply app_inj_tail in E. destruct E as [_ ->]. exists s'. reflexivity.
Qed.

Lemma count_occ : forall fuel t nc na b, noCR t -> okN b t -> ends t -> List.length t < fuel ->
  (exists e, count_pass fuel t nc na = Err e) \/ count_pass fuel t nc na = Ok (nc + occ t, (na + wsum t)%Z).
Proof.
  induction fuel as [|fuel IH]; intros t nc na b N O E L; [lia|]. cbn [count_pass].
  destruct (fgets t) as [[[l r] e]|] eqn:F.
  - destruct (fgets_inv _ _ _ _ N F) as (NE & A & IN & S & LR).
    destruct t as [|c t]; [congruence|].
    destruct e.
    + exfalso. destruct (fgets_aux_eof _ _ _ _ A) as [NL _]. destruct E as [E|[t' E]]; [discriminate|].
      apply NL. rewrite E. apply in_or_app. right. left. reflexivity.
    + pose proof A as A'. change LINE with (Datatypes.S (pred LINE)) in A'.
      destruct (chunk _ _ _ _ _ _ _ A' O) as (C1 & C2 & b' & C3). rewrite C1, C2. rewrite IN.
      assert (NR : noCR r) by (exact (noCR_suffix _ _ S N)). assert (ER : ends r) by (exact (ends_suffix _ _ S E)).
      assert (CN : cnt (c :: t) = match scan_d (skipn 3 l) with Some (n, _) => n | None => 0%Z end).
      { unfold cnt. rewrite A. reflexivity. }
      destruct (is_N (c :: t)).
      * destruct (scan_d (skipn 3 l)) as [[n l1]|] eqn:SD; [|left; exists ECount; reflexivity].
        destruct (IH r (Datatypes.S nc) (na + n)%Z b' NR C3 ER ltac:(lia)) as [H|H]; [left; exact H|right].
        rewrite H, CN. f_equal. f_equal; lia.
      * destruct (IH r nc na b' NR C3 ER ltac:(lia)) as [H|H]; [left; exact H|right].
        rewrite H. f_equal.
  - right. unfold fgets in F. destruct t as [|c t]; [|destruct (fgets_aux LINE (c :: t)) as [[? ?] ?]; discriminate].
    cbn. rewrite Nat.add_0_r, Z.add_0_r. reflexivity.
Qed.

Section Safe.
Variable scan_f : text -> option (Qc * text).
Variable atoi : text -> Z.
Variables (ntypes : nat) (scale : Qc) (min_at : Z) (stressb : bool).
(** %lf reads from the beginning *)
Hypothesis SUF : forall t q r, scan_f t = Some (q, r) -> suffix r t.

Lemma skip_suf : forall t, suffix (skip_space t) t.
Proof.
  induction t as [|c t IH]; [apply suffix_refl|]. cbn. destruct (is_space c); [|apply suffix_refl].
  eapply suffix_trans; [exact IH|apply suffix_cons].
Qed.
Lemma digits_suf : forall t ds r, take_digits t = (ds, r) -> suffix r t.
Proof.
  induction t as [|c t IH]; intros ds r H; cbn in H; [injection H as <- <-; apply suffix_refl|].
  destruct (is_digit c); [|injection H as <- <-; apply suffix_refl].
  destruct (take_digits t) as [d s] eqn:E. injection H as <- <-. eapply suffix_trans; [exact (IH _ _ eq_refl)|apply suffix_cons].
Qed.
Lemma sign_suf : forall t, suffix (snd (take_sign t)) t.
Proof.
  intros [|c t]; [apply suffix_refl|]. cbn. destruct (code c =? 45)%Z; [apply suffix_cons|].
  destruct (code c =? 43)%Z; [apply suffix_cons|apply suffix_refl].
Qed.
Lemma scan_d_suf : forall t z r, scan_d t = Some (z, r) -> suffix r t.
Proof.
  intros t z r H. unfold scan_d in H. pose proof (sign_suf (skip_space t)) as S. destruct (take_sign (skip_space t)) as [b t1]. cbn in S.
  destruct (take_digits t1) as [ds r1] eqn:D. pose proof (digits_suf _ _ _ D) as D'.
  destruct ds as [|d ds]; [discriminate|]. assert (r = r1) as -> by congruence.
  eapply suffix_trans; [exact D'|]. eapply suffix_trans; [exact S|]. apply skip_suf.
Qed.
Lemma scan_fs_suf : forall n t qs r, scan_fs scan_f n t = Some (qs, r) -> suffix r t.
Proof.
  induction n as [|n IH]; intros t qs r H; cbn in H; [injection H as <- <-; apply suffix_refl|].
  destruct (scan_f t) as [[q t1]|] eqn:E; [|discriminate]. destruct (scan_fs scan_f n t1) as [[qs2 t2]|] eqn:E2; [|discriminate].
  injection H as <- <-. eapply suffix_trans; [exact (IH _ _ _ E2)|exact (SUF _ _ _ E)].
Qed.

Lemma header_line_keeps : forall l cs g cs' g', header_line scan_f atoi ntypes scale stressb l cs g = Ok (cs', g') ->
  nconf g' = nconf g /\ natoms g' = natoms g /\ atom_count cs' = atom_count cs.
Proof.
  intros l cs g cs' g' H. unfold header_line, read_box_vector in H.
  destruct (kind_of (ch l 1)).
  1,2,3: destruct (scan_fs scan_f 3 (skipn 3 l)) as [[[|x [|y [|z [|? ?]]]] ?]|]; cbn in H; try discriminate H; injection H as <- <-; auto.
  - destruct (scan_f (skipn 3 l)) as [[q ?]|]; [|discriminate]. injection H as <- <-; auto.
  - destruct (scan_f (skipn 3 l)) as [[q ?]|]; [|discriminate]. destruct (Qclt_le_dec q (Q2Qc 0)); [discriminate|]. injection H as <- <-; auto.
  - destruct (read_chemical_elements atoi ntypes l (elements g) (num_fixed cs)) as [[el nf]| | |]; cbn in H; try discriminate H. injection H as <- <-; auto.
  - destruct stressb; [|injection H as <- <-; auto].
    destruct (scan_fs scan_f 6 (skipn 3 l)) as [[[|a [|b [|c [|d [|e [|f [|? ?]]]]]]] ?]|]; try discriminate H. injection H as <- <-; auto.
  - injection H as <- <-; auto.
  - injection H as <- <-; auto.
Qed.
Lemma check_names_safe : forall ws i el nf, check_names atoi ntypes ws i el nf <> Oob /\ check_names atoi ntypes ws i el nf <> Loop.
Proof.
  induction ws as [|w ws IH]; intros i el nf; [split; discriminate|]. cbn [check_names].
  destruct (Nat.ltb i ntypes); [|split; discriminate]. destruct (text_eqb w (el i)); [apply IH|].
  destruct ((atoi (el i) =? Z.of_nat i)%Z && Nat.leb nf i); [apply IH|split; discriminate].
Qed.
Lemma header_line_safe : forall l cs g, header_line scan_f atoi ntypes scale stressb l cs g <> Oob /\
  header_line scan_f atoi ntypes scale stressb l cs g <> Loop.
Proof.
  intros l cs g. unfold header_line, read_box_vector, read_chemical_elements.
  destruct (kind_of (ch l 1)).
  1,2,3: destruct (scan_fs scan_f 3 (skipn 3 l)) as [[[|x [|y [|z [|? ?]]]] ?]|]; split; discriminate.
  - destruct (scan_f (skipn 3 l)) as [[q ?]|]; split; discriminate.
  - destruct (scan_f (skipn 3 l)) as [[q ?]|]; [|split; discriminate]. destruct (Qclt_le_dec q (Q2Qc 0)); split; discriminate.
  - destruct (num_fixed cs) as [|nf].
    + cbn [bind]. destruct (set_names ntypes (words (skipn 3 l)) 0 (elements g) 0) as [el nf]. split; discriminate.
    + destruct (check_names_safe (words (skipn 3 l)) 0 (elements g) (S nf)) as [A B].
      destruct (check_names atoi ntypes (words (skipn 3 l)) 0 (elements g) (S nf)) as [[el n2]| | |]; cbn; split; congruence.
  - destruct stressb; [|split; discriminate].
    destruct (scan_fs scan_f 6 (skipn 3 l)) as [[[|a [|b [|c [|d [|e [|f [|? ?]]]]]]] ?]|]; split; discriminate.
  - split; discriminate.
  - split; discriminate.
Qed.
Lemma header_safe : forall fuel t cs g, noCR t -> List.length t < fuel ->
  (exists e, header scan_f atoi ntypes scale stressb fuel t cs g = Err e) \/
  (exists r cs' g', header scan_f atoi ntypes scale stressb fuel t cs g = Ok (r, cs', g') /\ suffix r t /\
                    nconf g' = nconf g /\ natoms g' = natoms g /\ atom_count cs' = atom_count cs).
Proof.
  induction fuel as [|fuel IH]; intros t cs g N L; [lia|]. cbn [header].
  destruct (fgets t) as [[[l r] e]|] eqn:F; [|left; exists EHeader; reflexivity].
  destruct e; [left; exists EHeader; reflexivity|].
  destruct (fgets_inv _ _ _ _ N F) as (_ & _ & _ & S & LR).
  destruct (header_line_safe (cut_lf l) cs g) as [H1 H2].
  destruct (header_line scan_f atoi ntypes scale stressb (cut_lf l) cs g) as [[cs1 g1]|e| |] eqn:HL; cbn [bind]; try congruence.
  - destruct (header_line_keeps _ _ _ _ _ HL) as (K1 & K2 & K3).
    destruct (ascii_dec (ch (cut_lf l) 1) "F").
    + right. exists r, cs1, g1. auto.
    + destruct (IH r cs1 g1 (noCR_suffix _ _ S N) ltac:(lia)) as [E|(r' & cs' & g' & E & S' & E1 & E2 & E3)]; [left; exact E|right].
      exists r', cs', g'. split; [exact E|]. split; [exact (suffix_trans _ _ _ S' S)|]. split; [congruence|]. split; congruence.
  - left. exists e. reflexivity.
Qed.
Lemma atoms_safe : forall na k i t g, natoms g + i + k <= na ->
  (exists e, read_atoms scan_f ntypes scale na k i t g = Err e) \/
  (exists r g', read_atoms scan_f ntypes scale na k i t g = Ok (r, g') /\ suffix r t /\ nconf g' = nconf g /\ natoms g' = natoms g).
Proof.
  induction k as [|k IH]; intros i t g B; cbn [read_atoms].
  - right. exists t, g. split; [reflexivity|]. split; [apply suffix_refl|]. auto.
  - replace (Nat.leb na (natoms g + i)) with false by (symmetry; apply Nat.leb_gt; lia).
    destruct (scan_d t) as [[ty t1]|] eqn:D; [|left; exists EAtom; reflexivity].
    destruct (scan_fs scan_f 6 t1) as [[qs t2]|] eqn:Q; [|left; exists EAtom; reflexivity].
    destruct qs as [|a [|b [|c [|d [|e [|f [|? ?]]]]]]]; try (left; exists EAtom; reflexivity).
    destruct ((Z.of_nat ntypes <=? ty)%Z || (ty <? 0)%Z); [left; exists EType; reflexivity|].
    cbv zeta.
    match goal with |- context [read_atoms _ _ _ _ _ _ _ ?G] =>
      destruct (IH (S i) (skip_space t2) G ltac:(cbn [natoms]; lia)) as [E|(r & g' & E & S' & E1 & E2)] end; [left; exact E|right].
    exists r, g'. split; [exact E|]. split; [|split; [exact E1|exact E2]].
    eapply suffix_trans; [exact S'|]. eapply suffix_trans; [apply skip_suf|]. eapply suffix_trans; [exact (scan_fs_suf _ _ _ _ Q)|].
    exact (scan_d_suf _ _ _ D).
Qed.

Lemma main_safe : forall nc na fuel t cs g, noCR t -> nonneg t -> List.length t < fuel ->
  nconf g + occ t <= nc -> (Z.of_nat (natoms g) + wsum t <= Z.of_nat na)%Z -> (0 <= min_at)%Z ->
  main_loop scan_f atoi ntypes scale min_at stressb nc na fuel t cs g <> Oob /\
  main_loop scan_f atoi ntypes scale min_at stressb nc na fuel t cs g <> Loop.
Proof.
  intros nc na. induction fuel as [|fuel IH]; intros t cs g N NN L B1 B2 M; [lia|]. cbn [main_loop].
  destruct (fgets t) as [[[l r] e]|] eqn:F; [|split; discriminate].
  destruct (fgets_inv _ _ _ _ N F) as (NE & A & IN & S & LR). rewrite IN.
  pose proof (noCR_suffix _ _ S N) as NR. pose proof (nonneg_suffix _ _ S NN) as NNR.
  destruct (is_N t) eqn:T.
  - destruct (scan_d (skipn 3 l)) as [[n l1]|] eqn:SD; [|split; discriminate].
    destruct (scan_d l1) as [[u l2]|]; [|split; discriminate]. cbv zeta.
    destruct (n <? min_at)%Z eqn:MI; [split; discriminate|]. apply Z.ltb_ge in MI.
    destruct t as [|c t]; [congruence|]. cbn [occ wsum] in B1, B2. rewrite T in B1, B2.
    assert (ST : suffix r t).
    { destruct S as [p S]. destruct p as [|x p]; [cbn in S; rewrite <- S in LR; lia|]. injection S as -> ->. exists p. reflexivity. }
    assert (CN : cnt (c :: t) = n) by (unfold cnt; rewrite A; cbn [fst]; rewrite SD; reflexivity). rewrite CN in B2.
    assert (NNT : nonneg t) by (exact (nonneg_suffix _ _ (suffix_cons c t) NN)).
    pose proof (occ_suf _ _ ST) as OS. pose proof (wsum_suf _ _ ST NNT) as WS.
    replace (Nat.leb nc (nconf g)) with false by (symmetry; apply Nat.leb_gt; lia).
    match goal with |- context [header _ _ _ _ _ _ _ ?X (start_conf ?X g)] => set (k1 := X) end.
    destruct (header_safe (Datatypes.S (List.length r)) r k1 (start_conf k1 g) NR ltac:(lia)) as [[e1 ->]|(r' & cs' & g' & -> & S' & E1 & E2 & E3)];
      cbn [bind]; [split; discriminate|].
    unfold after_header.
    destruct (negb (have_energy cs')); [split; discriminate|].
    destruct (negb (have_x cs' && have_y cs' && have_z cs')); [split; discriminate|]. cbn [bind].
    match goal with |- context [read_atoms _ _ _ _ _ _ _ ?G] =>
      destruct (atoms_safe na (Z.to_nat n) 0 r' G) as [[e1 ->]|(r2 & g2 & -> & S2 & F1 & F2)] end;
      cbn [natoms nconf] in *; [cbn [start_conf natoms] in E2; pose proof (wsum_nonneg t NNT); rewrite E2; lia|cbn [bind]; split; discriminate|].
    cbn [bind].
    assert (SR : suffix r2 r) by (exact (suffix_trans _ _ _ S2 S')).
    destruct r2 as [|x r2]; [split; discriminate|].
    apply IH.
    + exact (noCR_suffix _ _ SR NR).
    + exact (nonneg_suffix _ _ SR NNR).
    + pose proof (suffix_len _ _ SR). lia.
    + cbn [end_conf nconf]. rewrite F1, E1. cbn [start_conf nconf]. pose proof (occ_suf _ _ SR). lia.
    + cbn [end_conf natoms]. rewrite F2, E2, E3. cbn [start_conf natoms k1 atom_count].
      pose proof (wsum_suf _ _ SR NNR). lia.
    + exact M.
  - destruct e; [split; discriminate|]. apply IH; [exact NR|exact NNR|lia| | |exact M].
    + pose proof (occ_suf _ _ S). lia.
    + pose proof (wsum_suf _ _ S NN). lia.
Qed.

(** the condition in plain words: every "#N" is at the beginning of a line *)
Lemma okN_plain : forall t b, (b = false -> is_N t = true -> False) ->
  (forall p s, t = p ++ txt "#N" ++ s -> p = [] \/ exists p', p = p' ++ [LF]) -> okN b t.
Proof.
  induction t as [|c t IH]; intros b B H; [exact I|]. cbn [okN]. split.
  - intro E. destruct b; [reflexivity|]. exfalso. exact (B eq_refl E).
  - apply IH.
    + intros D E. destruct (ascii_dec c LF) as [|NL]; [discriminate|].
      unfold is_N in E. destruct t as [|a [|b' s]]; [discriminate E|cbn in E; destruct (ascii_dec a "#"); discriminate E|].
      cbn in E. destruct (ascii_dec a "#") as [->|]; [|discriminate]. destruct (ascii_dec b' "N") as [->|]; [|discriminate].
      destruct (H [c] s eq_refl) as [Z|[p' Z]]; [discriminate|].
      destruct p' as [|x [|y p']]; cbn [app] in Z; [injection Z as Z; congruence|discriminate Z|discriminate Z].
    + intros p s E. destruct (H (c :: p) s) as [Z|[p' Z]]; [rewrite E; reflexivity|discriminate|].
      destruct p' as [|x p']; cbn [app] in Z; [injection Z as -> ->; left; reflexivity|]. injection Z as -> ->. right. exists p'. reflexivity.
Qed.

Lemma nonneg_plain : forall t, noCR t ->
  (forall p s l r e n r', t = p ++ txt "#N" ++ s -> fgets (txt "#N" ++ s) = Some (l, r, e) ->
     scan_d (skipn 3 l) = Some (n, r') -> (0 <= n)%Z) -> nonneg t.
Proof.
  intros t N H s S E. unfold cnt.
  destruct (scan_d (skipn 3 (fst (fst (fgets_aux LINE s))))) as [[n r']|] eqn:SD; [|lia].
  assert (X : exists s', s = txt "#N" ++ s').
  { unfold is_N in E. destruct s as [|a [|b s]]; [discriminate E|cbn in E; destruct (ascii_dec a "#"); discriminate E|].
    cbn in E. destruct (ascii_dec a "#") as [->|]; [|discriminate]. destruct (ascii_dec b "N") as [->|]; [|discriminate]. exists s. reflexivity. }
  destruct X as [s' ->]. destruct S as [p ->].
  destruct (fgets_aux LINE (txt "#N" ++ s')) as [[l r] e] eqn:A. cbn [fst] in SD.
  apply (H p s' l r e n r' eq_refl); [|exact SD].
  unfold fgets. pose proof (fgets_aux_app _ _ _ _ _ A) as AA.
  transitivity (let '(l0, r0, e0) := fgets_aux LINE (txt "#N" ++ s') in Some (fgets_potfit l0, r0, e0)); [reflexivity|].
  rewrite A. rewrite fgets_potfit_id; [reflexivity|]. intro I. apply N. rewrite AA. apply in_or_app. right. apply in_or_app. left. exact I.
Qed.

Theorem safe : forall fixed names t, (0 <= min_at)%Z -> ~ In CR t ->
  (forall p s, t = p ++ txt "#N" ++ s -> p = [] \/ exists p', p = p' ++ [LF]) ->
  (exists t', t = t' ++ [LF]) ->
  (forall p s l r e n r', t = p ++ txt "#N" ++ s -> fgets (txt "#N" ++ s) = Some (l, r, e) ->
     scan_d (skipn 3 l) = Some (n, r') -> (0 <= n)%Z) ->
  read_config scan_f atoi ntypes scale min_at stressb fixed names t <> Oob /\
  read_config scan_f atoi ntypes scale min_at stressb fixed names t <> Loop.
Proof.
  intros fixed names t M N H E NN0. assert (NN : nonneg t) by (apply nonneg_plain; assumption). unfold read_config, create_memory.
  destruct (count_occ (S (List.length t)) t 0 0%Z true N) as [[e ->]| ->].
  - apply okN_plain; [discriminate|exact H].
  - right. exact E.
  - lia.
  - cbn [bind]. split; discriminate.
  - cbn [bind]. destruct ((Nat.eqb (0 + occ t) 0) || (0 + wsum t <=? 0)%Z); cbn [bind]; [split; discriminate|].
    destruct (main_safe (0 + occ t) (Z.to_nat (0 + wsum t)) (S (List.length t)) t
                (CState 0 0 false false v0 v0 v0 false false false (if fixed then ntypes else 0)) (glob0 names) N NN) as [A B].
    + lia.
    + cbn. lia.
    + cbn [glob0 natoms]. pose proof (wsum_nonneg t NN). lia.
    + exact M.
    + revert A B. destruct (main_loop _ _ _ _ _ _ _ _ _ _ _ _) as [g| | |]; intros A B; cbn [bind]; [|split; discriminate|congruence|congruence].
      unfold finish. destruct (_ <? _)%Z; split; discriminate.
Qed.
End Safe.
