(** Names of the elements; the vector of the reference data. *)
From Coq Require Import ZArith List Bool Ascii String QArith Qcanon Arith Lia.
From Verif Require Import ParamsModel LinesModel ReadModel.
Import ListNotations.
Local Open Scope nat_scope.

Section Names.
Variable atoi : text -> Z.
Variable ntypes : nat.
(** the lines #C of a file, one after the other *)
Fixpoint chem_all (ls : list text) (el : nat -> text) (nf : nat) : res ((nat -> text) * nat) :=
  match ls with
  | [] => Ok (el, nf)
  | l :: ls' => do (el, nf) <- read_chemical_elements atoi ntypes l el nf; chem_all ls' el nf
  end.
Definition names_of (l : text) : list text := words (skipn 3 l).
Variable dnum : nat -> text.
Hypothesis DNUM : forall i, atoi (dnum i) = Z.of_nat i.

(** names before [nf] are known, the others are numbers *)
Definition st_ok (el : nat -> text) (nf : nat) : Prop := nf <= ntypes /\ forall i, nf <= i -> el i = dnum i.

Lemma text_eqb_eq : forall a b, text_eqb a b = true <-> a = b.
Proof. intros a b. unfold text_eqb. destruct (list_eq_dec ascii_dec a b); split; congruence. Qed.

Lemma set_names_spec : forall ws i el nf el' nf', set_names ntypes ws i el nf = (el', nf') -> i = nf -> st_ok el nf ->
  st_ok el' nf' /\ nf <= nf' /\ nf' = Nat.max nf (Nat.min ntypes (i + List.length ws)) /\ (forall j, j < nf -> el' j = el j) /\
  (forall k w, nth_error ws k = Some w -> i + k < ntypes -> el' (i + k) = short w).
Proof.
  induction ws as [|w ws IH]; intros i el nf el' nf' H E O; cbn [set_names] in H.
  - injection H as <- <-. split; [exact O|]. split; [lia|]. split; [destruct O; cbn; lia|]. split; [reflexivity|]. intros [|k] w' X; discriminate.
  - destruct (Nat.ltb_spec i ntypes) as [L|L].
    + assert (O' : st_ok (upd el i (short w)) (S nf)).
      { split; [lia|]. intros j J. unfold upd. destruct (Nat.eqb_spec j i); [lia|]. apply (proj2 O). lia. }
      destruct (IH (S i) _ _ _ _ H ltac:(lia) O') as (A & B & M & C & D).
      split; [exact A|]. split; [lia|]. split; [cbn; lia|]. split.
      * intros j J. rewrite C by lia. unfold upd. destruct (Nat.eqb_spec j i); [lia|reflexivity].
      * intros [|k] w' X Y; cbn in X.
        -- injection X as <-. rewrite Nat.add_0_r. rewrite C by lia. unfold upd. rewrite Nat.eqb_refl. reflexivity.
        -- replace (i + S k) with (S i + k) by lia. apply D; [exact X|lia].
    + injection H as <- <-. split; [exact O|]. split; [lia|]. split; [destruct O; lia|]. split; [reflexivity|]. intros k w' X Y. lia.
Qed.

Lemma check_names_spec : forall ws i el nf el' nf', check_names atoi ntypes ws i el nf = Ok (el', nf') -> i <= nf -> st_ok el nf -> 1 <= nf ->
  (forall w, In w ws -> atoi w = 0%Z) ->
  st_ok el' nf' /\ nf' = Nat.max nf (Nat.min ntypes (i + List.length ws)) /\ (forall j, j < nf -> el' j = el j) /\
  (forall k w, nth_error ws k = Some w -> i + k < ntypes -> (i + k < nf -> el (i + k) = w) /\ (nf <= i + k -> el' (i + k) = short w)).
Proof.
  induction ws as [|w ws IH]; intros i el nf el' nf' H E O P W; cbn [check_names] in H.
  - injection H as <- <-. split; [exact O|]. split; [destruct O; cbn [List.length]; lia|]. split; [reflexivity|]. intros [|k] w' X; discriminate.
  - destruct (Nat.ltb_spec i ntypes) as [L|L].
    + assert (W' : forall w0, In w0 ws -> atoi w0 = 0%Z) by (intros; apply W; right; assumption).
      destruct (text_eqb w (el i)) eqn:Q.
      * apply text_eqb_eq in Q. assert (LT : i < nf).
        { destruct (Nat.lt_ge_cases i nf) as [X|X]; [exact X|exfalso].
          pose proof (W w (or_introl eq_refl)) as Z. rewrite Q, (proj2 O i X), DNUM in Z. lia. }
        destruct (IH (S i) _ _ _ _ H ltac:(lia) O P W') as (A & B & C & D).
        split; [exact A|]. split; [cbn [List.length]; lia|]. split; [exact C|].
        intros [|k] w' X Y; cbn in X.
        -- injection X as <-. rewrite Nat.add_0_r in *. split; [intros _; congruence|lia].
        -- replace (i + S k) with (S i + k) in * by lia. apply D; [exact X|exact Y].
      * destruct ((atoi (el i) =? Z.of_nat i)%Z && Nat.leb nf i) eqn:K; [|discriminate].
        apply andb_true_iff in K. destruct K as [_ K]. apply Nat.leb_le in K. assert (i = nf) by lia. subst i.
        assert (O' : st_ok (upd el nf (short w)) (S nf)).
        { split; [lia|]. intros j J. unfold upd. destruct (Nat.eqb_spec j nf); [lia|]. apply (proj2 O). lia. }
        destruct (IH (S nf) _ _ _ _ H ltac:(lia) O' ltac:(lia) W') as (A & B & C & D).
        split; [exact A|]. split; [cbn [List.length]; lia|]. split.
        -- intros j J. rewrite C by lia. unfold upd. destruct (Nat.eqb_spec j nf); [lia|reflexivity].
        -- intros [|k] w' X Y; cbn in X.
           ++ injection X as <-. rewrite Nat.add_0_r. split; [lia|]. intros _. rewrite C by lia. unfold upd. rewrite Nat.eqb_refl. reflexivity.
           ++ replace (nf + S k) with (S nf + k) in * by lia. destruct (D k w' X Y) as [D1 D2]. split; [lia|]. intros _. apply D2. lia.
    + injection H as <- <-. split; [exact O|]. split; [destruct O; lia|]. split; [reflexivity|]. intros k w' X Y. lia.
Qed.

Lemma short_short : forall w, short (short w) = short w.
Proof. intro w. unfold short. rewrite firstn_firstn. reflexivity. Qed.

(** all names are those of the table, from any state on *)
Lemma chem_agree : forall ls el nf el' nf', chem_all ls el nf = Ok (el', nf') -> st_ok el nf ->
  (forall i, i < nf -> short (el i) = el i) ->
  (forall l w, In l ls -> In w (names_of l) -> atoi w = 0%Z) ->
  (forall j, j < nf -> el' j = el j) /\
  forall l k w, In l ls -> nth_error (names_of l) k = Some w -> k < ntypes -> el' k = short w.
Proof.
  induction ls as [|l ls IH]; intros el nf el' nf' H O SH W; cbn [chem_all] in H.
  - injection H as <- <-. split; [reflexivity|]. intros l k w [].
  - destruct (read_chemical_elements atoi ntypes l el nf) as [[el1 nf1]| | |] eqn:R; cbn [bind] in H; try discriminate.
    unfold read_chemical_elements in R. fold (names_of l) in R.
    assert (X : st_ok el1 nf1 /\ nf <= nf1 /\ (forall j, j < nf -> el1 j = el j) /\
                (forall k w, nth_error (names_of l) k = Some w -> k < ntypes -> k < nf1 /\ el1 k = short w)).
    { destruct nf as [|n].
      - injection R as R. destruct (set_names_spec _ _ _ _ _ _ R eq_refl O) as (A & B & M & C & D).
        split; [exact A|]. split; [exact B|]. split; [exact C|]. intros k w X Y. split; [|exact (D k w X Y)].
        assert (k < List.length (names_of l)) by (apply nth_error_Some; congruence). lia.
      - destruct (check_names_spec _ _ _ _ _ _ R ltac:(lia) O ltac:(lia) (fun w I => W l w (or_introl eq_refl) I)) as (A & B & C & D).
        split; [exact A|]. split; [lia|]. split; [exact C|]. intros k w X Y. destruct (D k w X Y) as [D1 D2]. cbn [Nat.add] in *.
        assert (k < List.length (names_of l)) by (apply nth_error_Some; congruence).
        split; [lia|].
        destruct (Nat.lt_ge_cases k (S n)) as [L|L]; [|exact (D2 L)].
        rewrite C by exact L. pose proof (SH k L) as Z. rewrite (D1 L) in Z |- *. congruence. }
    destruct X as (A & B & C & D).
    destruct (IH el1 nf1 el' nf' H A) as [E1 E2].
    + intros i I. destruct (Nat.lt_ge_cases i nf) as [L|L]; [rewrite C by exact L; apply SH; exact L|].
      assert (X : nf1 = Nat.max nf (Nat.min ntypes (List.length (names_of l)))).
      { destruct nf as [|n].
        - injection R as R. destruct (set_names_spec _ _ _ _ _ _ R eq_refl O) as (_ & _ & M & _). exact M.
        - destruct (check_names_spec _ _ _ _ _ _ R ltac:(lia) O ltac:(lia) (fun w I => W l w (or_introl eq_refl) I)) as (_ & M & _). exact M. }
      destruct (nth_error (names_of l) i) as [w|] eqn:Q.
      * destruct (D i w Q ltac:(lia)) as [_ ->]. apply short_short.
      * apply nth_error_None in Q. lia.
    + intros l' w I. apply W. right. exact I.
    + split.
      * intros j J. rewrite E1 by lia. apply C. exact J.
      * intros l' k w [<-|I] X Y; [|exact (E2 l' k w I X Y)].
        destruct (D k w X Y) as [D1 D2]. rewrite E1 by exact D1. exact D2.
Qed.

(** equal names are accepted *)
Lemma set_names_ok : forall (T : nat -> text) ws i el nf el' nf', set_names ntypes ws i el nf = (el', nf') -> i = nf -> st_ok el nf ->
  (forall k w, nth_error ws k = Some w -> i + k < ntypes -> w = T (i + k)) -> (forall k, List.length (T k) <= 14) ->
  (forall j, j < nf -> el j = T j) -> forall j, j < nf' -> el' j = T j.
Proof.
  intros T ws i el nf el' nf' H E O W LT K j J. destruct (set_names_spec _ _ _ _ _ _ H E O) as (A & B & M & C & D).
  destruct (Nat.lt_ge_cases j nf) as [L|L]; [rewrite C by exact L; apply K; exact L|].
  destruct (nth_error ws (j - i)) as [w|] eqn:Q.
  - pose proof (D _ _ Q ltac:(lia)) as X. pose proof (W _ _ Q ltac:(lia)) as Y. replace (i + (j - i)) with j in * by lia.
    rewrite X, Y. unfold short. apply firstn_all2. apply LT.
  - apply nth_error_None in Q. lia.
Qed.
Lemma check_names_ok : forall (T : nat -> text) ws i el nf, i <= nf -> st_ok el nf -> 1 <= nf ->
  (forall k w, nth_error ws k = Some w -> i + k < ntypes -> w = T (i + k)) -> (forall k, List.length (T k) <= 14) ->
  (forall k, atoi (T k) = 0%Z) -> (forall j, j < nf -> el j = T j) ->
  exists el' nf', check_names atoi ntypes ws i el nf = Ok (el', nf') /\ st_ok el' nf' /\ 1 <= nf' /\ (forall j, j < nf' -> el' j = T j).
Proof.
  intros T. induction ws as [|w ws IH]; intros i el nf E O P W LT AT K; cbn [check_names].
  - exists el, nf. auto.
  - destruct (Nat.ltb_spec i ntypes) as [L|L]; [|exists el, nf; auto].
    assert (Wi : w = T i) by (pose proof (W 0 w eq_refl ltac:(lia)) as X; rewrite Nat.add_0_r in X; exact X).
    assert (W' : forall k w0, nth_error ws k = Some w0 -> S i + k < ntypes -> w0 = T (S i + k)).
    { intros k w0 X Y. replace (S i + k) with (i + S k) in * by lia. apply W; [exact X|exact Y]. }
    destruct (text_eqb w (el i)) eqn:Q.
    + apply text_eqb_eq in Q. assert (i < nf).
      { destruct (Nat.lt_ge_cases i nf) as [X|X]; [exact X|exfalso].
        assert (Y : atoi w = 0%Z) by (rewrite Wi; apply AT). rewrite Q, (proj2 O i X), DNUM in Y. lia. }
      apply IH; try assumption; lia.
    + assert (nf = i).
      { destruct (Nat.lt_ge_cases i nf) as [X|X]; [|lia]. rewrite (K i X), <- Wi in Q.
        assert (text_eqb w w = true) by (apply text_eqb_eq; reflexivity). congruence. }
      subst nf. rewrite (proj2 O i (le_n _)), DNUM, Z.eqb_refl, Nat.leb_refl. cbn [andb].
      apply IH; try assumption; try lia.
      * split; [lia|]. intros j J. unfold upd. destruct (Nat.eqb_spec j i); [lia|]. apply (proj2 O). lia.
      * intros j J. unfold upd. destruct (Nat.eqb_spec j i) as [->|]; [|apply K; lia].
        rewrite Wi. unfold short. apply firstn_all2. apply LT.
Qed.
Lemma chem_accept : forall (T : nat -> text) ls el nf, st_ok el nf ->
  (forall l k w, In l ls -> nth_error (names_of l) k = Some w -> k < ntypes -> w = T k) ->
  (forall k, List.length (T k) <= 14) -> (forall k, atoi (T k) = 0%Z) -> (forall j, j < nf -> el j = T j) ->
  exists el' nf', chem_all ls el nf = Ok (el', nf').
Proof.
  intros T. induction ls as [|l ls IH]; intros el nf O W LT AT K; cbn [chem_all]; [exists el, nf; reflexivity|].
  assert (W1 : forall k w, nth_error (names_of l) k = Some w -> 0 + k < ntypes -> w = T (0 + k)) by (intros k w X Y; apply (W l k w (or_introl eq_refl) X Y)).
  assert (W2 : forall l' k w, In l' ls -> nth_error (names_of l') k = Some w -> k < ntypes -> w = T k) by (intros l' k w I; apply W; right; exact I).
  unfold read_chemical_elements. fold (names_of l). destruct nf as [|n].
  - destruct (set_names ntypes (names_of l) 0 el 0) as [el1 nf1] eqn:R. cbn [bind].
    destruct (set_names_spec _ _ _ _ _ _ R eq_refl O) as (A & _).
    apply IH; [exact A|exact W2|exact LT|exact AT|].
    exact (set_names_ok T _ _ _ _ _ _ R eq_refl O W1 LT K).
  - destruct (check_names_ok T (names_of l) 0 el (S n) ltac:(lia) O ltac:(lia) W1 LT AT K) as (el1 & nf1 & -> & A & _ & B). cbn [bind].
    apply IH; assumption.
Qed.

Theorem names_agree : forall ls el nf, chem_all ls dnum 0 = Ok (el, nf) ->
  (forall l w, In l ls -> In w (names_of l) -> atoi w = 0%Z) ->
  forall l k w, In l ls -> nth_error (names_of l) k = Some w -> k < ntypes -> el k = short w.
Proof.
  intros ls el nf H W. destruct (chem_agree ls dnum 0 el nf H) as [_ X]; [split; [lia|reflexivity]|intros i I; lia|exact W|exact X].
Qed.
Theorem names_accepted : forall T ls,
  (forall l k w, In l ls -> nth_error (names_of l) k = Some w -> k < ntypes -> w = T k) ->
  (forall k, List.length (T k) <= 14) -> (forall k, atoi (T k) = 0%Z) ->
  exists el nf, chem_all ls dnum 0 = Ok (el, nf).
Proof. intros T ls W LT AT. apply (chem_accept T); try assumption; [split; [lia|reflexivity]|intros j J; lia]. Qed.
End Names.

(** ** Vector of the reference data *)
Lemma nth_repeat_lt : forall (x d : Qc) n k, k < n -> nth k (repeat x n) d = x.
Proof. intros x d. induction n as [|n IH]; intros [|k] H; try lia; cbn; [reflexivity|]. apply IH. lia. Qed.
Lemma nth_flat_map : forall (f : nat -> list Qc) d w m, (forall i, List.length (f i) = w) ->
  forall s i c, i < m -> c < w -> nth (w * i + c) (flat_map f (seq s m)) d = nth c (f (s + i)) d.
Proof.
  intros f d w m W. induction m as [|m IH]; intros s i c I C; [lia|]. cbn [seq flat_map].
  destruct i as [|i].
  - rewrite Nat.mul_0_r, Nat.add_0_r. cbn [Nat.add]. rewrite app_nth1 by (rewrite W; lia). reflexivity.
  - rewrite app_nth2 by (rewrite W; nia). rewrite W. replace (w * S i + c - w) with (w * i + c) by nia.
    rewrite IH by lia. f_equal. f_equal. lia.
Qed.
Lemma len_flat_map : forall (f : nat -> list Qc) w, (forall i, List.length (f i) = w) -> forall m s, List.length (flat_map f (seq s m)) = w * m.
Proof. intros f w W. induction m as [|m IH]; intro s; cbn [seq flat_map List.length]; [lia|]. rewrite app_length, W, IH. lia. Qed.

Definition comp (v : vec) (c : nat) : Qc := let '(x, y, z) := v in match c with 0 => x | 1 => y | _ => z end.
Definition tcomp (s : tens) (c : nat) : Qc := match c with 0 => xx s | 1 => yy s | 2 => zz s | 3 => xy s | 4 => yz s | _ => zx s end.

Theorem layout : forall stressb extra g d,
  let F := force_0 stressb extra g in let e := 3 * natoms g in let s := e + nconf g in
  let p := s + (if stressb then 6 * nconf g else 0) in
  List.length F = p + extra /\ (forall a c, a < natoms g -> c < 3 -> nth (3 * a + c) F d = comp (a_force (atoms g a)) c) /\ (forall i, i < nconf g -> nth (e + i) F d = coheng g i) /\ (stressb = true -> forall i c, i < nconf g -> c < 6 -> nth (s + 6 * i + c) F d = if usestress g i then tcomp (stress g i) c else Q2Qc 0) /\ (forall k, k < extra -> nth (p + k) F d = Q2Qc 0).
Proof.
  intros stressb extra g d F e s p.
  set (A := flat_map (fun i => vec_list (a_force (atoms g i))) (seq 0 (natoms g))).
  set (B := map (coheng g) (seq 0 (nconf g))).
  set (C := if stressb then flat_map (fun i => if usestress g i then tens_list (stress g i) else repeat (Q2Qc 0) 6) (seq 0 (nconf g)) else []).
  assert (FE : F = A ++ B ++ C ++ repeat (Q2Qc 0) extra) by reflexivity.
  assert (WA : forall i, List.length (vec_list (a_force (atoms g i))) = 3) by (intro i; destruct (a_force (atoms g i)) as [[x y] z]; reflexivity).
  assert (WC : forall i, List.length (if usestress g i then tens_list (stress g i) else repeat (Q2Qc 0) 6) = 6) by (intro i; destruct (usestress g i); reflexivity).
  assert (LA : List.length A = e) by (apply (len_flat_map _ 3 WA)).
  assert (LB : List.length B = nconf g) by (unfold B; rewrite map_length, seq_length; reflexivity).
  assert (LC : List.length C = if stressb then 6 * nconf g else 0) by (unfold C; destruct stressb; [apply (len_flat_map _ 6 WC)|reflexivity]).
  rewrite FE. clearbody F. split; [|split; [|split; [|split]]].
  - rewrite !app_length, LA, LB, LC, repeat_length. unfold p, s. lia.
  - intros a c HA HC. rewrite app_nth1 by (rewrite LA; unfold e; lia). unfold A. rewrite (nth_flat_map _ d 3 _ WA) by assumption.
    cbn [Nat.add]. destruct (a_force (atoms g a)) as [[x y] z]. destruct c as [|[|[|c]]]; [reflexivity|reflexivity|reflexivity|lia].
  - intros i HI. rewrite app_nth2 by lia. rewrite LA. replace (e + i - e) with i by lia. rewrite app_nth1 by lia.
    unfold B. rewrite (nth_indep _ d (coheng g 0)) by (rewrite map_length, seq_length; exact HI). rewrite map_nth, seq_nth by exact HI. reflexivity.
  - intros SB i c HI HC. rewrite app_nth2 by lia. rewrite LA. rewrite app_nth2 by (rewrite LB; unfold s; lia). rewrite LB.
    replace (s + 6 * i + c - e - nconf g) with (6 * i + c) by (unfold s; lia).
    rewrite app_nth1 by (rewrite LC, SB; lia). unfold C. rewrite SB. rewrite (nth_flat_map _ d 6 _ WC) by assumption. cbn [Nat.add].
    destruct (usestress g i); destruct c as [|[|[|[|[|[|c]]]]]]; try reflexivity; lia.
  - intros k HK. rewrite app_nth2 by (unfold p, s; lia). rewrite app_nth2 by (rewrite LA, LB; unfold p, s; lia).
    rewrite app_nth2 by (rewrite LA, LB, LC; unfold p, s; lia). rewrite LA, LB, LC.
    replace (p + k - e - nconf g - (if stressb then 6 * nconf g else 0)) with k by (unfold p, s; lia).
    apply nth_repeat_lt. exact HK.
Qed.
