(** Proofs about the header of potential files. *)
From Coq Require Import ZArith List Bool Ascii String Arith Lia.
From Verif Require Import ParamsModel LinesModel ReadModel ReadProof HeadModel HeadSpec.
Import ListNotations.
Local Open Scope nat_scope.

Lemma is_keyed_iff : forall c s, is_keyed c s = true <-> keyed c s.
Proof.
  intros c s. unfold keyed. split.
  - destruct s as [|a [|b r]]; try discriminate. cbn [is_keyed].
    destruct (ascii_dec a "#") as [->|]; [|discriminate]. destruct (ascii_dec b c) as [->|]; [|discriminate].
    intros _. exists r. reflexivity.
  - intros [r ->]. cbn [is_keyed]. destruct (ascii_dec "#" "#"); [|congruence]. destruct (ascii_dec c c); [reflexivity|congruence].
Qed.
Lemma is_keyed_not : forall c s, is_keyed c s = false <-> ~ keyed c s.
Proof. intros c s. rewrite <- is_keyed_iff. destruct (is_keyed c s); split; congruence. Qed.
Lemma keyed_one : forall c d s, keyed c s -> keyed d s -> c = d.
Proof. intros c d s [r ->] [r' E]. congruence. Qed.

(** ** words and numbers do not depend on the line end *)
Lemma words_acc_lf : forall s acc, words_acc acc (s ++ [LF]) = words_acc acc s.
Proof.
  induction s as [|c s IH]; intro acc.
  - change (words_acc acc ([] ++ [LF])) with (match acc with [] => [] | _ => rev acc :: [] end). destruct acc; reflexivity.
  - cbn [app words_acc]. destruct (is_delim c); [destruct acc|]; rewrite ?IH; reflexivity.
Qed.
Lemma words_lf : forall s, words (s ++ [LF]) = words s.
Proof. intro s. apply words_acc_lf. Qed.
Lemma skip_space_lf : forall s, skip_space (s ++ [LF]) = match skip_space s with [] => [] | t => t ++ [LF] end.
Proof.
  induction s as [|c s IH]; [reflexivity|]. cbn [app skip_space]. destruct (is_space c); [exact IH|reflexivity].
Qed.
Lemma take_digits_lf : forall s, take_digits (s ++ [LF]) = (fst (take_digits s), snd (take_digits s) ++ [LF]).
Proof.
  induction s as [|c s IH]; [reflexivity|]. cbn [app take_digits]. destruct (is_digit c); [|reflexivity].
  rewrite IH. destruct (take_digits s). reflexivity.
Qed.
Lemma scan_d_lf : forall s, scan_d (s ++ [LF]) = match scan_d s with Some (z, r) => Some (z, r ++ [LF]) | None => None end.
Proof.
  intro s. unfold scan_d. rewrite skip_space_lf. destruct (skip_space s) as [|c t]; [reflexivity|].
  assert (E : take_sign ((c :: t) ++ [LF]) = (fst (take_sign (c :: t)), snd (take_sign (c :: t)) ++ [LF])).
  { cbn [app take_sign]. destruct (code c =? 45)%Z; [reflexivity|]. destruct (code c =? 43)%Z; reflexivity. }
  rewrite E. destruct (take_sign (c :: t)) as [n t1]. cbn [fst snd]. rewrite take_digits_lf.
  destruct (take_digits t1) as [[|d ds] r]; reflexivity.
Qed.
Lemma skipn_lf : forall k s, k <= List.length s -> skipn k (s ++ [LF]) = skipn k s ++ [LF].
Proof. intros k s H. rewrite skipn_app. replace (k - List.length s) with 0 by lia. reflexivity. Qed.
Lemma in_skipn : forall (x : ascii) k s, In x (skipn k s) -> In x s.
Proof. intros x k s H. rewrite <- (firstn_skipn k s). apply in_or_app. right. exact H. Qed.

Section Head.
Variable supported : Z -> bool.
Variables (npots ntypes : nat) (name : text) (apot : bool).
Notation lineok := (line_ok supported npots ntypes name apot).
Notation linesok := (lines_ok supported npots ntypes name apot).
Notation headline := (head_line supported npots ntypes name apot).

(** ** the state after given lines *)
Definition lastk (c : ascii) (L : list text) : option text := find (is_keyed c) (rev L).
Definition aft (L : list text) : list text := fold_left (fun a s => if is_keyed "F" s then [] else a ++ [s]) L [].
Definition hasF (L : list text) : bool := existsb (is_keyed "F") L.
Definition fmt (s : text) : Z := match scan_d (skipn 2 s) with Some (z, _) => z | None => 0%Z end.
Definition zeros (L : list text) : list Z := if hasF L then repeat 0%Z npots else [].
Definition one (z : Z) : bool := (z =? 1)%Z.
Definition st_of (L : list text) : hstate :=
  HState (hasF L) (match lastk "F" L with Some s => fmt s | None => 0%Z end)
    (match lastk "I" (aft L) with Some s => numbers npots s | None => zeros L end)
    (match lastk "I" L with Some s => existsb one (numbers npots s) | None => false end)
    (if apot then match lastk "I" L with Some s => List.length (filter one (numbers npots s)) | None => 0 end else 0)
    (if apot then zeros L else match lastk "G" (aft L) with Some s => numbers npots s | None => zeros L end)
    (if apot then false else match lastk "G" L with Some _ => true | None => false end)
    (match lastk "C" L with Some s => Some (map (firstn 14) (firstn ntypes (words (skipn 2 s)))) | None => None end).

Lemma lastk_snoc : forall c L s, lastk c (L ++ [s]) = if is_keyed c s then Some s else lastk c L.
Proof. intros c L s. unfold lastk. rewrite rev_app_distr. reflexivity. Qed.
Lemma aft_snoc : forall L s, aft (L ++ [s]) = if is_keyed "F" s then [] else aft L ++ [s].
Proof. intros L s. unfold aft. rewrite fold_left_app. reflexivity. Qed.
Lemma hasF_snoc : forall L s, hasF (L ++ [s]) = (hasF L || is_keyed "F" s)%bool.
Proof. intros L s. unfold hasF. rewrite existsb_app. cbn. rewrite orb_false_r. reflexivity. Qed.
Lemma hasF_iff : forall L, hasF L = true <-> has_format L.
Proof.
  intro L. unfold hasF, has_format. rewrite existsb_exists. split; intros (s & A & B); exists s; split; auto; apply is_keyed_iff; exact B.
Qed.
Lemma st_of_nil : st_of [] = hstate0.
Proof. unfold st_of, hstate0. destruct apot; reflexivity. Qed.

Lemma items_lf : forall k s c, keyed c s -> items k (s ++ [LF]) =
  if Nat.ltb (List.length (words (skipn 2 s))) k then None else Some (firstn k (words (skipn 2 s))).
Proof.
  intros k s c [r ->]. unfold items. rewrite skipn_lf by (cbn; lia). rewrite words_lf. reflexivity.
Qed.

Ltac other K := match goal with |- context [is_keyed ?d ?s] =>
  replace (is_keyed d s) with false by (symmetry; apply is_keyed_not; let H := fresh in intro H; pose proof (keyed_one _ _ _ K H); discriminate) end.

Lemma first_key : forall c s, keyed c s -> ch (s ++ [LF]) 0 = "#"%char /\ ch (s ++ [LF]) 1 = c.
Proof. intros c s [r ->]. split; reflexivity. Qed.

Definition good (p : list text) (s : text) : Prop :=
  (lineok p s /\ headline (s ++ [LF]) (st_of p) = HOk (st_of (p ++ [s]), false)) \/
  (~ lineok p s /\ exists e, headline (s ++ [LF]) (st_of p) = HErr e).

(** the line carries the letter c: only the condition for c matters *)
Lemma ok_only : forall p s c (P : Prop), keyed c s ->
  (P -> (c = "F"%char -> exists f r1 r2, scan_d (skipn 2 s) = Some (f, r1) /\ scan_d r1 = Some (Z.of_nat npots, r2) /\ supported f = true) /\
        (c = "T"%char -> skipn 3 s = name) /\ (c = "I"%char -> has_format p /\ enough npots s) /\
        (c = "G"%char -> apot = true \/ (has_format p /\ enough npots s)) /\ (c = "C"%char -> has_format p /\ enough ntypes s)) ->
  P -> lineok p s.
Proof.
  intros p s c P K H HP. destruct (H HP) as (F & T & I & G & C).
  split; [right; destruct K as [r ->]; eexists; reflexivity|].
  refine (conj _ (conj _ (conj _ (conj _ _)))); intro K2; pose proof (keyed_one _ _ _ K K2) as E;
    first [ apply F; exact E | apply T; exact E | apply (I E) | apply (G E) | apply (C E) ].
Qed.

Lemma step_F : forall p s, keyed "F" s -> good p s.
Proof.
  intros p s K. destruct (first_key _ _ K) as [A B]. unfold good, head_line. rewrite A, B.
  assert (L2 : 2 <= List.length s) by (destruct K as [r ->]; cbn; lia).
  cbv zeta. change (if ascii_dec "#" LF then HOk (st_of p, false) else ?x) with x.
  cbn -[line_F st_of]. unfold line_F at 1 2. rewrite skipn_lf by exact L2. rewrite scan_d_lf.
  assert (Q : lineok p s <-> exists f r1 r2, scan_d (skipn 2 s) = Some (f, r1) /\ scan_d r1 = Some (Z.of_nat npots, r2) /\ supported f = true).
  { split.
    - intros (_ & F & _). apply F. exact K.
    - apply ok_only with (1 := K). intro Q. refine (conj _ (conj _ (conj _ (conj _ _)))); try discriminate. intros _. exact Q. }
  rewrite Q. clear Q. destruct (scan_d (skipn 2 s)) as [[f r1]|] eqn:E1.
  2: { right. split; [|eexists; reflexivity]. intros (f & r1 & r2 & X & _). discriminate. }
  rewrite scan_d_lf. destruct (scan_d r1) as [[n r2]|] eqn:E2.
  2: { right. split; [|eexists; reflexivity]. intros (f' & r1' & r2 & X & Y & _). injection X as <- <-. congruence. }
  destruct (supported f) eqn:E3; cbn [negb].
  2: { right. split; [|eexists; reflexivity]. intros (f' & r1' & r2' & X & Y & Z). injection X as <- <-. congruence. }
  destruct (Z.eqb_spec n (Z.of_nat npots)) as [N|N]; cbn [negb].
  2: { right. split; [|eexists; reflexivity]. intros (f' & r1' & r2' & X & Y & Z). injection X as <- <-. congruence. }
  left. split. { exists f, r1, r2. subst n. auto. }
  cbn [hbind]. unfold st_of. rewrite !lastk_snoc, !aft_snoc, hasF_snoc. unfold zeros. rewrite hasF_snoc.
  rewrite (proj2 (is_keyed_iff _ _) K). repeat other K. rewrite !orb_true_r.
  cbn [h_have_invar h_invar_pots h_have_grad h_elements]. unfold fmt. rewrite E1.
  destruct apot; reflexivity.
Qed.

Lemma words_case : forall k s, (Nat.ltb (List.length (words (skipn 2 s))) k = false /\ enough k s) \/
  (Nat.ltb (List.length (words (skipn 2 s))) k = true /\ ~ enough k s).
Proof. intros k s. unfold enough. destruct (Nat.ltb_spec (List.length (words (skipn 2 s))) k); [right|left]; split; auto; lia. Qed.

Lemma step_I : forall p s, keyed "I" s -> good p s.
Proof.
  intros p s K. destruct (first_key _ _ K) as [A B]. unfold good, head_line. rewrite A, B.
  assert (Q : lineok p s <-> has_format p /\ enough npots s).
  { split.
    - intros (_ & _ & _ & I & _). apply I. exact K.
    - apply ok_only with (1 := K). intro Q. refine (conj _ (conj _ (conj _ (conj _ _)))); try discriminate; intros _; exact Q. }
  rewrite Q. rewrite <- hasF_iff. clear Q. cbv zeta. cbn -[line_I st_of]. unfold line_I at 1 2.
  rewrite (items_lf _ _ _ K). change (h_have (st_of p)) with (hasF p).
  destruct (hasF p) eqn:HF.
  2: { right. split; [intros [X _]; discriminate|eexists; reflexivity]. }
  destruct (words_case npots s) as [[-> W]|[-> W]].
  2: { right. split; [tauto|eexists; reflexivity]. }
  left. split; [tauto|]. cbn [hbind]. unfold st_of. rewrite !lastk_snoc, !aft_snoc, hasF_snoc. unfold zeros. rewrite hasF_snoc.
  repeat other K. rewrite !lastk_snoc.
  rewrite (proj2 (is_keyed_iff _ _) K). repeat other K. cbn [h_have h_format h_grad h_have_grad h_elements h_invar_pots].
  rewrite HF. cbn [orb]. unfold zeros. rewrite ?HF. unfold numbers, one. destruct apot; reflexivity.
Qed.

Lemma step_G : forall p s, keyed "G" s -> good p s.
Proof.
  intros p s K. destruct (first_key _ _ K) as [A B]. unfold good, head_line. rewrite A, B.
  assert (Q : lineok p s <-> apot = true \/ (has_format p /\ enough npots s)).
  { split.
    - intros (_ & _ & _ & _ & G & _). apply G. exact K.
    - apply ok_only with (1 := K). intro Q. refine (conj _ (conj _ (conj _ (conj _ _)))); try discriminate; intros _; exact Q. }
  rewrite Q. rewrite <- hasF_iff. clear Q. cbv zeta. cbn -[line_G st_of]. unfold line_G at 1 2.
  rewrite (items_lf _ _ _ K). change (h_have (st_of p)) with (hasF p).
  destruct apot eqn:AP.
  { left. split; [left; reflexivity|]. cbn [hbind]. unfold st_of. rewrite !lastk_snoc, !aft_snoc, hasF_snoc. unfold zeros. rewrite hasF_snoc.
    repeat other K. rewrite !lastk_snoc. repeat other K. rewrite AP, orb_false_r. reflexivity. }
  destruct (hasF p) eqn:HF.
  2: { right. split; [intros [X|[X _]]; discriminate|eexists; reflexivity]. }
  destruct (words_case npots s) as [[-> W]|[-> W]].
  2: { right. split; [intros [X|X]; [discriminate|tauto]|eexists; reflexivity]. }
  left. split; [tauto|]. cbn [hbind]. unfold st_of. rewrite !lastk_snoc, !aft_snoc, hasF_snoc. unfold zeros. rewrite hasF_snoc.
  rewrite (proj2 (is_keyed_iff _ _) K). repeat other K. rewrite !lastk_snoc.
  rewrite (proj2 (is_keyed_iff _ _) K). repeat other K. cbn [h_have h_format h_invar h_have_invar h_elements h_invar_pots].
  unfold zeros. rewrite AP, HF. reflexivity.
Qed.

Lemma step_C : forall p s, keyed "C" s -> good p s.
Proof.
  intros p s K. destruct (first_key _ _ K) as [A B]. unfold good, head_line. rewrite A, B.
  assert (Q : lineok p s <-> has_format p /\ enough ntypes s).
  { split.
    - intros (_ & _ & _ & _ & _ & C). apply C. exact K.
    - apply ok_only with (1 := K). intro Q. refine (conj _ (conj _ (conj _ (conj _ _)))); try discriminate; intros _; exact Q. }
  rewrite Q. rewrite <- hasF_iff. clear Q. cbv zeta. cbn -[line_C st_of]. unfold line_C at 1 2.
  rewrite (items_lf _ _ _ K). change (h_have (st_of p)) with (hasF p).
  destruct (hasF p) eqn:HF.
  2: { right. split; [intros [X _]; discriminate|eexists; reflexivity]. }
  destruct (words_case ntypes s) as [[-> W]|[-> W]].
  2: { right. split; [tauto|eexists; reflexivity]. }
  left. split; [tauto|]. cbn [hbind]. unfold st_of. rewrite !lastk_snoc, !aft_snoc, hasF_snoc. unfold zeros. rewrite hasF_snoc.
  repeat other K. rewrite !lastk_snoc.
  rewrite (proj2 (is_keyed_iff _ _) K). repeat other K. cbn [h_have h_format h_invar h_have_invar h_grad h_have_grad h_invar_pots].
  unfold zeros. rewrite HF. reflexivity.
Qed.

Lemma same : forall p s, ~ keyed "F" s -> ~ keyed "I" s -> ~ keyed "G" s -> ~ keyed "C" s -> st_of (p ++ [s]) = st_of p.
Proof.
  intros p s F I G C. rewrite <- is_keyed_not in F, I, G, C. unfold st_of. rewrite !lastk_snoc, !aft_snoc, hasF_snoc. unfold zeros.
  rewrite hasF_snoc. rewrite F, I, G, C. rewrite !lastk_snoc, I, G, orb_false_r. reflexivity.
Qed.

Lemma step_T : forall p s, ~ In LF s -> keyed "T" s -> good p s.
Proof.
  intros p s NL K. destruct (first_key _ _ K) as [A B]. unfold good, head_line. rewrite A, B.
  assert (Q : lineok p s <-> skipn 3 s = name).
  { split.
    - intros (_ & _ & T & _). apply T. exact K.
    - apply ok_only with (1 := K). intro Q. refine (conj _ (conj _ (conj _ (conj _ _)))); try discriminate; intros _; exact Q. }
  rewrite Q. clear Q. cbv zeta. cbn -[line_T st_of LF skipn]. unfold line_T at 1 2.
  replace (Nat.ltb (List.length (s ++ [LF])) 3) with false.
  2: { symmetry. apply Nat.ltb_ge. rewrite app_length. destruct K as [r ->]. cbn. lia. }
  assert (E : cut_lf (skipn 3 (s ++ [LF])) = skipn 3 s).
  { destruct (Nat.leb_spec 3 (List.length s)) as [L|L].
    - rewrite skipn_lf by exact L. apply cut_line. intro H. apply NL. apply in_skipn in H. exact H.
    - destruct K as [[|x r] ->]; [reflexivity|cbn in L; lia]. }
  rewrite E. unfold text_eqb. destruct (list_eq_dec ascii_dec (skipn 3 s) name) as [E2|E2].
  2: { right. split; [exact E2|eexists; reflexivity]. }
  left. split; [exact E2|]. cbn [hbind]. rewrite same; [reflexivity| | | |]; intro H; pose proof (keyed_one _ _ _ K H); discriminate.
Qed.

Lemma step : forall p s, proper s -> ~ keyed "E" s -> good p s.
Proof.
  intros p s [NL [_ _]] NE.
  destruct (is_keyed "F" s) eqn:F; [apply step_F; apply is_keyed_iff; exact F|].
  destruct (is_keyed "I" s) eqn:I; [apply step_I; apply is_keyed_iff; exact I|].
  destruct (is_keyed "G" s) eqn:G; [apply step_G; apply is_keyed_iff; exact G|].
  destruct (is_keyed "C" s) eqn:C; [apply step_C; apply is_keyed_iff; exact C|].
  destruct (is_keyed "T" s) eqn:T; [apply step_T; [exact NL|apply is_keyed_iff; exact T]|].
  rewrite is_keyed_not in F, I, G, C, T. unfold good. rewrite same by assumption.
  assert (Q : lineok p s <-> (s = [] \/ exists r, s = "#"%char :: r)).
  { split; [intros [X _]; exact X|]. intro X. split; [exact X|]. refine (conj _ (conj _ (conj _ (conj _ _)))); intro; exfalso; tauto. }
  rewrite Q. clear Q. unfold head_line. cbv zeta. destruct s as [|a s'].
  { left. split; [left; reflexivity|]. change (ch ([] ++ [LF]) 0) with LF. destruct (ascii_dec LF LF); [reflexivity|congruence]. }
  change (ch ((a :: s') ++ [LF]) 0) with a.
  destruct (ascii_dec a LF) as [->|_]; [exfalso; apply NL; left; reflexivity|].
  destruct (ascii_dec a "#") as [->|N].
  2: { right. split; [|eexists; reflexivity]. intros [X|[r X]]; congruence. }
  left. split; [right; eexists; reflexivity|].
  destruct s' as [|b r].
  { reflexivity. }
  change (ch (("#"%char :: b :: r) ++ [LF]) 1) with b. unfold keyed in *.
  destruct (ascii_dec b "C") as [->|_]; [exfalso; apply C; eexists; reflexivity|].
  destruct (ascii_dec b "E") as [->|_]; [exfalso; apply NE; eexists; reflexivity|].
  destruct (ascii_dec b "G") as [->|_]; [exfalso; apply G; eexists; reflexivity|].
  destruct (ascii_dec b "I") as [->|_]; [exfalso; apply I; eexists; reflexivity|].
  destruct (ascii_dec b "F") as [->|_]; [exfalso; apply F; eexists; reflexivity|].
  destruct (ascii_dec b "T") as [->|_]; [exfalso; apply T; eexists; reflexivity|].
  reflexivity.
Qed.

(** ** all lines *)
Notation headr := (head supported npots ntypes name apot).
Lemma run : forall L p k rest, Forall proper L -> none "E" L ->
  ((forall a s b, L = a ++ s :: b -> lineok (p ++ a) s) /\
     headr (k + List.length L) (text_of L ++ rest) (st_of p) = headr k rest (st_of (p ++ L))) \/
  (~ (forall a s b, L = a ++ s :: b -> lineok (p ++ a) s) /\
     exists e, headr (k + List.length L) (text_of L ++ rest) (st_of p) = HErr e).
Proof.
  induction L as [|s L IH]; intros p k rest FP NE.
  - left. split; [intros [|] ? ? X; discriminate|]. rewrite app_nil_r, Nat.add_0_r. reflexivity.
  - pose proof (Forall_inv FP) as PS. pose proof (Forall_inv_tail FP) as FL.
    assert (NS : ~ keyed "E" s) by (apply NE; left; reflexivity).
    assert (NL : none "E" L) by (intros x X; apply NE; right; exact X).
    assert (E1 : headr (k + List.length (s :: L)) (text_of (s :: L) ++ rest) (st_of p) =
      hbind (headline (s ++ [LF]) (st_of p)) (fun q => let '(st, fin) := q in
        if fin then HOk (st, text_of L ++ rest) else headr (k + List.length L) (text_of L ++ rest) st)).
    { cbn [List.length]. rewrite Nat.add_succ_r. cbn [head].
      replace (text_of (s :: L) ++ rest) with (s ++ LF :: (text_of L ++ rest)).
      2: { unfold text_of. cbn [flat_map]. rewrite <- !app_assoc. reflexivity. }
      destruct PS as (P1 & P2 & P3). rewrite fgets_line; [reflexivity|split; assumption|exact P3]. }
    rewrite E1. destruct (step p s PS NS) as [[O H]|[O [e H]]]; rewrite H; cbn [hbind].
    + destruct (IH (p ++ [s]) k rest FL NL) as [[O2 H2]|[O2 H2]].
      * left. split.
        -- intros [|x a] y b X; cbn [app] in X; injection X as <- X.
           ++ rewrite app_nil_r. exact O.
           ++ specialize (O2 a y b X). rewrite <- app_assoc in O2. exact O2.
        -- rewrite H2. rewrite <- app_assoc. reflexivity.
      * right. split; [|exact H2]. intro Z. apply O2. intros a y b X. rewrite <- app_assoc. apply (Z (s :: a) y b). cbn. rewrite X. reflexivity.
    + right. split; [|eexists; reflexivity]. intro Z. apply O. specialize (Z [] s L eq_refl). rewrite app_nil_r in Z. exact Z.
Qed.

Notation rd := (read_header supported npots ntypes name apot).
Lemma len_text : forall L, List.length L <= List.length (text_of L).
Proof.
  induction L as [|s L IH]; [cbn; lia|]. unfold text_of in *. cbn [flat_map List.length]. rewrite !app_length. cbn [List.length]. lia.
Qed.
Lemma text_of_app : forall a b, text_of (a ++ b) = text_of a ++ text_of b.
Proof. intros a b. unfold text_of. apply flat_map_app. Qed.

Lemma run0 : forall L k rest, Forall proper L -> none "E" L ->
  (linesok L /\ headr (k + List.length L) (text_of L ++ rest) hstate0 = headr k rest (st_of L)) \/
  (~ linesok L /\ exists e, headr (k + List.length L) (text_of L ++ rest) hstate0 = HErr e).
Proof. intros L k rest FP NE. rewrite <- st_of_nil. exact (run L [] k rest FP NE). Qed.

Lemma end_line : forall k e r st, proper e -> keyed "E" e -> headr (S k) (text_of [e] ++ r) st = HOk (st, r).
Proof.
  intros k e r st (P1 & P2 & P3) K. cbn [head].
  replace (text_of [e] ++ r) with (e ++ LF :: r) by (unfold text_of; cbn [flat_map]; rewrite app_nil_r, <- app_assoc; reflexivity).
  rewrite fgets_line; [|split; assumption|exact P3]. unfold head_line. destruct (first_key _ _ K) as [-> ->]. reflexivity.
Qed.

Lemma fuel_split : forall L e r, exists k, S (List.length (text_of (L ++ [e]) ++ r)) = S k + List.length L.
Proof.
  intros L e r. rewrite app_length, text_of_app, app_length. pose proof (len_text L).
  exists (List.length (text_of L) + List.length (text_of [e]) + List.length r - List.length L). lia.
Qed.

(** ** meaning of [st_of] *)
Lemma lastk_none : forall c L, lastk c L = None <-> none c L.
Proof.
  intros c L. unfold lastk, none. split.
  - intros H x X. apply is_keyed_not. apply (find_none _ _ H). apply in_rev in X. exact X.
  - intro H. destruct (find (is_keyed c) (rev L)) eqn:E; [|reflexivity]. apply find_some in E. destruct E as [I K].
    exfalso. apply (H t); [apply in_rev; exact I|apply is_keyed_iff; exact K].
Qed.
Lemma lastk_last : forall c L s, last_one c L s -> lastk c L = Some s.
Proof.
  intros c L s (p & q & -> & K & N). revert N. induction q as [|x q IH] using rev_ind; intro N.
  - rewrite lastk_snoc, (proj2 (is_keyed_iff _ _) K). reflexivity.
  - change (p ++ s :: q ++ [x]) with (p ++ (s :: q) ++ [x]). rewrite app_assoc, lastk_snoc.
    rewrite (proj2 (is_keyed_not c x)) by (apply N; apply in_or_app; right; left; reflexivity).
    apply IH. intros y Y. apply N. apply in_or_app. left. exact Y.
Qed.
Lemma split_last : forall c L, (exists s, In s L /\ keyed c s) -> exists p s q, L = p ++ s :: q /\ keyed c s /\ none c q.
Proof.
  intros c L. induction L as [|x L IH] using rev_ind; intros (s & I & K); [destruct I|].
  destruct (is_keyed c x) eqn:E.
  - exists L, x, []. split; [reflexivity|]. split; [apply is_keyed_iff; exact E|intros y []].
  - destruct IH as (p & t & q & -> & K2 & N).
    { exists s. split; [|exact K]. apply in_app_or in I. destruct I as [I|[->|[]]]; [exact I|]. apply is_keyed_iff in K. congruence. }
    exists p, t, (q ++ [x]). split; [rewrite <- app_assoc; reflexivity|]. split; [exact K2|].
    intros y Y. apply in_app_or in Y. destruct Y as [Y|[->|[]]]; [apply N; exact Y|apply is_keyed_not; exact E].
Qed.
Lemma aft_split : forall p f q, keyed "F" f -> none "F" q -> aft (p ++ f :: q) = q.
Proof.
  intros p f q K. induction q as [|x q IH] using rev_ind; intro N.
  - rewrite aft_snoc, (proj2 (is_keyed_iff _ _) K). reflexivity.
  - change (p ++ f :: q ++ [x]) with (p ++ (f :: q) ++ [x]). rewrite app_assoc, aft_snoc.
    rewrite (proj2 (is_keyed_not "F" x)) by (apply N; apply in_or_app; right; left; reflexivity).
    rewrite IH; [reflexivity|]. intros y Y. apply N. apply in_or_app. left. exact Y.
Qed.

Lemma says_st_of : forall L, linesok L -> has_format L -> says npots ntypes apot L (st_of L).
Proof.
  intros L O HF. pose proof (proj2 (hasF_iff L) HF) as HB. split.
  { destruct (split_last _ _ HF) as (p & f & q & E & K & N). exists p, f, q. split; [exact E|]. split; [exact K|]. split; [exact N|].
    assert (LF' : lastk "F" L = Some f) by (apply lastk_last; exists p, q; auto).
    assert (EA : aft L = q) by (rewrite E; apply aft_split; assumption).
    split.
    { destruct (O p f q E) as (_ & F & _). destruct (F K) as (z & r1 & r2 & S1 & _). exists r1. unfold st_of. rewrite LF'. cbn [h_format].
      unfold fmt. rewrite S1. reflexivity. }
    unfold st_of. cbn [h_invar h_grad]. rewrite EA. unfold zeros. rewrite HB.
    split; [intros s S1; rewrite (lastk_last _ _ _ S1); reflexivity|].
    split; [intro N2; rewrite (proj2 (lastk_none _ _) N2); reflexivity|].
    intros ->. split; [intros s S1; rewrite (lastk_last _ _ _ S1); reflexivity|intro N2; rewrite (proj2 (lastk_none _ _) N2); reflexivity]. }
  unfold st_of. cbn [h_elements h_have_invar h_have_grad].
  split; [intros s S1; rewrite (lastk_last _ _ _ S1); reflexivity|].
  split; [intro N2; rewrite (proj2 (lastk_none _ _) N2); reflexivity|].
  split; [intros s S1; rewrite (lastk_last _ _ _ S1); reflexivity|].
  split; [intro N2; rewrite (proj2 (lastk_none _ _) N2); reflexivity|].
  intros ->. destruct (lastk "G" L) as [s|] eqn:E.
  - split; [|reflexivity]. intros _. exists s. unfold lastk in E. apply find_some in E. destruct E as [I K].
    split; [apply in_rev; exact I|apply is_keyed_iff; exact K].
  - split; [discriminate|]. intros (s & I & K). exfalso. apply lastk_none in E. apply (E s I K).
Qed.

Theorem accepted : forall L e r, Forall proper (L ++ [e]) -> none "E" L -> keyed "E" e -> linesok L -> has_format L ->
  exists st, rd (text_of (L ++ [e]) ++ r) = HOk (st, r) /\ says npots ntypes apot L st.
Proof.
  intros L e r FP NE K O HF. apply Forall_app in FP. destruct FP as [FL FE]. pose proof (Forall_inv FE) as PE.
  exists (st_of L). split; [|apply says_st_of; assumption].
  unfold read_header. destruct (fuel_split L e r) as [k ->]. rewrite text_of_app, <- app_assoc.
  destruct (run0 L (S k) (text_of [e] ++ r) FL NE) as [[_ ->]|[X _]]; [|tauto].
  rewrite end_line by assumption. cbn [hbind fst]. change (h_have (st_of L)) with (hasF L). rewrite (proj2 (hasF_iff L) HF). reflexivity.
Qed.

Theorem refused : forall L e r, Forall proper (L ++ [e]) -> none "E" L -> keyed "E" e -> ~ (linesok L /\ has_format L) ->
  exists x, rd (text_of (L ++ [e]) ++ r) = HErr x.
Proof.
  intros L e r FP NE K N. apply Forall_app in FP. destruct FP as [FL FE]. pose proof (Forall_inv FE) as PE.
  unfold read_header. destruct (fuel_split L e r) as [k ->]. rewrite text_of_app, <- app_assoc.
  destruct (run0 L (S k) (text_of [e] ++ r) FL NE) as [[O ->]|[_ [x ->]]]; [|eexists; reflexivity].
  rewrite end_line by assumption. cbn [hbind fst]. change (h_have (st_of L)) with (hasF L).
  destruct (hasF L) eqn:E; [|eexists; reflexivity]. exfalso. apply N. split; [exact O|]. apply hasF_iff. exact E.
Qed.

Theorem unfinished : forall L, Forall proper L -> none "E" L -> exists x, rd (text_of L) = HErr x.
Proof.
  intros L FL NE. unfold read_header. pose proof (len_text L) as LL.
  replace (S (List.length (text_of L))) with (S (List.length (text_of L) - List.length L) + List.length L) by lia.
  destruct (run0 L (S (List.length (text_of L) - List.length L)) [] FL NE) as [[O H]|[_ [x H]]]; rewrite app_nil_r in H; rewrite H; eexists; reflexivity.
Qed.

(** ** which functions are fixed *)
Definition zero_one (L : list text) : Prop := forall s z, In s L -> keyed "I" s -> In z (numbers npots s) -> z = 0%Z \/ z = 1%Z.
Lemma exact_01 : forall v, (forall z, In z v -> z = 0%Z \/ z = 1%Z) ->
  (existsb one v = true <-> exists z, In z v /\ z <> 0%Z) /\ List.length (filter one v) = List.length (filter (fun z => negb (z =? 0)%Z) v).
Proof.
  intros v H. split.
  - rewrite existsb_exists. split; intros (z & I & N); exists z; split; try exact I.
    + unfold one in N. apply Z.eqb_eq in N. lia.
    + unfold one. apply Z.eqb_eq. destruct (H z I); lia.
  - f_equal. apply filter_ext_in. intros z I. unfold one. destruct (H z I) as [->| ->]; reflexivity.
Qed.
Theorem fixed_partial : forall L e r st, Forall proper (L ++ [e]) -> none "E" L -> keyed "E" e ->
  (forall p f q, L = p ++ f :: q -> keyed "F" f -> none "F" q /\ none "F" p) ->
  zero_one L -> rd (text_of (L ++ [e]) ++ r) = HOk (st, r) ->
  (h_have_invar st = true <-> exists z, In z (h_invar st) /\ z <> 0%Z) /\
  (apot = true -> h_invar_pots st = List.length (filter (fun z => negb (z =? 0)%Z) (h_invar st))).
Proof.
  intros L e r st FP NE K ONE ZO R. apply Forall_app in FP. destruct FP as [FL FE]. pose proof (Forall_inv FE) as PE.
  unfold read_header in R. destruct (fuel_split L e r) as [k Ek]. rewrite Ek in R. rewrite text_of_app, <- app_assoc in R.
  destruct (run0 L (S k) (text_of [e] ++ r) FL NE) as [[O Ho]|[_ [x Ho]]]; rewrite Ho in R; [|discriminate].
  rewrite end_line in R by assumption. cbn [hbind fst] in R. change (h_have (st_of L)) with (hasF L) in R.
  destruct (hasF L) eqn:HB; [|discriminate]. injection R as <-. apply hasF_iff in HB.
  destruct (split_last _ _ HB) as (p & f & q & E & KF & N). destruct (ONE p f q E KF) as [_ NP].
  assert (EA : aft L = q) by (rewrite E; apply aft_split; assumption).
  assert (EI : lastk "I" (aft L) = lastk "I" L).
  { rewrite EA. destruct (lastk "I" q) as [s|] eqn:Q.
    - assert (X : exists s, In s q /\ keyed "I" s).
      { unfold lastk in Q. apply find_some in Q. destruct Q as [I1 I2]. exists s. split; [apply in_rev; exact I1|apply is_keyed_iff; exact I2]. }
      destruct (split_last _ _ X) as (a & t & b & Eq & Kt & Nt).
      assert (T : lastk "I" q = Some t) by (apply lastk_last; exists a, b; auto).
      rewrite <- Q, T. symmetry. apply lastk_last. exists (p ++ f :: a), b. split; [rewrite E, Eq, <- app_assoc; reflexivity|auto].
    - symmetry. apply lastk_none. apply lastk_none in Q. intros x X KX. rewrite E in X. apply in_app_or in X. destruct X as [X|[X|X]].
      + destruct (in_split _ _ X) as (a & b & Ep).
        destruct (O a x (b ++ f :: q)) as (_ & _ & _ & I & _). { rewrite E, Ep, <- app_assoc. reflexivity. }
        destruct (I KX) as [(y & Y1 & Y2) _]. apply (NP y); [|exact Y2]. rewrite Ep. apply in_or_app. left. exact Y1.
      + subst x. pose proof (keyed_one _ _ _ KX KF). discriminate.
      + apply (Q x X KX). }
  unfold st_of. cbn [h_have_invar h_invar h_invar_pots]. rewrite EI.
  destruct (lastk "I" L) as [s|] eqn:Q.
  - assert (X : In s L /\ keyed "I" s).
    { unfold lastk in Q. apply find_some in Q. destruct Q as [I1 I2]. split; [apply in_rev; exact I1|apply is_keyed_iff; exact I2]. }
    destruct (exact_01 (numbers npots s)) as [A B]. { intros z Z1. apply (ZO s z (proj1 X) (proj2 X) Z1). }
    split; [exact A|]. intros ->. exact B.
  - assert (Z : forall z, In z (zeros L) -> z = 0%Z).
    { intros z Z1. unfold zeros in Z1. destruct (hasF L); [apply repeat_spec in Z1; exact Z1|destruct Z1]. }
    split.
    + split; [discriminate|]. intros (z & Z1 & Z2). elim Z2. apply Z. exact Z1.
    + intros ->. assert (X : filter (fun z => negb (z =? 0)%Z) (zeros L) = []).
      { revert Z. generalize (zeros L). induction l as [|z l IH]; intro HZ; [reflexivity|]. cbn.
        rewrite (HZ z (or_introl eq_refl)). cbn. apply IH. intros y Y. apply HZ. right. exact Y. }
      rewrite X. reflexivity.
Qed.
End Head.
