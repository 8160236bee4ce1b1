From Coq Require Import ZArith List Bool Ascii String Lia QArith Qpower Qabs.
From Verif Require Import ParamsModel.
Import ListNotations.
Open Scope Z_scope.

(** * Specification of numerals *)
Definition digit_char (d : Z) : ascii := ascii_of_nat (Z.to_nat (48 + d)).
Definition digits_ok (ds : list Z) : Prop := forall d, In d ds -> 0 <= d <= 9.
(** positional value *)
Fixpoint positional (ds : list Z) : Z :=
  match ds with [] => 0 | d :: ds' => d * 10 ^ Z.of_nat (List.length ds') + positional ds' end.

Inductive sign_text : text -> bool -> Prop :=
| st_none : sign_text [] false
| st_plus : sign_text ["+"%char] false
| st_minus : sign_text ["-"%char] true.

Definition signed (neg : bool) (z : Z) : Z := if neg then - z else z.

(** [s] is a decimal integer numeral with value [z] *)
Definition written (s : text) (z : Z) : Prop :=
  exists sg neg ds, sign_text sg neg /\ ds <> [] /\ digits_ok ds /\
    s = sg ++ map digit_char ds /\ z = signed neg (positional ds).

Lemma code_digit : forall d, 0 <= d <= 9 -> code (digit_char d) = 48 + d.
Proof.
  intros d H. unfold code, digit_char. rewrite nat_ascii_embedding by lia. lia.
Qed.

Lemma is_digit_char : forall d, 0 <= d <= 9 -> is_digit (digit_char d) = true.
Proof. intros d H. unfold is_digit. rewrite code_digit by exact H. rewrite andb_true_iff, !Z.leb_le. lia. Qed.

Lemma take_digits_app : forall ds r, digits_ok ds ->
  match r with c :: _ => is_digit c = false | [] => True end ->
  take_digits (map digit_char ds ++ r) = (ds, r).
Proof.
  induction ds as [|d ds IH]; intros r Hd Hr; cbn [map app take_digits].
  - destruct r as [|c r]; [reflexivity|]. cbn. rewrite Hr. reflexivity.
  - rewrite is_digit_char by (apply Hd; left; reflexivity).
    rewrite IH; [|intros x Hx; apply Hd; right; exact Hx|exact Hr].
    rewrite code_digit by (apply Hd; left; reflexivity). f_equal. f_equal. lia.
Qed.

Lemma horner_acc : forall ds a, fold_left (fun a d => 10 * a + d) ds a =
  a * 10 ^ Z.of_nat (List.length ds) + positional ds.
Proof.
  induction ds as [|d ds IH]; intros a; cbn [fold_left positional List.length]; [cbn; lia|].
  rewrite IH. rewrite Nat2Z.inj_succ, Z.pow_succ_r by lia. ring.
Qed.

Lemma horner_positional : forall ds, horner ds = positional ds.
Proof. intros ds. unfold horner. rewrite horner_acc. lia. Qed.

Lemma code_inj_ne : forall c z, 0 <= z < 256 -> code c = z -> c = ascii_of_nat (Z.to_nat z).
Proof.
  intros c z Hz H. rewrite <- (ascii_nat_embedding c). f_equal. unfold code in H. lia.
Qed.

Lemma digit_not_space_sign : forall d, 0 <= d <= 9 ->
  is_space (digit_char d) = false /\ (code (digit_char d) =? 45) = false /\ (code (digit_char d) =? 43) = false.
Proof.
  intros d H. unfold is_space. rewrite code_digit by exact H.
  rewrite orb_false_iff, andb_false_iff, !Z.eqb_neq, !Z.leb_gt. lia.
Qed.

Lemma sign_parse : forall sg neg ds r, sign_text sg neg -> ds <> [] -> digits_ok ds ->
  take_sign (skip_space (sg ++ map digit_char ds ++ r)) = (neg, map digit_char ds ++ r).
Proof.
  intros sg neg ds r Hs Hne Hd. destruct ds as [|d ds]; [contradiction|].
  destruct (digit_not_space_sign d) as (A & B & C); [apply Hd; left; reflexivity|].
  destruct Hs; cbn [app map skip_space].
  - rewrite A. unfold take_sign. rewrite B, C. reflexivity.
  - reflexivity.
  - reflexivity.
Qed.

Lemma strtol_written : forall s z, written s z ->
  strtol s = Some (Z.max LONG_MIN (Z.min LONG_MAX z)).
Proof.
  intros s z (sg & neg & ds & Hs & Hne & Hd & -> & ->). unfold strtol.
  pose proof (sign_parse sg neg ds [] Hs Hne Hd) as E. rewrite app_nil_r in E. rewrite E.
  pose proof (take_digits_app ds [] Hd I) as T. rewrite app_nil_r in T. rewrite T.
  destruct ds as [|d ds]; [contradiction|]. rewrite horner_positional. reflexivity.
Qed.

Lemma to_int_id : forall z, - 2^31 <= z < 2^31 -> to_int z = z.
Proof. intros z H. unfold to_int. rewrite Z.mod_small; lia. Qed.

Lemma to_int_range : forall z, - 2^31 <= to_int z < 2^31.
Proof. intros z. unfold to_int. pose proof (Z.mod_pos_bound (z + 2^31) (2^32) ltac:(lia)). lia. Qed.

Lemma get_int_range : forall str lo hi v, get_param_int str lo hi = GOk v -> lo <= v <= hi.
Proof.
  intros str lo hi v H. unfold get_param_int in H. destruct str as [s|]; [|discriminate].
  destruct (strtol s) as [l|]; [|discriminate].
  destruct (to_int l <? lo) eqn:A; [discriminate|]. destruct (to_int l >? hi) eqn:B; [discriminate|].
  cbn in H. injection H as <-. apply Z.ltb_ge in A. rewrite Z.gtb_ltb in B. apply Z.ltb_ge in B. lia.
Qed.

Lemma get_int_written : forall s z lo hi, written s z -> - 2^31 <= z < 2^31 ->
  get_param_int (Some s) lo hi = (if (lo <=? z) && (z <=? hi) then GOk z else GError).
Proof.
  intros s z lo hi W R. unfold get_param_int. rewrite (strtol_written s z W).
  replace (Z.max LONG_MIN (Z.min LONG_MAX z)) with z by (unfold LONG_MIN, LONG_MAX; lia).
  rewrite to_int_id by exact R. rewrite Z.gtb_ltb.
  destruct (Z.ltb_spec z lo); destruct (Z.leb_spec lo z); destruct (Z.ltb_spec hi z); destruct (Z.leb_spec z hi);
    cbn; try reflexivity; lia.
Qed.

(** too large or too small numerals: what is stored is the wrapped value *)
Lemma get_int_wraps : exists s z v, written s z /\ get_param_int (Some s) 1 INT_MAX = GOk v /\ v <> z.
Proof.
  exists (txt "4294967297"), 4294967297, 1. split.
  - exists [], false, [4;2;9;4;9;6;7;2;9;7]. split; [constructor|]. split; [discriminate|]. split.
    + intros d H. cbn in H. lia.
    + split; reflexivity.
  - split; [reflexivity|discriminate].
Qed.

Lemma written_chars : forall s z c, written s z -> In c s -> is_digit c = true \/ c = "+"%char \/ c = "-"%char.
Proof.
  intros s z c (sg & neg & ds & Hs & _ & Hd & -> & _) H.
  apply in_app_iff in H. destruct H as [H|H].
  - destruct Hs; cbn in H; [contradiction| |]; destruct H as [<-|[]]; auto.
  - apply in_map_iff in H. destruct H as (d & <- & H). left. apply is_digit_char, Hd, H.
Qed.

Lemma get_int_garbage : exists s v, (forall z, ~ written s z) /\ get_param_int (Some s) 1 INT_MAX = GOk v.
Proof.
  exists (txt "12abc"), 12. split; [|reflexivity].
  intros z W. destruct (written_chars _ z "a"%char W) as [H|[H|H]]; try discriminate.
  cbn. auto.
Qed.

(** * Doubles *)
Definition dec_Q (d : dec) : Q := inject_Z (man d) * (inject_Z 10) ^ (ex d).

Lemma dec_cmp_spec : forall a b, dec_cmp a b = (dec_Q a ?= dec_Q b)%Q.
Proof.
  intros a b. unfold dec_cmp.
  set (e := Z.min (ex a) (ex b)).
  assert (P : forall d, e <= ex d -> (dec_Q d == inject_Z (man d * 10 ^ (ex d - e)) * (inject_Z 10) ^ e)%Q).
  { intros d H. unfold dec_Q. replace (ex d) with ((ex d - e) + e) at 1 by lia.
    rewrite Qpower_plus by (intros X; discriminate X).
    rewrite inject_Z_mult. rewrite <- Zpower_Qpower by lia. ring. }
  rewrite (P a), (P b) by (unfold e; lia).
  assert (Hp : (0 < (inject_Z 10) ^ e)%Q) by (apply Qpower_0_lt; reflexivity).
  generalize dependent ((inject_Z 10) ^ e)%Q. intros q _ Hp.
  generalize (man a * 10 ^ (ex a - e)), (man b * 10 ^ (ex b - e)). intros x y.
  symmetry. destruct (Z.compare_spec x y) as [E|E|E].
  - apply Qeq_alt. rewrite E. reflexivity.
  - apply Qlt_alt. apply Qmult_lt_r; [exact Hp|]. rewrite <- Zlt_Qlt. exact E.
  - apply Qgt_alt. apply Qmult_lt_r; [exact Hp|]. rewrite <- Zlt_Qlt. exact E.
Qed.

Lemma get_double_range : forall str lo hi v, get_param_double str lo hi = GOk v ->
  v = DNaN \/ exists d, v = DFin d /\ (dec_Q lo <= dec_Q d)%Q /\ (dec_Q d <= dec_Q hi)%Q.
Proof.
  intros str lo hi v H. unfold get_param_double in H. destruct str as [s|]; [|discriminate].
  destruct (strtod s) as [w|]; [|discriminate].
  destruct (dlt w (DFin lo)) eqn:A; [discriminate|]. destruct (dlt (DFin hi) w) eqn:B; [discriminate|].
  cbn in H. injection H as <-. destruct w as [d|[|]|]; cbn in A, B; try discriminate; [right|left; reflexivity].
  exists d. split; [reflexivity|]. rewrite dec_cmp_spec in A, B. split.
  - apply Qnot_lt_le. intros X. rewrite (proj1 (Qlt_alt _ _) X) in A. discriminate.
  - apply Qnot_lt_le. intros X. rewrite (proj1 (Qlt_alt _ _) X) in B. discriminate.
Qed.

Lemma get_double_nan : forall lo hi, get_param_double (Some (txt "nan")) lo hi = GOk DNaN.
Proof. reflexivity. Qed.

(** [s] is a decimal number without exponent garbage: sign, digits, optional fraction,
    optional exponent; [q] its value *)
Definition written_dec (s : text) (q : Q) : Prop :=
  exists sg neg ip fp dot esg eneg ed es,
    sign_text sg neg /\ digits_ok ip /\ digits_ok fp /\ ip <> [] /\ digits_ok ed /\
    sign_text esg eneg /\
    (dot = map digit_char [] /\ fp = [] \/ dot = ["."%char]) /\
    (es = [] /\ ed = [] /\ esg = [] \/ ((es = ["e"%char] \/ es = ["E"%char]) /\ ed <> [])) /\
    s = sg ++ map digit_char ip ++ dot ++ map digit_char fp ++ es ++ esg ++ map digit_char ed /\
    (q == inject_Z (signed neg (positional (ip ++ fp))) *
          (inject_Z 10) ^ (signed eneg (positional ed) - Z.of_nat (List.length fp)))%Q.

Lemma lower_digit : forall d, 0 <= d <= 9 -> lower (digit_char d) = digit_char d.
Proof.
  intros d H. unfold lower. rewrite code_digit by exact H.
  replace (65 <=? 48 + d) with false by (symmetry; apply Z.leb_gt; lia). reflexivity.
Qed.

Lemma digit_not_word : forall d s p c, 0 <= d <= 9 -> code (lower c) > 57 ->
  prefix_ci (c :: p) (digit_char d :: s) = false.
Proof.
  intros d s p c H Hc. cbn. rewrite lower_digit by exact H.
  destruct (ascii_dec (lower c) (digit_char d)) as [E|E]; [|reflexivity].
  rewrite E, code_digit in Hc by exact H. lia.
Qed.

Lemma take_exponent_spec : forall es esg eneg ed, digits_ok ed -> sign_text esg eneg ->
  (es = [] /\ ed = [] /\ esg = [] \/ ((es = ["e"%char] \/ es = ["E"%char]) /\ ed <> [])) ->
  take_exponent (es ++ esg ++ map digit_char ed) = signed eneg (positional ed).
Proof.
  intros es esg eneg ed Hd Hs [(-> & -> & ->)|[Hes Hne]].
  - cbn. inversion Hs. reflexivity.
  - assert (E : take_sign (esg ++ map digit_char ed) = (eneg, map digit_char ed)).
    { destruct ed as [|d ed]; [contradiction|].
      destruct (digit_not_space_sign d) as (A & B & C); [apply Hd; left; reflexivity|].
      destruct Hs; cbn [app map]; [|reflexivity|reflexivity].
      unfold take_sign. rewrite B, C. reflexivity. }
    assert (T : take_digits (map digit_char ed) = (ed, [])).
    { pose proof (take_digits_app ed [] Hd I) as T. rewrite app_nil_r in T. exact T. }
    destruct Hes as [-> | ->]; cbn [app]; unfold take_exponent; cbn [code]; 
      (match goal with |- context [if ?b then _ else _] => change b with true end); cbn iota;
      rewrite E, T, horner_positional; destruct eneg; reflexivity.
Qed.

Lemma strtod_written : forall s q, written_dec s q ->
  exists d, strtod s = Some (DFin d) /\ (dec_Q d == q)%Q.
Proof.
  intros s q (sg & neg & ip & fp & dot & esg & eneg & ed & es & Hsg & Hip & Hfp & Hne & Hed & Hesg & Hdot & Hes & -> & Hq).
  unfold strtod. rewrite (sign_parse sg neg ip _ Hsg Hne Hip).
  destruct ip as [|d ip]; [contradiction|].
  assert (Hd : 0 <= d <= 9) by (apply Hip; left; reflexivity).
  assert (X1 : forall r, prefix_ci (txt "inf") (map digit_char (d :: ip) ++ r) = false).
  { intros r. cbn [map app]. apply digit_not_word; [exact Hd|vm_compute; reflexivity]. }
  assert (X2 : forall r, prefix_ci (txt "nan") (map digit_char (d :: ip) ++ r) = false).
  { intros r. cbn [map app]. apply digit_not_word; [exact Hd|vm_compute; reflexivity]. }
  rewrite X1, X2.
  set (tail := es ++ esg ++ map digit_char ed).
  assert (Ht : match tail with c :: _ => is_digit c = false | [] => True end).
  { unfold tail. destruct Hes as [(-> & -> & ->)|[[-> | ->] _]]; cbn; auto. }
  assert (Ht2 : match tail with c :: _ => code c <> 46 | [] => True end).
  { unfold tail. destruct Hes as [(-> & -> & ->)|[[-> | ->] _]]; cbn; auto; discriminate. }
  assert (E : take_exponent tail = signed eneg (positional ed)) by (apply take_exponent_spec; assumption).
  destruct Hdot as [[-> ->] | ->].
  - cbn [map app].
    change (digit_char d :: map digit_char ip ++ tail) with (map digit_char (d :: ip) ++ tail).
    rewrite (take_digits_app (d :: ip) tail Hip Ht).
    assert (Fin : forall r2, take_exponent r2 = signed eneg (positional ed) ->
      exists d0, (match (d :: ip) ++ [] with
        | [] => None
        | z :: l => Some (DFin {| man := if neg then - horner (z :: l) else horner (z :: l);
                                  ex := take_exponent r2 - Z.of_nat (List.length (@nil Z)) |})
        end) = Some (DFin d0) /\ (dec_Q d0 == q)%Q).
    { intros r2 E2. rewrite app_nil_r. eexists. split; [reflexivity|]. unfold dec_Q. cbn [man ex List.length].
      rewrite horner_positional, E2, Hq, app_nil_r. destruct neg; reflexivity. }
    clearbody tail. destruct tail as [|c tl]; [exact (Fin _ E)|].
    destruct (Z.eqb_spec (code c) 46); [contradiction|]. exact (Fin _ E).
  - assert (T1 : take_digits (map digit_char (d :: ip) ++ ["."%char] ++ map digit_char fp ++ tail)
       = (d :: ip, ["."%char] ++ map digit_char fp ++ tail)).
    { apply take_digits_app; [exact Hip|reflexivity]. }
    cbn [app] in *. rewrite T1. change (code "."%char =? 46) with true. cbn iota.
    rewrite (take_digits_app fp tail Hfp Ht).
    eexists. split; [reflexivity|]. unfold dec_Q. cbn [man ex]. rewrite horner_positional, E, Hq.
    destruct neg; reflexivity.
Qed.

Lemma get_double_written : forall s q lo hi, written_dec s q ->
  (exists d, get_param_double (Some s) lo hi = GOk (DFin d) /\ (dec_Q d == q)%Q /\
     (dec_Q lo <= q)%Q /\ (q <= dec_Q hi)%Q) \/
  (get_param_double (Some s) lo hi = GError /\ ((q < dec_Q lo)%Q \/ (dec_Q hi < q)%Q)).
Proof.
  intros s q lo hi W. destruct (strtod_written s q W) as (d & E & Hd).
  unfold get_param_double. rewrite E. cbn [dlt]. rewrite !dec_cmp_spec.
  destruct (Qlt_le_dec (dec_Q d) (dec_Q lo)) as [L|L].
  - right. rewrite (proj1 (Qlt_alt _ _) L). cbn. split; [reflexivity|]. left. rewrite <- Hd. exact L.
  - destruct (Qlt_le_dec (dec_Q hi) (dec_Q d)) as [M|M].
    + right. rewrite (proj1 (Qlt_alt _ _) M). rewrite orb_true_r. split; [reflexivity|]. right. rewrite <- Hd. exact M.
    + left. exists d.
      destruct (dec_Q d ?= dec_Q lo)%Q eqn:A; try (apply Qlt_alt in A; exfalso; exact (Qlt_not_le _ _ A L));
      destruct (dec_Q hi ?= dec_Q d)%Q eqn:B; try (apply Qlt_alt in B; exfalso; exact (Qlt_not_le _ _ B M));
      cbn [orb]; (split; [reflexivity|]); (split; [exact Hd|]); (split; [rewrite <- Hd; exact L|rewrite <- Hd; exact M]).
Qed.

(** * keyword table *)
Lemma text_eqb_eq : forall a b, text_eqb a b = true <-> a = b.
Proof. intros a b. unfold text_eqb. destruct (list_eq_dec ascii_dec a b); split; congruence. Qed.

Definition names (b : build) : list string := map fst (table b).

Definition lower_txt (s : string) : text := map lower (txt s).

Fixpoint nodupb (l : list text) : bool :=
  match l with [] => true | a :: l' => negb (existsb (text_eqb a) l') && nodupb l' end.

Lemma names_distinct : forall b, nodupb (map lower_txt (names b)) = true.
Proof. intros [[|] [|] [|] [|] [|] [|] [|] [|] [|]]; vm_compute; reflexivity. Qed.

Lemma no_hash : forall b, forallb (fun n => match lower_txt n with c :: _ => negb (code c =? 35) | [] => false end) (names b) = true.
Proof. intros [[|] [|] [|] [|] [|] [|] [|] [|] [|]]; vm_compute; reflexivity. Qed.

Lemma find_kw_spec : forall t tok name k,
  nodupb (map lower_txt (map fst t)) = true -> In (name, k) t -> map lower tok = lower_txt name ->
  find_kw t tok = Some (name, k).
Proof.
  induction t as [|[n k'] t IH]; intros tok name k ND Hin E; [destruct Hin|].
  cbn [map fst nodupb] in ND. apply andb_true_iff in ND. destruct ND as [N1 N2].
  unfold find_kw. cbn [find fst]. unfold strcaseeq.
  destruct Hin as [Hin|Hin].
  - injection Hin as -> ->. rewrite E. rewrite (proj2 (text_eqb_eq _ _) eq_refl). reflexivity.
  - destruct (text_eqb (map lower tok) (map lower (txt n))) eqn:T.
    + exfalso. apply text_eqb_eq in T. apply negb_true_iff in N1.
      assert (X : existsb (text_eqb (lower_txt n)) (map lower_txt (map fst t)) = true).
      { apply existsb_exists. exists (lower_txt name). split.
        - apply in_map. apply in_map_iff. exists (name, k). split; [reflexivity|exact Hin].
        - apply text_eqb_eq. unfold lower_txt in *. congruence. }
      congruence.
    + apply (IH tok name k N2 Hin E).
Qed.

Lemma find_kw_name : forall t tok name k, find_kw t tok = Some (name, k) ->
  map lower tok = lower_txt name /\ In (name, k) t.
Proof.
  intros t tok name k H. unfold find_kw in H. apply find_some in H. destruct H as [H E].
  split; [|exact H]. apply text_eqb_eq in E. exact E.
Qed.

(** ** spec: which lines mention a keyword, and with what value *)
Definition mentions (name : string) (line : text) : Prop :=
  exists tok rest, words line = tok :: rest /\ map lower tok = lower_txt name.
Definition mention_arg (name : string) (line : text) (arg : option text) : Prop :=
  exists tok rest, words line = tok :: rest /\ map lower tok = lower_txt name /\ arg = hd_error rest.

Definition parse (k : kind) (s : text) : getres value :=
  match k with
  | KInt lo hi => match get_param_int (Some s) lo hi with GOk v => GOk (VInt v) | GError => GError end
  | KDbl lo hi => match get_param_double (Some s) lo hi with GOk v => GOk (VDbl v) | GError => GError end
  | KStr => GOk (VStr s)
  end.

Lemma assign_arg : forall name k s st, assign name k (Some s) st =
  match parse k s with GOk v => Done ((name, v) :: st) | GError => Stop end.
Proof.
  intros name k s st. destruct k; cbn [assign parse].
  - destruct (get_param_int (Some s) min max); reflexivity.
  - destruct (get_param_double (Some s) min max); reflexivity.
  - reflexivity.
Qed.

Lemma assign_lookup_other : forall name k arg st st' x, x <> name ->
  assign name k arg st = Done st' -> lookup x st' = lookup x st.
Proof.
  intros name k arg st st' x Hx H.
  assert (C : forall v, lookup x ((name, v) :: st) = lookup x st).
  { intros v. unfold lookup. cbn [find fst]. destruct (String.eqb_spec x name); [contradiction|reflexivity]. }
  destruct k; cbn in H.
  - destruct (get_param_int arg min max); [|discriminate]. injection H as <-. apply C.
  - destruct (get_param_double arg min max); [|discriminate]. injection H as <-. apply C.
  - destruct arg; injection H as <-; [apply C|reflexivity].
Qed.

Lemma words_acc_nonempty : forall s acc w, In w (words_acc acc s) -> w <> [].
Proof.
  induction s as [|c s IH]; intros acc w H; cbn in H.
  - destruct acc as [|a acc]; [destruct H|]. destruct H as [<-|[]]. cbn. intros E. apply app_eq_nil in E. destruct E. discriminate.
  - destruct (is_delim c).
    + destruct acc as [|a acc]; [apply (IH [] w H)|]. destruct H as [<-|H]; [|apply (IH [] w H)].
      cbn. intros E. apply app_eq_nil in E. destruct E. discriminate.
    + apply (IH _ w H).
Qed.

(** a line that mentions the keyword is an assignment *)
Lemma read_line_mention : forall b name k line arg st, In (name, k) (table b) ->
  mention_arg name line arg -> read_line b st line = assign name k arg st.
Proof.
  intros b name k line arg st Hin (tok & rest & W & E & ->). unfold read_line. rewrite W.
  destruct tok as [|c tok].
  { exfalso. apply (words_acc_nonempty line [] []); [|reflexivity]. unfold words in W. rewrite W. left. reflexivity. }
  assert (Hc : (code c =? 35) = false).
  { pose proof (no_hash b) as NH. rewrite forallb_forall in NH.
    specialize (NH name). unfold names in NH. rewrite in_map_iff in NH.
    specialize (NH (ex_intro _ (name, k) (conj eq_refl Hin))).
    rewrite <- E in NH. cbn [map] in NH. apply negb_true_iff in NH.
    destruct (Z.eqb_spec (code c) 35) as [X|X]; [|reflexivity].
    apply code_inj_ne in X; [|lia]. subst c. discriminate NH. }
  rewrite Hc. rewrite (find_kw_spec (table b) (c :: tok) name k (names_distinct b) Hin E). reflexivity.
Qed.

(** any other line leaves the keyword alone *)
Lemma read_line_other : forall b name line st st', ~ mentions name line ->
  read_line b st line = Done st' -> lookup name st' = lookup name st.
Proof.
  intros b name line st st' NM H. unfold read_line in H.
  destruct (words line) as [|tok rest] eqn:W; [injection H as <-; reflexivity|].
  destruct tok as [|c tok]; [injection H as <-; reflexivity|].
  destruct (code c =? 35); [injection H as <-; reflexivity|].
  destruct (find_kw (table b) (c :: tok)) as [[n k]|] eqn:F; [|injection H as <-; reflexivity].
  apply find_kw_name in F. destruct F as [F _].
  apply (assign_lookup_other n k (hd_error rest) st st' name); [|exact H].
  intros ->. apply NM. exists (c :: tok), rest. auto.
Qed.

Lemma read_lines_app : forall b l1 l2 st,
  read_lines b st (l1 ++ l2) = match read_lines b st l1 with Done st' => read_lines b st' l2 | Stop => Stop end.
Proof.
  induction l1 as [|l l1 IH]; intros l2 st; cbn; [reflexivity|].
  destruct (read_line b st l); [apply IH|reflexivity].
Qed.

(** lines without (a value for) the keyword *)
Definition gives (name : string) (line : text) : Prop :=
  exists s, mention_arg name line (Some s).

Lemma read_lines_other : forall b name k ls st st', In (name, k) (table b) ->
  (forall l, In l ls -> ~ gives name l) -> read_lines b st ls = Done st' -> lookup name st' = lookup name st.
Proof.
  induction ls as [|l ls IH]; intros st st' Hin H R; cbn in R; [injection R as <-; reflexivity|].
  destruct (read_line b st l) as [st1|] eqn:E; [|discriminate].
  rewrite (IH st1 st' Hin (fun x Hx => H x (or_intror Hx)) R).
  assert (Dec : mentions name l \/ ~ mentions name l).
  { unfold mentions. destruct (words l) as [|tok rest] eqn:W.
    - right. intros (t & r & X & _). discriminate.
    - destruct (list_eq_dec ascii_dec (map lower tok) (lower_txt name)) as [D|D].
      + left. exists tok, rest. auto.
      + right. intros (t & r & X & Y). congruence. }
  destruct Dec as [(tok & rest & W & M)|NM]; [|apply (read_line_other b name l); assumption].
  destruct rest as [|a rest].
  - rewrite (read_line_mention b name k l None st Hin) in E by (exists tok, []; auto).
    destruct k; cbn in E; try discriminate. injection E as <-. reflexivity.
  - exfalso. apply (H l (or_introl eq_refl)). exists a, tok, (a :: rest). auto.
Qed.

Lemma last_wins : forall b name k l1 line l2 s st, In (name, k) (table b) ->
  mention_arg name line (Some s) -> (forall l, In l l2 -> ~ gives name l) ->
  read_parameter_file b (l1 ++ line :: l2) = Done st ->
  exists v, parse k s = GOk v /\ lookup name st = Some v.
Proof.
  intros b name k l1 line l2 s st Hin M H R. unfold read_parameter_file in R.
  rewrite read_lines_app in R. destruct (read_lines b [] l1) as [st1|]; [|discriminate].
  cbn in R. rewrite (read_line_mention b name k line (Some s) st1 Hin M), assign_arg in R.
  destruct (parse k s) as [v|] eqn:P; [|discriminate].
  exists v. split; [reflexivity|].
  rewrite (read_lines_other b name k l2 _ st Hin H R).
  unfold lookup. cbn. rewrite String.eqb_refl. reflexivity.
Qed.

Lemma never_given : forall b name k lines st, In (name, k) (table b) ->
  (forall l, In l lines -> ~ gives name l) -> read_parameter_file b lines = Done st -> lookup name st = None.
Proof. intros b name k lines st Hin H R. rewrite (read_lines_other b name k lines [] st Hin H R). reflexivity. Qed.

(** ** order of lines with different keywords *)
Definition line_ok (b : build) (line : text) : Prop := exists st', read_line b [] line = Done st'.

Lemma assign_indep : forall name k arg st st2, 
  (exists x, assign name k arg st = Done x) -> exists x, assign name k arg st2 = Done x.
Proof.
  intros name k arg st st2 [x H]. destruct k; cbn in *.
  - destruct (get_param_int arg min max); [|discriminate]. eexists; reflexivity.
  - destruct (get_param_double arg min max); [|discriminate]. eexists; reflexivity.
  - destruct arg; eexists; reflexivity.
Qed.

Lemma read_line_indep : forall b line st st2,
  (exists x, read_line b st line = Done x) -> exists x, read_line b st2 line = Done x.
Proof.
  intros b line st st2 H. unfold read_line in *.
  destruct (words line) as [|tok rest]; [eexists; reflexivity|].
  destruct tok as [|c tok]; [eexists; reflexivity|].
  destruct (code c =? 35); [eexists; reflexivity|].
  destruct (find_kw (table b) (c :: tok)) as [[n k]|]; [|eexists; reflexivity].
  apply (assign_indep n k (hd_error rest) st st2 H).
Qed.

Lemma read_lines_done : forall b ls st,
  (exists x, read_lines b st ls = Done x) <-> (forall l, In l ls -> line_ok b l).
Proof.
  induction ls as [|l ls IH]; intros st; cbn.
  - split; [intros _ l []|intros _; eexists; reflexivity].
  - split.
    + intros [x H]. destruct (read_line b st l) as [st1|] eqn:E; [|discriminate].
      intros l' [<-|Hl].
      * apply (read_line_indep b l st []). eexists; exact E.
      * apply (proj1 (IH st1)); [eexists; exact H|exact Hl].
    + intros H. destruct (read_line_indep b l [] st (H l (or_introl eq_refl))) as [x E]. rewrite E.
      apply IH. intros l' Hl. apply H. right. exact Hl.
Qed.

(** * completeness check *)
Lemma has_str_lookup : forall k st, has_str k st = true -> lookup k st <> None.
Proof. intros k st H. unfold has_str in H. destruct (lookup k st); [discriminate|discriminate]. Qed.

Ltac split_check H := repeat (apply andb_true_iff in H; destruct H as [H ?]).

Definition given (name : string) (lines : list text) : Prop := exists l, In l lines /\ gives name l.

Lemma not_given : forall b name k lines st, In (name, k) (table b) ->
  read_parameter_file b lines = Done st -> ~ given name lines -> lookup name st = None.
Proof.
  intros b name k lines st Hin R NG. apply (never_given b name k lines st Hin); [|exact R].
  intros l Hl G. apply NG. exists l. auto.
Qed.

Definition mandatory (b : build) : list string :=
  ["ntypes"; "startpot"; "config"; "tempfile"]%string
  ++ (if b_stress b then ["stress_weight"%string] else [])
  ++ (if b_bindist b then ["bindist_file"%string] else [])
  ++ (if b_uq b then ["acc_moves"%string; "acc_rescaling"%string] else [])
  ++ (if b_kim b then ["kim_model_name"%string] else []).

Lemma mandatory_in_table : forall b name, In name (mandatory b) -> exists k, In (name, k) (table b).
Proof.
  intros b name H.
  assert (X : forallb (fun n => existsb (fun kv => String.eqb n (fst kv)) (table b)) (mandatory b) = true).
  { destruct b as [[|] [|] [|] [|] [|] [|] [|] [|] [|]]; vm_compute; reflexivity. }
  rewrite forallb_forall in X. specialize (X name H). apply existsb_exists in X.
  destruct X as ([n k] & Hin & E). apply String.eqb_eq in E. cbn in E. subst. exists k. exact Hin.
Qed.

Lemma missing_reported : forall b lines name, In name (mandatory b) -> ~ given name lines ->
  read_parameters b lines = None.
Proof.
  intros b lines name Hm NG. unfold read_parameters.
  destruct (read_parameter_file b lines) as [st|] eqn:R; [|reflexivity].
  destruct (check_complete b st) eqn:C; [exfalso|reflexivity].
  destruct (mandatory_in_table b name Hm) as [k Hin].
  pose proof (not_given b name k lines st Hin R NG) as L.
  unfold check_complete in C. split_check C.
  unfold mandatory in Hm.
  repeat match goal with H : (if ?c then _ else true) = true |- _ => destruct c eqn:?; try (apply andb_true_iff in H; destruct H) end;
  cbn in Hm;
  repeat (destruct Hm as [<-|Hm]; [unfold get_int, get_dbl, has_str in *; rewrite L in *; discriminate|]);
  try contradiction.
Qed.

Lemma missing_eng_weight : exists lines, read_parameters
    {| b_apot := false; b_pair := true; b_coulomb := false; b_dipole := false; b_evo := false;
       b_bindist := false; b_stress := false; b_uq := false; b_kim := false |} lines <> None /\
    ~ given "eng_weight" lines.
Proof.
  exists [txt "ntypes 1"; txt "startpot pot"; txt "config c"; txt "tempfile t"]. split.
  - vm_compute. discriminate.
  - intros (l & Hl & s & tok & rest & W & E & _). cbn in Hl.
    repeat (destruct Hl as [<-|Hl]; [vm_compute in W; injection W as <- <-; vm_compute in E; discriminate|]).
    contradiction.
Qed.

(** if the check passes, the values it is about are usable *)
Lemma check_values : forall b lines st, read_parameters b lines = Some st ->
  1 <= get_int "ntypes" 0 st /\ has_str "startpot" st = true /\ has_str "config" st = true /\
  has_str "tempfile" st = true /\
  dle0 (get_dbl "cell_scale" d1 st) = false /\ dlt (get_dbl "eng_weight" d0 st) (DFin d0) = false /\
  (b_stress b = true -> dlt (get_dbl "stress_weight" dm1 st) (DFin d0) = false) /\
  (has_str "imdpot" st = true -> 1 <= get_int "imdpotsteps" 500 st) /\
  (0 < get_int "write_lammps" 0 st -> 1 <= get_int "lammpspotsteps" 500 st) /\
  (b_apot b = true -> dlt (get_dbl "plotmin" d0 st) (DFin d0) = false) /\
  (b_apot b = true -> b_pair b = true -> get_int "enable_cp" 0 st = 0 \/ get_int "enable_cp" 0 st = 1) /\
  (b_evo b = true -> dlt (get_dbl "evo_threshold" {| man := 1; ex := -6 |} st) (DFin d0) = false) /\
  (b_bindist b = true -> has_str "bindist_file" st = true) /\
  (b_uq b = true -> get_int "acc_moves" 0 st <> 0 /\ deq0 (get_dbl "acc_rescaling" d0 st) = false) /\
  (b_kim b = true -> has_str "kim_model_name" st = true).
Proof.
  intros b lines st H. unfold read_parameters in H.
  destruct (read_parameter_file b lines) as [st'|]; [|discriminate].
  destruct (check_complete b st') eqn:C; [|discriminate]. injection H as <-.
  unfold check_complete in C. split_check C.
  repeat match goal with H : negb _ = true |- _ => apply negb_true_iff in H end.
  repeat match goal with H : (_ <? _) = false |- _ => apply Z.ltb_ge in H end.
  split; [assumption|]. split; [assumption|]. split; [assumption|]. split; [assumption|].
  split; [assumption|]. split; [assumption|].
  split; [intros B; rewrite B in *; match goal with H : negb (dlt (get_dbl "stress_weight" _ _) _) = true |- _ => now apply negb_true_iff in H end|].
  split; [intros B; match goal with H : (has_str "imdpot" _ && _) = false |- _ => rewrite B in H; cbn [andb] in H; now apply Z.ltb_ge in H end|].
  split; [intros B; apply Z.ltb_lt in B; match goal with H : ((0 <? _) && _) = false |- _ => rewrite B in H; cbn [andb] in H; now apply Z.ltb_ge in H end|].
  split; [intros B; match goal with H : (if b_apot _ then _ else _) = true |- _ => rewrite B in H; apply andb_prop in H; destruct H as [H _]; now apply negb_true_iff in H end|].
  split; [intros B B2; match goal with H : (if b_apot _ then _ else _) = true |- _ => rewrite B, B2 in H; apply andb_prop in H; destruct H as [_ H]; apply orb_prop in H; destruct H as [H|H]; apply Z.eqb_eq in H; auto end|].
  split; [intros B; match goal with H : (if b_evo _ then _ else _) = true |- _ => rewrite B in H; now apply negb_true_iff in H end|].
  split; [intros B; match goal with H : (if b_bindist _ then _ else _) = true |- _ => now rewrite B in H end|].
  split; [intros B; match goal with H : (if b_uq _ then _ else _) = true |- _ => rewrite B in H; apply andb_prop in H; destruct H as [U1 U2]; apply negb_true_iff in U1; apply negb_true_iff in U2; apply Z.eqb_neq in U1; auto end|].
  intros B; match goal with H : (if b_kim _ then _ else _) = true |- _ => now rewrite B in H end.
Qed.
