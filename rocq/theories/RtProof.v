(** Round trip of analytic potential files. *)
From Coq Require Import Reals ZArith List Bool String Ascii Lia Lra.
From Verif Require Import LoopUtil ApotModel RtModel RtSpec.
Import ListNotations.
Local Open Scope R_scope.

(** ** single pieces *)
Section Pieces.
Variable pr : nat -> R -> R.
Definition printed (kv kb : nat) (p : par) : raw := Raw (p_name p) (pr kv (p_val p)) (pr kb (p_min p)) (pr kb (p_max p)).
Lemma scan_line_ok : forall kv kb p l, scan_line (line pr kv kb p ++ l) = Some (printed kv kb p, EOL :: l).
Proof. reflexivity. Qed.
Lemma scan_line_eol : forall l, scan_line (EOL :: l) = scan_line l.
Proof. reflexivity. Qed.
Lemma scan_lines_eol : forall n l, (0 < n)%nat -> scan_lines n (EOL :: l) = scan_lines n l.
Proof. intros [|n] l H; [lia|reflexivity]. Qed.
Lemma scan_lines_ok : forall kv kb ps l, ps <> [] -> scan_lines (List.length ps) (flat_map (line pr kv kb) ps ++ l) = Some (map (printed kv kb) ps, EOL :: l).
Proof.
  intros kv kb ps. induction ps as [|p ps IH]; intros l H; [contradiction|].
  cbn [List.length flat_map map scan_lines]. rewrite <- app_assoc, scan_line_ok. destruct ps as [|p2 ps].
  - reflexivity.
  - rewrite scan_lines_eol by (cbn; lia). rewrite IH by discriminate. auto.
Qed.
Lemma seek_app : forall key l1 l2, (forall s, In (W s) l1 -> key s = false) -> seek key (l1 ++ l2) = seek key l2.
Proof.
  intros key l1. induction l1 as [|t l1 IH]; intros l2 H; auto. cbn [app seek]. destruct t as [s| |].
  - rewrite H by (left; auto). apply IH. intros; apply H; right; auto.
  - apply IH. intros; apply H; right; auto.
  - apply IH. intros; apply H; right; auto.
Qed.
Lemma seek_none : forall key l, (forall s, In (W s) l -> key s = false) -> seek key l = None.
Proof. intros key l H. rewrite <- (app_nil_r l). rewrite seek_app; auto. Qed.
Lemma line_words : forall kv kb p s, In (W s) (line pr kv kb p) -> s = p_name p.
Proof. intros kv kb p s [H|[H|[H|[H|[H|[]]]]]]; congruence. Qed.
Lemma lines_words : forall kv kb ps s, In (W s) (flat_map (line pr kv kb) ps) -> exists p, In p ps /\ s = p_name p.
Proof. intros kv kb ps s H. apply in_flat_map in H. destruct H as (p & P & H). exists p. split; auto. eapply line_words; eauto. Qed.
Lemma par_words : forall p s, In (W s) (write_par pr p) -> s = p_name p.
Proof. intros p s. unfold write_par. destruct (last_bang _); [intros [H|[H|[]]]; congruence|apply line_words]. Qed.
Lemma app_sc_ends : forall b, ends_sc (b ++ "_sc") = Some b.
Proof.
  induction b as [|c b IH]; [reflexivity|]. cbn [String.append ends_sc]. destruct (String.eqb_spec (String c (b ++ "_sc")) "_sc") as [E|E].
  - exfalso. injection E as _ E. assert (L : String.length (b ++ "_sc") = String.length "sc") by congruence. clear E IH. destruct b as [|x b]; cbn in L; [lia|].
    assert (X : String.length (b ++ "_sc") = (String.length b + 3)%nat) by (clear; induction b; cbn; congruence). lia.
  - rewrite IH. auto.
Qed.
Lemma ends_sc_inv : forall s b, ends_sc s = Some b -> s = (b ++ "_sc")%string.
Proof.
  induction s as [|c s IH]; intros b H; [discriminate|]. cbn [ends_sc] in H. destruct (String.eqb_spec (String c s) "_sc") as [E|E].
  - injection H as <-. auto.
  - destruct (ends_sc s) as [b'|]; [|discriminate]. injection H as <-. cbn. f_equal. auto.
Qed.
Lemma comment_plain : forall s x, plain_word s -> comment (W s :: x) = false.
Proof. intros s x (NE & _ & _ & _ & C). destruct s as [|c s]; [contradiction|]. cbn. specialize (C c s eq_refl). destruct (Ascii.eqb_spec c "#"); auto. contradiction. Qed.
(** ** one parameter *)
Definition read_back (p : par) : raw := if last_bang (p_name p) then Raw (p_name p) 0 0 0 else printed 8 4 p.
Lemma last_has : forall s, last_bang s = true -> has_bang s = true.
Proof.
  induction s as [|c s IH]; [discriminate|]. unfold last_bang in *. cbn [last_char has_bang]. destruct s as [|d s].
  - intros ->. auto.
  - intros H. destruct (Ascii.eqb c "!"); auto.
Qed.
Lemma parse_par_ok : forall p last extra l, plain_word (p_name p) -> parse_par last extra (write_par pr p ++ l) = Some (read_back p, l).
Proof.
  intros p last extra l P. unfold parse_par, write_par, read_back. destruct (last_bang (p_name p)) eqn:B.
  - cbn [app List.length par_line get_line]. rewrite comment_plain by auto. cbn [andb]. rewrite (last_has _ B). auto.
  - unfold line. cbn [app List.length par_line get_line]. rewrite comment_plain by auto. cbn [andb]. auto.
Qed.
Lemma parse_pars_ok : forall num smooth ps j l, (forall p, In p ps -> plain_word (p_name p)) ->
  parse_pars num smooth j (List.length ps) (flat_map (write_par pr) ps ++ l) = Some (map read_back ps, l).
Proof.
  intros num smooth ps. induction ps as [|p ps IH]; intros j l P; [reflexivity|].
  cbn [List.length parse_pars flat_map map]. rewrite <- app_assoc, parse_par_ok by (apply P; left; auto). rewrite IH by (intros; apply P; right; auto). auto.
Qed.
End Pieces.

(** ** whole file *)
Section File.
Variable pr : nat -> R -> R.
Variable num_params : string -> option nat.
Variable t : wtab.
Hypothesis LG : legal num_params t.
Variable rmin : wpot -> R.
Variable els : nat -> string.

Lemma parse_pot_ok : forall q l, In q (t_pots t) -> w_pars q <> [] ->
  parse_pot num_params (write_pot pr (rmin q) q ++ l) = Some ((w_name q, w_smooth q, pr 6%nat (w_end q), map (read_back pr) (w_pars q)), l).
Proof.
  intros q l Q NE. destruct (lg_fun _ _ LG q Q) as (n & HN & HL). destruct (lg_name _ _ LG q Q) as (NP & PL & NS).
  unfold parse_pot, write_pot. rewrite <- app_assoc. cbn [app seek String.eqb]. cbn [Ascii.eqb Bool.eqb].
  cbn [scan_word skip_eol]. set (s := if w_smooth q then (w_name q ++ "_sc")%string else w_name q).
  assert (E : ends_sc s = if w_smooth q then Some (w_name q) else None).
  { unfold s. destruct (w_smooth q); [apply app_sc_ends|]. destruct (ends_sc (w_name q)) as [b|] eqn:E; auto. exfalso. exact (NS eq_refl b (ends_sc_inv _ _ E)). }
  rewrite E. assert (E2 : (match (if w_smooth q then Some (w_name q) else None) with Some b => b | None => s end) = w_name q) by (unfold s; destruct (w_smooth q); auto). rewrite E2.
  destruct (String.eqb_spec (w_name q) "pohlong") as [X|_]; [contradiction|]. rewrite HN.
  cbn [scan_num skip_eol scan_word]. change (String.eqb "cutoff" "cutoff") with true. cbv iota. cbn [get_line].
  assert (C : exists p ps, w_pars q = p :: ps) by (destruct (w_pars q) as [|p ps]; [contradiction|exists p, ps; auto]). destruct C as (p & ps & C).
  assert (GL : forall p l, exists x r, plain_word (p_name p) -> get_line (write_par pr p ++ l) = Some (x, r) /\ comment x = false).
  { intros p0 l0. unfold write_par, line. destruct (last_bang _); cbn [app get_line]; eexists; eexists; intros PW; split; try reflexivity; apply comment_plain; auto. }
  assert (SK : skip_comments (S (List.length (W "#" :: W "rmin" :: N (pr 6%nat (rmin q)) :: EOL :: flat_map (write_par pr) (w_pars q) ++ l))) (W "#" :: W "rmin" :: N (pr 6%nat (rmin q)) :: EOL :: flat_map (write_par pr) (w_pars q) ++ l) =
    Some (flat_map (write_par pr) (w_pars q) ++ l)).
  { cbn [List.length]. cbn [skip_comments get_line comment]. change (Ascii.eqb "#" "#") with true. cbv iota. rewrite C. cbn [flat_map]. rewrite <- app_assoc.
    destruct (GL p (flat_map (write_par pr) ps ++ l)) as (x & r & G). destruct G as [G1 G2]; [apply (lg_pars _ _ LG q p Q); rewrite C; left; auto|]. rewrite G1, G2. auto. }
  rewrite SK.
  replace (match (if w_smooth q then Some (w_name q) else None) with Some _ => true | None => false end) with (w_smooth q) by (destruct (w_smooth q); auto).
  rewrite <- HL. rewrite parse_pars_ok by (intros p0 P0; apply (lg_pars _ _ LG q p0 Q P0)). auto.
Qed.
Definition the_lines (q : wpot) : string * bool * R * list raw := (w_name q, w_smooth q, pr 6%nat (w_end q), map (read_back pr) (w_pars q)).
Hypothesis NE : forall q, In q (t_pots t) -> w_pars q <> [].
Lemma parse_pot_eol : forall l, parse_pot num_params (EOL :: l) = parse_pot num_params l.
Proof. reflexivity. Qed.
Lemma parse_pots_ok : forall qs, (forall q, In q qs -> In q (t_pots t)) -> parse_pots num_params (List.length qs) (write_pots pr rmin qs) = Some (map the_lines qs).
Proof.
  induction qs as [|q qs IH]; intros H; [reflexivity|]. cbn [List.length write_pots parse_pots map].
  rewrite parse_pot_ok by (try apply NE; apply H; left; auto). destruct qs as [|q2 qs]; [reflexivity|].
  change ([EOL] ++ ?l) with (EOL :: l). specialize (IH (fun q Q => H q (or_intror Q))).
  assert (E : parse_pots num_params (List.length (q2 :: qs)) (EOL :: write_pots pr rmin (q2 :: qs)) = Some (map the_lines (q2 :: qs))) by (rewrite <- IH; reflexivity).
  rewrite E. auto.
Qed.
Lemma pots_words : forall qs s, (forall q, In q qs -> In q (t_pots t)) -> In (W s) (write_pots pr rmin qs) -> s <> "global"%string.
Proof.
  induction qs as [|q qs IH]; intros s H I; [destruct I|]. cbn [write_pots] in I. rewrite !in_app_iff in I.
  assert (Q : In q (t_pots t)) by (apply H; left; auto).
  destruct I as [I|[I|I]]; [|destruct qs; cbn in I; [destruct I|destruct I as [I|[]]; discriminate]|apply (IH s); auto; intros; apply H; right; auto].
  unfold write_pot in I. rewrite in_app_iff in I. destruct I as [I|I].
  - cbn [In] in I. destruct (lg_name _ _ LG q Q) as (_ & (_ & _ & G & _) & _).
    repeat (destruct I as [I|I]; [try discriminate; injection I as <-; try discriminate|]); [|destruct I].
    destruct (w_smooth q); auto. intros X. assert (Y := app_sc_ends (w_name q)). rewrite X in Y. discriminate.
  - apply in_flat_map in I. destruct I as (p & P & I). apply par_words in I. subst s. destruct (lg_pars _ _ LG q p Q P) as (_ & _ & G & _). auto.
Qed.
Lemma cp_words : forall c s, In (W s) (write_cp pr els (Some c)) -> exists i, s = ("cp_" ++ els i)%string.
Proof.
  intros c s H. unfold write_cp in H. apply in_app_or in H. destruct H as [H|[H|[]]]; [|discriminate]. apply in_flat_map in H. destruct H as ([i p] & _ & H). apply line_words in H. exists i. auto.
Qed.
Lemma cp_not : forall s i, ("cp_" ++ els i)%string = s -> prefix "cp" s = true.
Proof. intros s i <-. reflexivity. Qed.
Lemma cp_skip : forall key l, (forall s, prefix "cp" s = true -> key s = false) -> seek key ([EOL] ++ write_cp pr els (t_cp t) ++ l) = seek key l.
Proof.
  intros key l K. cbn [app seek]. apply seek_app. intros s H. destruct (t_cp t) as [c|]; [|destruct H]. destruct (cp_words c s H) as (i & E). apply K. apply (cp_not s i). auto.
Qed.
Lemma global_skip : forall l, seek (String.eqb "type") (write_globals pr (t_globals t) ++ l) = seek (String.eqb "type") l.
Proof.
  intros l. apply seek_app. intros s H. pose proof (lg_globals _ _ LG) as G. unfold globals_of in G. unfold write_globals in H. destruct (t_globals t) as [gs|]; [|destruct H].
  rewrite !in_app_iff in H. destruct H as [H|[H|H]].
  - cbn [In] in H. destruct H as [H|[H|[H|[]]]]; try discriminate. injection H as <-. reflexivity.
  - apply lines_words in H. destruct H as (g & I & ->). destruct (String.eqb_spec "type" (p_name g)) as [E|]; auto. destruct (G g I) as (_ & X & _). congruence.
  - destruct H as [H|[]]; discriminate.
Qed.
Lemma parse_pots_seek : forall n l l', (0 < n)%nat -> seek (String.eqb "type") l = seek (String.eqb "type") l' -> parse_pots num_params n l = parse_pots num_params n l'.
Proof. intros [|n] l l' H E; [lia|]. cbn [parse_pots]. unfold parse_pot. rewrite E. auto. Qed.
Notation text := (write_table pr els rmin None t).
Lemma file_pots : t_pots t <> [] -> parse_pots num_params (List.length (t_pots t)) text = Some (map the_lines (t_pots t)).
Proof.
  intros P. rewrite <- (parse_pots_ok (t_pots t) (fun _ H => H)). apply parse_pots_seek; [destruct (t_pots t); [contradiction|cbn; lia]|].
  unfold write_table. cbn [write_elstat]. change ([] ++ ?x) with x. rewrite cp_skip by (intros s H; destruct (String.eqb_spec "type" s) as [E|]; auto; subst; discriminate). apply global_skip.
Qed.
Lemma Int_INR : forall n, Int_part (INR n) = Z.of_nat n.
Proof. intros n. rewrite INR_IZR_INZ. unfold Int_part. rewrite <- (tech_up (IZR (Z.of_nat n)) (Z.of_nat n + 1)); [lia|rewrite plus_IZR; lra|rewrite plus_IZR; lra]. Qed.
Lemma file_globals : parse_globals text = Some (map (printed pr 8 4) (globals_of t)).
Proof.
  unfold parse_globals, write_table. cbn [write_elstat]. change ([] ++ ?x) with x. rewrite cp_skip by (intros s H; destruct (String.eqb_spec "global" s) as [E|]; auto; subst; discriminate).
  unfold globals_of. destruct (t_globals t) as [gs|] eqn:G.
  - cbn [write_globals app seek String.eqb Ascii.eqb Bool.eqb]. cbn [scan_word skip_eol scan_num]. rewrite Int_INR. destruct (Req_EM_T _ _) as [_|X]; [|exfalso; apply X; apply INR_IZR_INZ].
    rewrite Nat2Z.id. rewrite <- app_assoc. destruct gs as [|g gs]; [reflexivity|].
    rewrite (scan_lines_eol (List.length (g :: gs))) by (cbn; lia). rewrite scan_lines_ok by discriminate. auto.
  - rewrite seek_none; auto. intros s H. cbn [write_globals app] in H. destruct (String.eqb_spec "global" s) as [E|]; auto. exfalso. apply (pots_words (t_pots t) s (fun _ X => X)) in H. congruence.
Qed.
Definition cp_raws (c : list par) : list raw := map (fun ip => printed pr 10 2 (rename ("cp_" ++ els (fst ip)) (snd ip))) (combine (seq 0 (List.length c)) c).
Lemma flat_map_map : forall (A B C : Type) (f : B -> list C) (g : A -> B) l, flat_map (fun x => f (g x)) l = flat_map f (map g l).
Proof. intros A B C f g l. induction l; cbn; congruence. Qed.
Lemma file_cp : forall c, t_cp t = Some c -> c <> [] -> parse_cp (List.length c) text = Some (cp_raws c).
Proof.
  intros c C NC. unfold parse_cp, write_table. rewrite C. cbn [write_cp].
  rewrite (flat_map_map _ _ _ (line pr 10 2) (fun ip : nat * par => rename ("cp_" ++ els (fst ip)) (snd ip))).
  set (ps := map _ (combine _ _)). assert (L : List.length ps = List.length c) by (unfold ps; rewrite map_length, combine_length, seq_length; lia).
  assert (NP : ps <> []) by (destruct ps; [cbn in L; destruct c; [contradiction|discriminate]|discriminate]).
  rewrite <- !app_assoc. cbn [app seek].
  set (rest := EOL :: _ ++ _).
  assert (SK : seek (prefix "cp") (flat_map (line pr 10 2) ps ++ rest) = Some (flat_map (line pr 10 2) ps ++ rest)).
  { destruct c as [|p c]; [contradiction|]. reflexivity. }
  rewrite SK, <- L, scan_lines_ok by auto. unfold cp_raws. replace (map (printed pr 10 2) ps) with (map (fun x : nat * par => printed pr 10 2 (rename ("cp_" ++ els (fst x)) (snd x))) (combine (seq 0 (List.length c)) c)) by (unfold ps; rewrite map_map; auto). set (rs := map _ _).
  assert (AL : forallb (fun r => prefix "cp_" (r_name r)) rs = true).
  { apply forallb_forall. intros r H. unfold rs in H. apply in_map_iff in H. destruct H as (x & <- & _). cbn. destruct (els (fst x)); reflexivity. }
  rewrite AL. reflexivity.
Qed.
End File.
