(** Round trip: the table that is read. *)
From Coq Require Import Reals ZArith List Bool String Ascii Lia Lra.
From Verif Require Import LoopUtil ApotModel RtModel RtSpec RtProof.
Import ListNotations.
Local Open Scope R_scope.

Section Values.
Variable pr : nat -> R -> R.
Variable opt : bool.
Lemma back_ok : forall kv kb p, back pr opt kv kb p (check_value opt (printed pr kv kb p)).
Proof.
  intros kv kb p. unfold check_value, printed. cbn [r_name r_val r_min r_max]. set (a := pr kb (p_min p)). set (b := pr kb (p_max p)). set (x := pr kv (p_val p)).
  destruct (Req_EM_T a b) as [E|E]; [|destruct (Rlt_dec b a) as [H|H]; [|destruct opt eqn:O]]; constructor; cbn [p_name p_val p_min p_max p_inv]; fold a b x; auto.
  - unfold Rmin. destruct (Rle_dec a b); lra.
  - unfold Rmax. destruct (Rle_dec a b); lra.
  - tauto.
  - destruct opt; auto. destruct (Rlt_dec a b); auto. lra.
  - unfold Rmin. destruct (Rle_dec a b); lra.
  - unfold Rmax. destruct (Rle_dec a b); lra.
  - split; [discriminate|lra].
  - destruct opt; auto. destruct (Rlt_dec a b); auto. lra.
  - unfold Rmin. destruct (Rle_dec a b); lra.
  - unfold Rmax. destruct (Rle_dec a b); lra.
  - split; [discriminate|lra].
  - destruct (Rlt_dec a b); [|lra]. unfold limited, Rmin, Rmax. destruct (Rlt_dec x a).
    + destruct (Rlt_dec b a); [lra|]. destruct (Rle_dec a x); [lra|]. destruct (Rle_dec b a); lra.
    + destruct (Rle_dec a x); [|lra]. destruct (Rlt_dec b x), (Rle_dec b x); lra.
  - unfold Rmin. destruct (Rle_dec a b); lra.
  - unfold Rmax. destruct (Rle_dec a b); lra.
  - split; [discriminate|lra].
Qed.
Lemma read_globals_ok : forall rs acc, NoDup (map p_name acc ++ map r_name rs) -> read_globals opt acc rs = Some (acc ++ map (check_value opt) rs).
Proof.
  induction rs as [|r rs IH]; intros acc D; [rewrite app_nil_r; auto|]. cbn [read_globals map].
  assert (E : existsb (fun g => String.eqb (r_name r) (p_name g)) acc = false).
  { destruct (existsb _ acc) eqn:E; auto. exfalso. apply existsb_exists in E. destruct E as (g & G & E). apply String.eqb_eq in E. cbn [map] in D. apply NoDup_remove_2 in D. apply D. apply in_or_app. left. rewrite E. apply in_map. auto. }
  rewrite E, IH; [rewrite <- app_assoc; auto|]. rewrite map_app, <- app_assoc. cbn [map app]. replace (p_name (check_value opt r)) with (r_name r); auto.
  unfold check_value. destruct (Req_EM_T _ _); auto. destruct (Rlt_dec _ _); auto. destruct opt; auto.
Qed.
Lemma check_name : forall r, p_name (check_value opt r) = r_name r.
Proof. intros r. unfold check_value. destruct (Req_EM_T _ _); auto. destruct (Rlt_dec _ _); auto. destruct opt; auto. Qed.

(** the search for a global *)
Lemma find_spec : forall s gs, match find_global s gs with
  | Some l => bound_to s gs l
  | None => forall k, (k < List.length gs)%nat -> strncmp_eq (String.length s - 1) s (p_name (nth k gs (Par "" 0 0 0 false))) = false
  end.
Proof.
  intros s gs. unfold find_global, bound_to. set (m := fun k => strncmp_eq (String.length s - 1) s (p_name (nth k gs (Par "" 0 0 0 false)))).
  apply (for_up_inv (fun n r => match r with
    | Some l => (l < n)%nat /\ m l = true /\ forall k, (l < k < n)%nat -> m k = false
    | None => forall k, (k < n)%nat -> m k = false end)); [lia|intros; lia|].
  intros k r _ H. fold (m k). destruct (m k) eqn:E.
  - repeat split; auto. intros; lia.
  - destruct r as [l|].
    + destruct H as (H1 & H2 & H3). repeat split; auto. intros j Hj. destruct (Nat.eq_dec j k); [subst; auto|apply H3; lia].
    + intros j Hj. destruct (Nat.eq_dec j k); [subst; auto|apply H; lia].
Qed.
Lemma bound_unique : forall s gs l l', bound_to s gs l -> bound_to s gs l' -> l = l'.
Proof.
  intros s gs l l' (A1 & A2 & A3) (B1 & B2 & B3). destruct (lt_eq_lt_dec l l') as [[H|H]|H]; auto.
  - rewrite (A3 l' ltac:(lia)) in B2. discriminate.
  - rewrite (B3 l ltac:(lia)) in A2. discriminate.
Qed.
Lemma bound_same : forall s gs gs' l, map p_name gs = map p_name gs' -> bound_to s gs l -> bound_to s gs' l.
Proof.
  intros s gs gs' l E. assert (L : List.length gs = List.length gs') by (rewrite <- (map_length p_name gs), E, map_length; auto).
  assert (N : forall k, p_name (nth k gs (Par "" 0 0 0 false)) = p_name (nth k gs' (Par "" 0 0 0 false))).
  { intros k. rewrite <- (map_nth p_name gs), <- (map_nth p_name gs'), E. auto. }
  unfold bound_to. rewrite L, N. intros (A & B & C). repeat split; auto. intros k K. rewrite <- N. auto.
Qed.
Definition par_of_line (gs : list par) (p : par) : par :=
  match find_global (p_name p) gs with
  | Some l => let g := nth l gs (Par "" 0 0 0 false) in if has_bang (p_name p) then Par (p_name p) (p_val g) (p_min g) (p_max g) true else check_value opt (printed pr 8 4 p)
  | None => check_value opt (printed pr 8 4 p)
  end.
Lemma read_pars_ok : forall gs ps, (forall p, In p ps -> has_bang (p_name p) = true -> exists l, bound_to (p_name p) gs l) ->
  exists l, read_pars opt gs (map (read_back pr) ps) = Some l /\ map fst l = map (par_of_line gs) ps.
Proof.
  intros gs ps. induction ps as [|p ps IH]; intros H; [exists []; auto|]. cbn [map read_pars].
  destruct IH as (l & L1 & L2); [intros; apply H; auto; right; auto|]. rewrite L1.
  assert (N : r_name (read_back pr p) = p_name p) by (unfold read_back; destruct (last_bang _); auto).
  unfold read_par. rewrite N. destruct (has_bang (p_name p)) eqn:B.
  - pose proof (find_spec (p_name p) gs) as F. destruct (find_global (p_name p) gs) as [k|] eqn:FG.
    + eexists. split; [reflexivity|]. cbn [map fst]. f_equal; auto. unfold par_of_line. rewrite FG, B. auto.
    + exfalso. destruct (H p (or_introl eq_refl) B) as (k & K1 & K2 & _). rewrite F in K2 by auto. discriminate.
  - eexists. split; [reflexivity|]. cbn [map fst]. f_equal; auto. unfold par_of_line, read_back.
    destruct (last_bang (p_name p)) eqn:LB; [rewrite (last_has _ LB) in B; discriminate|]. rewrite B. destruct (find_global _ _); auto.
Qed.
Lemma par_back_ok : forall gs p, (has_bang (p_name p) = true -> exists l, bound_to (p_name p) gs l) -> par_back pr opt gs p (par_of_line gs p).
Proof.
  intros gs p H. unfold par_back, par_of_line. pose proof (find_spec (p_name p) gs) as F. destruct (has_bang (p_name p)) eqn:B.
  - destruct (H eq_refl) as (k & K). destruct (find_global _ _) as [l|].
    + exists l. auto.
    + destruct K as (K1 & K2 & _). rewrite F in K2 by auto. discriminate.
  - destruct (find_global _ _); apply back_ok.
Qed.
Lemma name_of_line : forall gs p, p_name (par_of_line gs p) = p_name p.
Proof. intros gs p. unfold par_of_line. destruct (find_global _ _); [destruct (has_bang _); auto|]; apply check_name. Qed.
Definition pot_of_lines (gs : list par) (q : wpot) : wpot := WPot (w_name q) (w_smooth q) (pr 6%nat (w_end q)) (map (par_of_line gs) (w_pars q)).
Lemma read_pots_ok : forall gs qs, (forall q p, In q qs -> In p (w_pars q) -> has_bang (p_name p) = true -> exists l, bound_to (p_name p) gs l) ->
  read_pots opt gs (map (the_lines pr) qs) = Some (map (pot_of_lines gs) qs).
Proof.
  intros gs qs. induction qs as [|q qs IH]; intros H; auto. unfold read_pots in *. cbn [map fold_right]. rewrite IH by (intros q0 p Q; apply H; right; auto).
  unfold the_lines. destruct (read_pars_ok gs (w_pars q)) as (l & L1 & L2); [intros p P B; apply (H q p); auto; left; auto|]. rewrite L1, L2. auto.
Qed.
End Values.

Section Trip.
Variable pr : nat -> R -> R.
Variable opt : bool.
Variable num_params : string -> option nat.
Variable t : wtab.
Variable rmin : wpot -> R.
Variable els : nat -> string.
Definition new_globals : list par := map (fun p => check_value opt (printed pr 8 4 p)) (globals_of t).
Definition new_cp (c : list par) : list par := map (check_value opt) (cp_raws pr els c).
Definition result : wtab := WTab (option_map new_cp (t_cp t)) (if t_globals t then Some new_globals else None) (map (pot_of_lines pr opt new_globals) (t_pots t)).
Lemma new_names : map p_name new_globals = map p_name (globals_of t).
Proof. unfold new_globals. rewrite map_map. apply map_ext. intros p. apply check_name. Qed.
Hypothesis LG : legal num_params t.
Hypothesis NE : forall q, In q (t_pots t) -> w_pars q <> [].
Hypothesis NP : t_pots t <> [].
Hypothesis NC : forall c, t_cp t = Some c -> c <> [].
Notation ntypes := (match t_cp t with Some c => List.length c | None => 0%nat end).
Lemma read_ok : forall n, (t_cp t <> None -> n = ntypes) -> 
  read_table num_params opt (if t_cp t then true else false) None n (List.length (t_pots t)) (write_table pr els rmin None t) = Some result.
Proof.
  intros n HN. unfold read_table, result.
  assert (BT : forall q p, In q (t_pots t) -> In p (w_pars q) -> has_bang (p_name p) = true -> exists l, bound_to (p_name p) new_globals l).
  { intros q p Q P B. destruct (lg_bound _ _ LG q p Q P B) as (l & L). exists l. apply (bound_same _ (globals_of t)); auto. symmetry. apply new_names. }
  assert (US : used (map (pot_of_lines pr opt new_globals) (t_pots t)) = if t_globals t then true else false).
  { assert (U : used (map (pot_of_lines pr opt new_globals) (t_pots t)) = true <-> t_globals t <> None).
    { rewrite (lg_used _ _ LG). unfold used. rewrite existsb_exists. split.
      - intros (q' & Q' & B). apply in_map_iff in Q'. destruct Q' as (q & <- & Q). apply existsb_exists in B. destruct B as (p' & P' & B). unfold pot_of_lines in P'. cbn [w_pars] in P'.
        apply in_map_iff in P'. destruct P' as (p & <- & P). rewrite name_of_line in B. exists q, p. auto.
      - intros (q & p & Q & P & B). exists (pot_of_lines pr opt new_globals q). split; [apply in_map; auto|]. apply existsb_exists. exists (par_of_line pr opt new_globals p). split; [unfold pot_of_lines; cbn [w_pars]; apply in_map; auto|].
        rewrite name_of_line. auto. }
    destruct (used _), (t_globals t); auto; [exfalso; apply (proj1 U eq_refl); auto|]. apply U. discriminate. }
  rewrite (file_globals pr num_params t LG rmin els).
  rewrite read_globals_ok by (cbn [map app]; rewrite map_map; cbn [printed r_name]; exact (lg_distinct _ _ LG)). cbn [app]. rewrite map_map. fold new_globals.
  rewrite (file_pots pr num_params t LG rmin els NE NP), (read_pots_ok pr opt new_globals (t_pots t) BT), US.
  destruct (t_cp t) as [c|] eqn:C.
  - rewrite HN by discriminate. rewrite (file_cp pr t rmin els c C (NC c eq_refl)). cbn [option_map]. unfold new_cp. destruct (t_globals t); auto.
  - cbn [option_map]. destruct (t_globals t); auto.
Qed.
Lemma globals_result : globals_of result = new_globals.
Proof. unfold globals_of, result, new_globals, globals_of. cbn [t_globals]. destruct (t_globals t); auto. Qed.
Lemma result_back : tab_back pr opt els t result.
Proof.
  constructor.
  - unfold result. cbn [t_cp]. destruct (t_cp t) as [c|]; cbn [option_map]; auto.
    assert (L : List.length (new_cp c) = List.length c) by (unfold new_cp, cp_raws; rewrite !map_length, combine_length, seq_length; lia). split; auto.
    intros i Hi. set (z := Par "" 0 0 0 false). unfold new_cp, cp_raws. rewrite map_map. set (f := fun x : nat * par => _).
    rewrite (nth_indep (map f (combine (seq 0 (List.length c)) c)) z (f (0%nat, z))) by (rewrite map_length, combine_length, seq_length; lia). rewrite map_nth.
    rewrite combine_nth by (rewrite seq_length; auto). rewrite seq_nth by auto. unfold f. cbn [fst snd Nat.add]. apply back_ok.
  - unfold result. cbn [t_globals]. destruct (t_globals t); split; congruence.
  - rewrite globals_result. unfold new_globals. induction (globals_of t) as [|g gs IH]; constructor; auto. apply back_ok.
  - rewrite globals_result. unfold result. cbn [t_pots].
    assert (H : forall qs, (forall q, In q qs -> In q (t_pots t)) -> Forall2 (pot_back pr opt new_globals) qs (map (pot_of_lines pr opt new_globals) qs)).
    { induction qs as [|q qs IH]; intros Q; constructor; [|apply IH; intros; apply Q; right; auto]. constructor; try reflexivity. unfold pot_of_lines. cbn [w_pars].
      assert (P : forall ps, (forall p, In p ps -> In p (w_pars q)) -> Forall2 (par_back pr opt new_globals) ps (map (par_of_line pr opt new_globals) ps)).
      { induction ps as [|p ps IHp]; intros I; constructor; [|apply IHp; intros; apply I; right; auto]. apply par_back_ok. intros B.
        destruct (lg_bound _ _ LG q p (Q q (or_introl eq_refl)) (I p (or_introl eq_refl)) B) as (l & L). exists l. apply (bound_same _ (globals_of t)); auto. symmetry. apply new_names. }
      apply P. auto. }
    apply H. auto.
Qed.
Theorem round_trip : forall n, (t_cp t <> None -> n = ntypes) ->
  exists t', read_table num_params opt (if t_cp t then true else false) None n (List.length (t_pots t)) (write_table pr els rmin None t) = Some t' /\ tab_back pr opt els t t'.
Proof. intros n H. exists result. split; [apply read_ok; auto|apply result_back]. Qed.
End Trip.
