(** Proofs about potential files of KIM models. *)
From Coq Require Import ZArith List Bool Ascii String Lia Floats.SpecFloat.
From Verif Require Import ParamsModel ParamsProof KimModel KimProof KoutModel KoutSpec.
Import ListNotations.
Local Open Scope Z_scope.

(** ** Comparison of binary64 numbers *)
Lemma compare_antisym : forall a b, SFcompare b a = option_map CompOpp (SFcompare a b).
Proof.
  intros a b. destruct a as [[]|[]| |[] m e], b as [[]|[]| |[] m' e']; try reflexivity; cbn;
    rewrite (Z.compare_antisym e e'); destruct (e ?= e'); cbn; try reflexivity;
    rewrite ?(Pos.compare_cont_antisym); cbn; try reflexivity;
    (rewrite <- Pos.compare_cont_antisym; reflexivity) || (rewrite Pos.compare_cont_antisym; reflexivity) || idtac.
Qed.
Lemma leb_not_gtb : forall a b, SFleb a b = true -> SFltb b a = false.
Proof.
  intros a b H. unfold SFleb in H. unfold SFltb. rewrite (compare_antisym a b).
  destruct (SFcompare a b) as [[]|]; cbn; congruence.
Qed.

(** ** Views of a union *)
Lemma int_view_range : forall c, - 2^31 <= int_view c < 2^31.
Proof.
  intros c. unfold int_view. pose proof (Z.mod_pos_bound c (2^32) ltac:(lia)) as B.
  destruct (Z.ltb_spec (c mod 2^32) (2^31)); lia.
Qed.
Lemma zero_int : forall c, pattern c -> SFeqb (dbl_view 0) (dbl_view c) = true -> int_view c = 0.
Proof.
  intros c B H. change (dbl_view 0) with (S754_zero false) in H.
  unfold dbl_view in H.
  set (e := (c / 2^52) mod 2^11) in H. set (m := c mod 2^52) in H.
  pose proof (Z.mod_pos_bound c (2^52) ltac:(lia)) as Bm.
  pose proof (Z.mod_pos_bound (c / 2^52) (2^11) ltac:(lia)) as Be.
  destruct (Z.eqb_spec e 0) as [E|E].
  - destruct m as [|p|p] eqn:M; [| |lia].
    + assert (C : c = 2^52 * (c / 2^52)).
      { pose proof (Z.div_mod c (2^52) ltac:(lia)) as D. fold m in D. rewrite M in D. lia. }
      unfold int_view.
      assert (D : c mod 2^32 = 0).
      { rewrite C. change (2^52) with (2^20 * 2^32) at 1.
        replace (2^20 * 2^32 * (c / 2^52)) with ((2^20 * (c / 2^52)) * 2^32) by ring. apply Z.mod_mul. lia. }
      rewrite D. reflexivity.
    + destruct (Z.odd (c / 2 ^ 63)); discriminate.
  - destruct (Z.eqb_spec e 2047) as [F|F].
    + destruct (m =? 0); [destruct (Z.odd (c / 2 ^ 63))|]; discriminate.
    + destruct (m + 2^52) as [|p|p] eqn:M; [lia| |lia].
      destruct (Z.odd (c / 2 ^ 63)); discriminate.
Qed.

(** ** update_kim_table *)
Lemma update_cells_length : forall xi cs pos, List.length (update_cells xi pos cs) = List.length cs.
Proof. intros xi cs; induction cs as [|c cs IH]; intros pos; cbn; [reflexivity|rewrite IH; reflexivity]. Qed.
Lemma update_cells_nth : forall xi cs pos k c, nth_error cs k = Some c ->
  exists c', nth_error (update_cells xi pos cs) k = Some c' /\ same (dbl_view c') (dbl_view (xi (pos + k)%nat)) /\
    (pattern c -> xi (pos + k)%nat = 0 -> int_view c' = 0).
Proof.
  intros xi cs; induction cs as [|a cs IH]; intros pos k c H; [destruct k; discriminate|].
  destruct k as [|k]; cbn in H.
  - injection H as <-. cbn. rewrite Nat.add_0_r. destruct (SFeqb (dbl_view (xi pos)) (dbl_view a)) eqn:E.
    + exists a. split; [reflexivity|]. split.
      * left. unfold SFeqb in *. rewrite (compare_antisym (dbl_view (xi pos)) (dbl_view a)).
        destruct (SFcompare (dbl_view (xi pos)) (dbl_view a)) as [[]|]; cbn; congruence.
      * intros P Z. rewrite Z in E. exact (zero_int a P E).
    + exists (xi pos). split; [reflexivity|]. split; [right; reflexivity|]. intros _ ->. reflexivity.
  - cbn. replace (pos + S k)%nat with (S pos + k)%nat by lia. exact (IH (S pos) k c H).
Qed.

(** ** Written file *)
Lemma entries_cons : forall p ps, entries (p :: ps) = map (fun c => (p_int p, c)) (p_cells p) ++ entries ps.
Proof. reflexivity. Qed.
Section Files.
Variable pr : Z -> text.
Variable prf : spec_float -> text.
Variable rd : spec_float -> spec_float.
Variable nd : Z -> spec_float.
Notation wcells := (write_cells pr prf rd nd).
Notation wparams := (write_params pr prf rd nd).

Lemma heads_app : forall f g, heads (f ++ g) = heads f ++ heads g.
Proof. induction f as [|[] f IH]; intros g; cbn; rewrite ?IH; reflexivity. Qed.
Lemma datas_app : forall f g, datas (f ++ g) = datas f ++ datas g.
Proof. induction f as [|[] f IH]; intros g; cbn; rewrite ?IH; reflexivity. Qed.
Lemma heads_cells : forall int pmin pmax cs pos, heads (wcells int pmin pmax pos cs) = [].
Proof. intros int pmin pmax cs; induction cs as [|c cs IH]; intros pos; cbn; [reflexivity|destruct int; apply IH]. Qed.
Definition line_of (int : bool) (lo hi : spec_float) (c : cell) : text * list spec_float :=
  if int then (pr (int_view c), [nd (int_view c); nd (int_view c); nd (int_view c)])
  else (prf (dbl_view c), [rd (dbl_view c); rd lo; rd hi]).
Lemma datas_cells_length : forall int pmin pmax cs pos, List.length (datas (wcells int pmin pmax pos cs)) = List.length cs.
Proof. intros int pmin pmax cs; induction cs as [|c cs IH]; intros pos; cbn; [reflexivity|destruct int; cbn; rewrite IH; reflexivity]. Qed.
Lemma datas_cells_nth : forall int pmin pmax cs pos k c, nth_error cs k = Some c ->
  nth_error (datas (wcells int pmin pmax pos cs)) k = Some (line_of int (pmin (pos + k)%nat) (pmax (pos + k)%nat) c).
Proof.
  intros int pmin pmax cs; induction cs as [|a cs IH]; intros pos k c H; [destruct k; discriminate|].
  destruct k as [|k]; cbn in H.
  - injection H as <-. rewrite Nat.add_0_r. cbn. destruct int; reflexivity.
  - replace (pos + S k)%nat with (S pos + k)%nat by lia. cbn. destruct int; cbn; apply IH; exact H.
Qed.
Lemma wparams_cons : forall pmin pmax pos p ps, heads (wparams pmin pmax pos (p :: ps)) =
    (p_cut p, p_name p) :: heads (wparams pmin pmax (pos + List.length (p_cells p)) ps) /\
  datas (wparams pmin pmax pos (p :: ps)) =
    datas (wcells (p_int p) pmin pmax pos (p_cells p)) ++ datas (wparams pmin pmax (pos + List.length (p_cells p)) ps).
Proof.
  intros pmin pmax pos p ps. cbn [write_params heads datas].
  rewrite !heads_app, !datas_app, heads_cells.
  destruct ps as [|q ps]; split; reflexivity.
Qed.
Lemma heads_params : forall pmin pmax ps pos, heads (wparams pmin pmax pos ps) = map (fun p => (p_cut p, p_name p)) ps.
Proof.
  intros pmin pmax ps; induction ps as [|p ps IH]; intros pos; [reflexivity|].
  rewrite (proj1 (wparams_cons pmin pmax pos p ps)), IH. reflexivity.
Qed.
Lemma datas_params : forall pmin pmax ps pos,
  List.length (datas (wparams pmin pmax pos ps)) = List.length (entries ps) /\
  forall k int c, nth_error (entries ps) k = Some (int, c) ->
    nth_error (datas (wparams pmin pmax pos ps)) k = Some (line_of int (pmin (pos + k)%nat) (pmax (pos + k)%nat) c).
Proof.
  intros pmin pmax ps; induction ps as [|p ps IH]; intros pos.
  - split; [reflexivity|]. intros [|k] int c H; discriminate.
  - destruct (IH (pos + List.length (p_cells p))%nat) as [L N].
    rewrite (proj2 (wparams_cons pmin pmax pos p ps)). split.
    + rewrite app_length, datas_cells_length, L, entries_cons, app_length, map_length. reflexivity.
    + intros k int c H. rewrite entries_cons in H.
      destruct (Nat.lt_ge_cases k (List.length (p_cells p))) as [K|K].
      * rewrite nth_error_app1 in H by (rewrite map_length; exact K).
        rewrite nth_error_map in H. destruct (nth_error (p_cells p) k) as [c'|] eqn:E; [|discriminate].
        cbn in H. injection H as <- <-.
        rewrite nth_error_app1 by (rewrite datas_cells_length; exact K).
        exact (datas_cells_nth _ _ _ _ pos k c' E).
      * rewrite nth_error_app2 in H by (rewrite map_length; exact K). rewrite map_length in H.
        rewrite nth_error_app2 by (rewrite datas_cells_length; exact K). rewrite datas_cells_length.
        rewrite (N _ _ _ H). do 2 f_equal; f_equal; lia.
Qed.

(** entries after update_kim_table *)
Lemma update_entries : forall xi ps pos,
  map (fun p => (p_cut p, p_name p)) (update_params xi pos ps) = map (fun p => (p_cut p, p_name p)) ps /\
  List.length (entries (update_params xi pos ps)) = List.length (entries ps) /\
  forall k int c, nth_error (entries ps) k = Some (int, c) ->
    exists c', nth_error (entries (update_params xi pos ps)) k = Some (int, c') /\
      same (dbl_view c') (dbl_view (xi (pos + k)%nat)) /\ (pattern c -> xi (pos + k)%nat = 0 -> int_view c' = 0).
Proof.
  intros xi ps; induction ps as [|p ps IH]; intros pos.
  - split; [reflexivity|]. split; [reflexivity|]. intros [|k] int c H; discriminate.
  - destruct (IH (pos + List.length (p_cells p))%nat) as [Hd [L N]].
    split; [cbn; rewrite Hd; reflexivity|]. split.
    + cbn [update_params]. rewrite !entries_cons, !app_length, !map_length. cbn [p_cells]. rewrite update_cells_length, L. reflexivity.
    + intros k int c H. cbn [update_params]. rewrite entries_cons in H |- *. cbn [p_cells p_int].
      destruct (Nat.lt_ge_cases k (List.length (p_cells p))) as [K|K].
      * rewrite nth_error_app1 in H by (rewrite map_length; exact K).
        rewrite nth_error_map in H. destruct (nth_error (p_cells p) k) as [c0|] eqn:E; [|discriminate].
        cbn in H. injection H as <- <-.
        destruct (update_cells_nth xi _ pos k c0 E) as [c' [E' R]].
        exists c'. split; [|exact R].
        rewrite nth_error_app1 by (rewrite map_length, update_cells_length; exact K).
        rewrite nth_error_map, E'. reflexivity.
      * rewrite nth_error_app2 in H by (rewrite map_length; exact K). rewrite map_length in H.
        destruct (N _ _ _ H) as [c' [E' [S Z]]]. exists c'.
        replace (pos + List.length (p_cells p) + (k - List.length (p_cells p)))%nat with (pos + k)%nat in S, Z by lia.
        split; [|split; [exact S|exact Z]].
        rewrite nth_error_app2 by (rewrite map_length, update_cells_length; exact K).
        rewrite map_length, update_cells_length. exact E'.
Qed.

Theorem endpot_file : forall xi pmin pmax ps,
  let f := endpot pr prf rd nd true xi pmin pmax ps in
  heads f = map (fun p => (p_cut p, p_name p)) ps /\
  List.length (datas f) = List.length (entries ps) /\
  (forall k c, nth_error (entries ps) k = Some (false, c) ->
     exists v, same v (dbl_view (xi k)) /\ nth_error (datas f) k = Some (prf v, [rd v; rd (pmin k); rd (pmax k)])).
Proof.
  intros xi pmin pmax ps f. unfold f, endpot, write_pot_table5, update_kim_table.
  destruct (update_entries xi ps 0) as [Hd [L N]].
  destruct (datas_params pmin pmax (update_params xi 0 ps) 0) as [L' N'].
  rewrite heads_params. split; [exact Hd|]. split; [rewrite L'; exact L|].
  intros k c H. destruct (N k false c H) as [c' [E [S _]]].
  exists (dbl_view c'). split; [exact S|]. exact (N' k false c' E).
Qed.
Theorem endpot_integers : forall xi pmin pmax ps k c,
  nth_error (entries ps) k = Some (true, c) -> pattern c -> xi k = 0 ->
  exists v, nth_error (datas (endpot pr prf rd nd true xi pmin pmax ps)) k = Some (pr 0, v).
Proof.
  intros xi pmin pmax ps k c H P Z. unfold endpot, write_pot_table5, update_kim_table.
  destruct (update_entries xi ps 0) as [_ [_ N]].
  destruct (datas_params pmin pmax (update_params xi 0 ps) 0) as [_ N'].
  destruct (N k true c H) as [c' [E [_ S]]]. rewrite (N' k true c' E). unfold line_of. rewrite (S P Z).
  eexists; reflexivity.
Qed.
Theorem endpot_unfitted : forall xi pmin pmax ps k c, nth_error (entries ps) k = Some (false, c) ->
  nth_error (datas (endpot pr prf rd nd false xi pmin pmax ps)) k =
    Some (prf (dbl_view c), [rd (dbl_view c); rd (pmin k); rd (pmax k)]).
Proof.
  intros xi pmin pmax ps k c H. exact (proj2 (datas_params pmin pmax ps 0) k false c H).
Qed.

(** ** Reading it again *)
Hypothesis Hpr : prints_ints pr.
Hypothesis Hprf : prints_numbers prf.
Hypothesis Hrd : monotone rd.

Lemma starts_refl : forall s, starts s s = true.
Proof. induction s as [|a s IH]; cbn; [reflexivity|]. destruct (ascii_dec a a); [exact IH|congruence]. Qed.
Lemma limits_fit : forall v lo hi, SFleb lo v = true -> SFleb v hi = true -> SFleb lo hi = true ->
  limits (rd v) (rd lo) (rd hi) = Some (EDbl (rd v) (rd lo) (rd hi) (SFeqb (rd lo) (rd hi))).
Proof.
  intros v lo hi A B C. unfold limits.
  rewrite (leb_not_gtb _ _ (Hrd _ _ C)), (leb_not_gtb _ _ (Hrd _ _ A)), (leb_not_gtb _ _ (Hrd _ _ B)).
  cbn. rewrite andb_false_r. reflexivity.
Qed.
Lemma read_int : forall c t, t = pr (int_view c) -> plain_start t -> forall d, read_kim_int d t = Some (int_view c).
Proof.
  intros c t -> P d. exact (proj1 (kim_int_written d _ _ (Hpr _ (int_view_range c)) (int_view_range c)) P).
Qed.
Lemma read_dbl : forall d t x mn mx, starts (txt "!") t = false -> starts (txt "default") t = false ->
  read_line false false d (Data t [x; mn; mx]) = limits x mn mx.
Proof. intros d t x mn mx H1 H2. unfold read_line. rewrite H1, H2. reflexivity. Qed.
Lemma read_cells_written : forall cut int pmin pmax cs dflt pos g,
  List.length dflt = List.length cs ->
  (forall j c, nth_error cs j = Some c -> fit pr cut int c (pmin (pos + j)%nat) (pmax (pos + j)%nat)) ->
  exists es, read_cells cut int dflt (wcells int pmin pmax pos cs ++ g) = Some (es, g) /\
    List.length es = List.length cs /\
    forall j c e, nth_error cs j = Some c -> nth_error es j = Some e ->
      reads_as rd cut int c (pmin (pos + j)%nat) (pmax (pos + j)%nat) e.
Proof.
  intros cut int pmin pmax cs; induction cs as [|c cs IH]; intros dflt pos g L F.
  - destruct dflt; [|discriminate]. exists []. split; [reflexivity|]. split; [reflexivity|].
    intros [|j] c e H; discriminate.
  - destruct dflt as [|d dflt]; [discriminate|]. injection L as L.
    destruct (IH dflt (S pos) g L) as [es [R [Le A]]].
    { intros j c' H. replace (S pos + j)%nat with (pos + S j)%nat by lia. apply F. exact H. }
    assert (F0 := F 0%nat c eq_refl). rewrite Nat.add_0_r in F0. clear F.
    assert (E : exists e, read_line cut int d
        (if int then Data (pr (int_view c)) [nd (int_view c); nd (int_view c); nd (int_view c)]
         else Data (prf (dbl_view c)) [rd (dbl_view c); rd (pmin pos); rd (pmax pos)]) = Some e /\
        reads_as rd cut int c (pmin pos) (pmax pos) e).
    { unfold fit in F0. destruct int.
      - exists (EInt (int_view c)). cbn. rewrite (read_int c _ eq_refl F0). split; [reflexivity|constructor].
      - destruct cut.
        + eexists. split; [reflexivity|]. apply as_cutoff; reflexivity.
        + destruct F0 as [F0|[F1 [F2 F3]]]; [discriminate|].
          destruct (Hprf (dbl_view c)) as [P1 P2].
          eexists. split; [rewrite (read_dbl d _ _ _ _ P1 P2); apply limits_fit; assumption|].
          apply as_double; [reflexivity|tauto]. }
    destruct E as [e [E1 E2]]. exists (e :: es). split; [|split].
    + cbn [write_cells app read_cells]. rewrite E1, R. reflexivity.
    + cbn. rewrite Le. reflexivity.
    + intros [|j] c' e' H1 H2; cbn in H1, H2.
      * injection H1 as <-. injection H2 as <-. rewrite Nat.add_0_r. exact E2.
      * replace (pos + S j)%nat with (S pos + j)%nat by lia. exact (A j c' e' H1 H2).
Qed.

(** The model that reads: same names, types and numbers of values; its own values. *)
Theorem read_written : forall pmin pmax ps pos model g,
  same_model ps model -> all_fit pr pmin pmax pos ps ->
  exists ess, read_params model (wparams pmin pmax pos ps ++ g) = Some ess /\ all_read rd pmin pmax pos ps ess.
Proof.
  intros pmin pmax ps; induction ps as [|p ps IH]; intros pos model g M F.
  - inversion M; subst. exists []. split; [reflexivity|constructor].
  - inversion M as [|? q ? model' [Mn [Mi Ml]] M']; subst. inversion F as [|? ? ? F1 F2]; subst.
    destruct (IH _ model' g M' F2) as [ess [R A]].
    destruct (read_cells_written (p_cut p) (p_int p) pmin pmax (p_cells p) (p_cells q) pos
      ((match ps return list line with [] => [] | _ => [Blank] end) ++ wparams pmin pmax (pos + List.length (p_cells p)) ps ++ g)
      (eq_sym Ml) F1) as [es [R1 [L1 A1]]].
    exists (es :: ess). split; [|constructor; assumption].
    cbn [read_params write_params app]. rewrite <- !app_assoc.
    unfold read_param. cbn [find_head]. rewrite <- Mn, starts_refl, <- Mi, R1.
    assert (S : read_params model' ((match ps return list line with [] => [] | _ => [Blank] end) ++ wparams pmin pmax (pos + List.length (p_cells p)) ps ++ g) =
                read_params model' (wparams pmin pmax (pos + List.length (p_cells p)) ps ++ g)).
    { destruct ps as [|p' ps]; [reflexivity|]. inversion M'; subst. reflexivity. }
    rewrite S, R. reflexivity.
Qed.
Theorem read_back : forall pmin pmax ps model, same_model ps model -> all_fit pr pmin pmax 0 ps ->
  exists ess, read_params model (write_pot_table5 pr prf rd nd pmin pmax ps) = Some ess /\ all_read rd pmin pmax 0 ps ess.
Proof.
  intros pmin pmax ps model M F. destruct (read_written pmin pmax ps 0 model [] M F) as [ess [R A]].
  rewrite app_nil_r in R. exists ess. split; assumption.
Qed.

(** ** Template *)
Lemma template_cells : forall (cut int : bool) cs dflt g, List.length dflt = List.length cs ->
  (forall c, In c cs -> if int then plain_start (pr (int_view c)) else cut = true \/ SFleb (dbl_view c) (dbl_view c) = true) ->
  exists es, read_cells cut int dflt (map (template_cell pr prf rd nd cut int) cs ++ g) = Some (es, g) /\
    Forall2 (fun c e => is_fixed e /\ reads_as rd cut int c (dbl_view c) (dbl_view c) e) cs es.
Proof.
  intros cut int cs; induction cs as [|c cs IH]; intros dflt g L F.
  - destruct dflt; [|discriminate]. exists []. split; [reflexivity|constructor].
  - destruct dflt as [|d dflt]; [discriminate|]. injection L as L.
    destruct (IH dflt g L) as [es [R A]]; [intros c' H; apply F; right; exact H|].
    assert (F0 := F c (or_introl eq_refl)). clear F.
    assert (E : exists e, read_line cut int d (template_cell pr prf rd nd cut int c) = Some e /\
        is_fixed e /\ reads_as rd cut int c (dbl_view c) (dbl_view c) e).
    { unfold template_cell. destruct int.
      - exists (EInt (int_view c)). cbn. rewrite (read_int c _ eq_refl F0). split; [reflexivity|]. split; [exact I|constructor].
      - destruct cut.
        + eexists. split; [reflexivity|]. split; [reflexivity|]. apply as_cutoff; reflexivity.
        + destruct F0 as [F0|F0]; [discriminate|].
          destruct (Hprf (dbl_view c)) as [P1 P2].
          assert (Q : SFeqb (rd (dbl_view c)) (rd (dbl_view c)) = true).
          { pose proof (Hrd _ _ F0) as H. unfold SFleb in H. unfold SFeqb.
            pose proof (compare_antisym (rd (dbl_view c)) (rd (dbl_view c))) as K.
            destruct (SFcompare (rd (dbl_view c)) (rd (dbl_view c))) as [[]|]; cbn in *; congruence. }
          eexists. split; [rewrite (read_dbl d _ _ _ _ P1 P2); apply limits_fit; exact F0|].
          split; [cbn; exact Q|]. apply as_double; [reflexivity|tauto]. }
    destruct E as [e [E1 E2]]. exists (e :: es). split; [|constructor; assumption].
    cbn [map app read_cells]. rewrite E1, R. reflexivity.
Qed.
Theorem template_read : forall ps model, same_model ps model ->
  (forall p c, In p ps -> In c (p_cells p) ->
     if p_int p then plain_start (pr (int_view c)) else p_cut p = true \/ SFleb (dbl_view c) (dbl_view c) = true) ->
  exists ess, read_params model (template pr prf rd nd ps) = Some ess /\
    Forall2 (fun p es => Forall2 (fun c e => is_fixed e /\ reads_as rd (p_cut p) (p_int p) c (dbl_view c) (dbl_view c) e) (p_cells p) es) ps ess.
Proof.
  intros ps; induction ps as [|p ps IH]; intros model M F.
  - inversion M; subst. exists []. split; [reflexivity|constructor].
  - inversion M as [|? q ? model' [Mn [Mi Ml]] M']; subst.
    destruct (IH model' M') as [ess [R A]]; [intros p' c H; apply F; right; exact H|].
    destruct (template_cells (p_cut p) (p_int p) (p_cells p) (p_cells q) (Blank :: template pr prf rd nd ps) (eq_sym Ml)) as [es [R1 A1]].
    { intros c H. exact (F p c (or_introl eq_refl) H). }
    exists (es :: ess). split; [|constructor; assumption].
    unfold template. cbn [flat_map]. rewrite <- app_comm_cons, <- app_assoc.
    cbn [read_params]. unfold read_param. cbn [find_head]. rewrite <- Mn, starts_refl, <- Mi.
    change ([Blank] ++ flat_map _ ps) with (Blank :: template pr prf rd nd ps). rewrite R1.
    assert (S : read_params model' (Blank :: template pr prf rd nd ps) = read_params model' (template pr prf rd nd ps)).
    { destruct ps as [|p' ps]; inversion M'; subst; reflexivity. }
    rewrite S, R. reflexivity.
Qed.
End Files.
