(** A configuration file as a whole. *)
From Coq Require Import ZArith List Bool Ascii String QArith Qcanon Arith Lia.
From Verif Require Import ParamsModel LinesModel ReadModel ReadSpec ReadProof ReadProof2.
Import ListNotations.
Local Open Scope nat_scope.

Section Whole.
Variable scan_f : text -> option (Qc * text).
Variable atoi : text -> Z.
Variables (ntypes : nat) (scale : Qc) (min_at : Z) (stressb : bool).
Variable pd : Z -> text.
Variable pf : Qc -> text.
Hypothesis SKIP : forall t, scan_f (" "%char :: t) = scan_f t.
Hypothesis MIN : (0 < min_at)%Z.
Notation reads_f := (reads_f scan_f pf).
Notation reads_d := (reads_d pd).

Definition cfg_ok (c : cfg) : Prop :=
  Forall (fun p => plain p /\ fits (pre_line p)) (f_pre c) /\
  reads_d (Z.of_nat (List.length (f_atoms c))) /\ reads_d (f_use c) /\ fits (start_line pd c) /\
  hdr_ok scan_f pf (f_hdr c) /\
  last_of selX (f_hdr c) <> None /\ last_of selY (f_hdr c) <> None /\ last_of selZ (f_hdr c) <> None /\
  last_of selE (f_hdr c) <> None /\
  Forall (fun a => atom_ok scan_f ntypes pd pf a /\ fits (atom_line pd pf a)) (f_atoms c) /\
  (min_at <= Z.of_nat (List.length (f_atoms c)))%Z.

(** ** First pass *)
Definition quiet (l : text) : Prop := plain l /\ fits l /\ is_N (l ++ [LF]) = false.
Lemma count_quiet : forall ls r fuel nc na, Forall quiet ls -> List.length (unlines ls ++ r) < fuel ->
  exists fuel', List.length r < fuel' /\ count_pass fuel (unlines ls ++ r) nc na = count_pass fuel' r nc na.
Proof.
  induction ls as [|l ls IH]; intros r fuel nc na F L.
  - exists fuel. split; [exact L|reflexivity].
  - inversion F as [|? ? (P & B & N) F']; subst. destruct fuel as [|fuel]; [lia|].
    assert (E : unlines (l :: ls) ++ r = l ++ LF :: unlines ls ++ r).
    { cbn [unlines flat_map]. rewrite <- !app_assoc. reflexivity. }
    rewrite E in *. cbn [count_pass]. rewrite fgets_line by assumption. rewrite N.
    apply IH; [exact F'|]. rewrite app_length in L. cbn [List.length] in L. lia.
Qed.
Lemma quiet_item : forall h, item_ok scan_f pf h -> fits (item_line pf h) -> quiet (item_line pf h).
Proof. intros h O F. split; [exact (item_plain _ _ h O)|]. split; [exact F|]. destruct h; reflexivity. Qed.
Lemma quiet_F : quiet (txt "#F").
Proof.
  split; [noc|]. split; [|reflexivity].
  unfold fits, LINE. apply Nat.ltb_lt. reflexivity.
Qed.
Lemma plain_atom : forall a, atom_ok scan_f ntypes pd pf a -> plain (atom_line pd pf a).
Proof.
  intros [[ty p] f] ((P & _) & F & _). unfold atom_line. apply plain_app; [exact P|].
  apply (plain_nums scan_f pf). exact F.
Qed.
Lemma quiet_atom : forall a, atom_ok scan_f ntypes pd pf a -> fits (atom_line pd pf a) -> quiet (atom_line pd pf a).
Proof.
  intros a A F. split; [exact (plain_atom a A)|]. split; [exact F|].
  destruct a as [[ty p] f]. destruct A as ((_ & H & N & _) & _ & _). unfold atom_line.
  destruct (pd ty) as [|c w] eqn:E; [congruence|].
  unfold is_N. change (ch (((c :: w) ++ nums pf (vl p ++ vl f)) ++ [LF]) 0) with c.
  destruct (ascii_dec c "#") as [e|_]; [exfalso; apply (H c); [left; reflexivity|exact e]|reflexivity].
Qed.
Lemma quiet_pre : forall c, plain c -> fits (pre_line c) -> quiet (pre_line c).
Proof.
  intros c P F. split; [|split; [exact F|reflexivity]].
  apply plain_app; [noc|exact P].
Qed.

Lemma unlines_app : forall a b, unlines (a ++ b) = unlines a ++ unlines b.
Proof. intros a b. unfold unlines. rewrite flat_map_app. reflexivity. Qed.
Lemma unlines_one : forall l ls r, unlines (l :: ls) ++ r = l ++ LF :: (unlines ls ++ r).
Proof. intros l ls r. cbn [unlines flat_map]. rewrite <- !app_assoc. reflexivity. Qed.

Lemma plain_start : forall c, cfg_ok c -> plain (start_line pd c).
Proof.
  intros c (_ & (P1 & _) & (P2 & _) & _). unfold start_line. apply plain_app; [noc|].
  apply plain_app; [exact P1|]. apply plain_cons; [discriminate|discriminate|exact P2].
Qed.
Lemma start_scan : forall c, cfg_ok c ->
  scan_d (skipn 3 (start_line pd c ++ [LF])) = Some (Z.of_nat (List.length (f_atoms c)), " "%char :: pd (f_use c) ++ [LF]) /\
  scan_d (" "%char :: pd (f_use c) ++ [LF]) = Some (f_use c, [LF]).
Proof.
  intros c (_ & (_ & _ & _ & D1) & (_ & _ & _ & D2) & _). split.
  - unfold start_line. rewrite <- !app_assoc.
    change (skipn 3 (txt "#N " ++ pd (Z.of_nat (List.length (f_atoms c))) ++ (" "%char :: pd (f_use c)) ++ [LF]))
      with (pd (Z.of_nat (List.length (f_atoms c))) ++ (" "%char :: pd (f_use c) ++ [LF])).
    apply D1. left; reflexivity.
  - rewrite scan_d_space. apply D2. right; reflexivity.
Qed.

Definition rest_lines (c : cfg) : list text := map (item_line pf) (f_hdr c) ++ txt "#F" :: map (atom_line pd pf) (f_atoms c).
Lemma quiet_rest : forall c, cfg_ok c -> Forall quiet (rest_lines c).
Proof.
  intros c (_ & _ & _ & _ & H & _ & _ & _ & _ & A & _). unfold rest_lines. apply Forall_app. split; [|constructor; [exact quiet_F|]].
  - apply Forall_forall. intros l I. apply in_map_iff in I. destruct I as (h & <- & I).
    unfold hdr_ok in H. rewrite Forall_forall in H. destruct (H h I). apply quiet_item; assumption.
  - apply Forall_forall. intros l I. apply in_map_iff in I. destruct I as (h & <- & I).
    rewrite Forall_forall in A. destruct (A h I). apply quiet_atom; assumption.
Qed.
Lemma quiet_pres : forall c, cfg_ok c -> Forall quiet (map pre_line (f_pre c)).
Proof.
  intros c (H & _). apply Forall_forall. intros l I. apply in_map_iff in I. destruct I as (h & <- & I).
  rewrite Forall_forall in H. destruct (H h I). apply quiet_pre; assumption.
Qed.
Lemma cfg_text : forall c r, unlines (cfg_lines pd pf c) ++ r
  = unlines (map pre_line (f_pre c)) ++ (start_line pd c ++ LF :: (unlines (rest_lines c) ++ r)).
Proof.
  intros c r. unfold cfg_lines. rewrite unlines_app, <- app_assoc. f_equal. apply unlines_one.
Qed.
Lemma file_cons : forall c cs, file pd pf (c :: cs) = unlines (cfg_lines pd pf c) ++ file pd pf cs.
Proof. intros c cs. unfold file. cbn [flat_map]. apply unlines_app. Qed.

Lemma count_file : forall cs fuel nc na, Forall cfg_ok cs -> List.length (file pd pf cs) < fuel ->
  count_pass fuel (file pd pf cs) nc na = Ok (nc + List.length cs, (na + Z.of_nat (total cs))%Z).
Proof.
  induction cs as [|c cs IH]; intros fuel nc na F L.
  - destruct fuel as [|fuel]; [cbn in L; lia|]. cbn. rewrite Nat.add_0_r, Z.add_0_r. reflexivity.
  - inversion F as [|? ? O F']; subst. rewrite file_cons, cfg_text in *.
    destruct (count_quiet _ _ _ nc na (quiet_pres c O) L) as (fuel1 & L1 & ->).
    destruct fuel1 as [|fuel1]; [lia|]. cbn [count_pass].
    rewrite fgets_line by (first [exact (plain_start c O)|exact (proj1 (proj2 (proj2 (proj2 O))))]).
    change (is_N (start_line pd c ++ [LF])) with true. cbv iota.
    rewrite (proj1 (start_scan c O)).
    rewrite app_length in L1. cbn [List.length] in L1.
    destruct (count_quiet (rest_lines c) (file pd pf cs) fuel1 (S nc) (na + Z.of_nat (List.length (f_atoms c)))%Z (quiet_rest c O)) as (fuel2 & L2 & ->); [lia|].
    rewrite IH by assumption. unfold total. cbn [map list_sum fold_right List.length].
    change (fold_right Init.Nat.add 0 (map (fun c0 => List.length (f_atoms c0)) cs)) with (list_sum (map (fun c0 => List.length (f_atoms c0)) cs)).
    f_equal. f_equal; lia.
Qed.

(** ** Second pass *)
Notation mloop := (main_loop scan_f atoi ntypes scale min_at stressb).
Lemma main_quiet : forall nc na ls r fuel cs g, Forall quiet ls -> List.length (unlines ls ++ r) < fuel ->
  exists fuel', List.length r < fuel' /\ mloop nc na fuel (unlines ls ++ r) cs g = mloop nc na fuel' r cs g.
Proof.
  induction ls as [|l ls IH]; intros r fuel cs g F L.
  - exists fuel. split; [exact L|reflexivity].
  - inversion F as [|? ? (P & B & N) F']; subst. destruct fuel as [|fuel]; [lia|].
    rewrite unlines_one in *. cbn [main_loop]. rewrite fgets_line by assumption. rewrite N.
    apply IH; [exact F'|]. rewrite app_length in L. cbn [List.length] in L. lia.
Qed.

Definition cs1 (c : cfg) (cs : cstate) : cstate :=
  CState (Z.of_nat (List.length (f_atoms c))) (f_use c) false false v0 v0 v0 false false false (num_fixed cs).
Definition cs2 (c : cfg) (cs : cstate) : cstate := fold_left (fun cs h => item_cs scale stressb h cs) (f_hdr c) (cs1 c cs).
Definition g2 (c : cfg) (cs : cstate) (g : glob) : glob :=
  fold_left (fun g h => item_g stressb h g) (f_hdr c) (start_conf (cs1 c cs) g).
Definition g3 (cs : cstate) (g : glob) : glob :=
  Glob (nconf g) (natoms g) (inconf g) (cnfstart g) (useforce g) (coheng g) (conf_weight g) (stress g)
       (if stressb && have_stress cs then upd (usestress g) (nconf g) true else usestress g)
       (upd (boxes g) (nconf g) (box_x cs, box_y cs, box_z cs)) (atoms g) (na_type g) (elements g)
       (if (use_force cs =? 0)%Z then with_forces g else S (with_forces g))
       (if stressb && have_stress cs then S (with_stresses g) else with_stresses g) (max_type g).
Definition step (c : cfg) (cs : cstate) (g : glob) : glob :=
  end_conf (cs2 c cs) (put_atoms scale 0 (f_atoms c) (g3 (cs2 c cs) (g2 c cs g))).

(** a file ends here or goes on with something that is not white space *)
Definition tight (r : text) : Prop := skip_space r = r.

Lemma main_cfg : forall nc na c r fuel cs g, cfg_ok c -> tight r -> List.length (unlines (cfg_lines pd pf c) ++ r) < fuel ->
  nconf g < nc -> natoms g + List.length (f_atoms c) <= na ->
  exists fuel', List.length r < fuel' /\
  mloop nc na fuel (unlines (cfg_lines pd pf c) ++ r) cs g
  = match r with [] => Ok (step c cs g) | _ => mloop nc na fuel' r (cs2 c cs) (step c cs g) end.
Proof.
  intros nc na c r fuel cs g O T L B1 B2. rewrite cfg_text in *.
  destruct (main_quiet nc na _ _ _ cs g (quiet_pres c O) L) as (fuel1 & L1 & ->).
  destruct fuel1 as [|fuel1]; [lia|]. cbn [main_loop].
  rewrite fgets_line by (first [exact (plain_start c O)|exact (proj1 (proj2 (proj2 (proj2 O))))]).
  change (is_N (start_line pd c ++ [LF])) with true. cbv iota.
  destruct (start_scan c O) as [-> ->].
  rewrite app_length in L1. cbn [List.length] in L1.
  exists fuel1. split; [rewrite app_length in L1; lia|].
  pose proof O as (_ & _ & _ & _ & H & HX & HY & HZ & HE & A & M).
  replace (Z.of_nat (List.length (f_atoms c)) <? min_at)%Z with false by (symmetry; apply Z.ltb_ge; exact M).
  replace (Nat.leb nc (nconf g)) with false by (symmetry; apply Nat.leb_gt; exact B1).
  cbv zeta.
  match goal with |- context [header _ _ _ _ _ _ _ ?X (start_conf ?X g)] => change X with (cs1 c cs) end.
  assert (E : unlines (rest_lines c) ++ r
              = unlines (map (item_line pf) (f_hdr c) ++ [txt "#F"]) ++ (unlines (map (atom_line pd pf) (f_atoms c)) ++ r)).
  { unfold rest_lines. rewrite app_assoc. rewrite <- unlines_app, <- app_assoc. reflexivity. }
  rewrite E. rewrite (header_read scan_f atoi ntypes scale stressb pf SKIP _ _ _ _ _ H) by lia. cbn [bind].
  change (fold_left (fun cs h => item_cs scale stressb h cs) (f_hdr c) (cs1 c cs)) with (cs2 c cs).
  change (fold_left (fun g h => item_g stressb h g) (f_hdr c) (start_conf (cs1 c cs) g)) with (g2 c cs g).
  destruct (fcs_fields scale stressb (f_hdr c) (cs1 c cs)) as (_ & _ & A3 & _ & _ & _ & _ & A8 & A9 & A10).
  change (fold_left (fun cs h => item_cs scale stressb h cs) (f_hdr c) (cs1 c cs)) with (cs2 c cs) in *.
  assert (AH : after_header stressb (cs2 c cs) (g2 c cs g) = Ok (g3 (cs2 c cs) (g2 c cs g))).
  { unfold after_header. rewrite A3, A8, A9, A10.
    destruct (last_of selX (f_hdr c)), (last_of selY (f_hdr c)), (last_of selZ (f_hdr c)), (last_of selE (f_hdr c)); try congruence.
    reflexivity. }
  rewrite AH. cbn [bind].
  assert (NA : natoms (g3 (cs2 c cs) (g2 c cs g)) = natoms g).
  { unfold g3. cbn [natoms]. unfold g2. destruct (fg_fields stressb (f_hdr c) (start_conf (cs1 c cs) g)) as (_ & -> & _). reflexivity. }
  rewrite Nat2Z.id.
  rewrite (read_atoms_spec scan_f ntypes scale pd pf SKIP na (f_atoms c) 0 _ r).
  2: { apply Forall_forall. intros a I. rewrite Forall_forall in A. exact (proj1 (A a I)). }
  2: { rewrite NA. lia. }
  2: reflexivity.
  cbn [bind].
  destruct (f_atoms c) as [|a l] eqn:FA; [cbn in M; lia|].
  rewrite T. unfold step. rewrite FA. reflexivity.
Qed.
End Whole.
