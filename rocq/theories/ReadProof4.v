(** Every value of a configuration file is where it belongs. *)
From Coq Require Import ZArith List Bool Ascii String QArith Qcanon Arith Lia.
From Verif Require Import ParamsModel LinesModel ReadModel ReadSpec ReadProof ReadProof2 ReadProof3.
Import ListNotations.
Local Open Scope nat_scope.

(** configuration number [i], whose first atom is number [o] *)
Definition placed (scale : Qc) (stressb : bool) (i o : nat) (c : cfg) (g : glob) : Prop :=
  inconf g i = Z.of_nat (List.length (f_atoms c)) /\ cnfstart g i = Z.of_nat o /\ useforce g i = f_use c /\
  last_of selE (f_hdr c) = Some (coheng g i) /\
  conf_weight g i = match last_of selW (f_hdr c) with Some w => w | None => Q2Qc 1 end /\
  usestress g i = (stressb && match last_of selS (f_hdr c) with Some _ => true | None => false end) /\
  (stressb = true -> forall s, last_of selS (f_hdr c) = Some s -> s = tens_list (stress g i)) /\
  (exists x y z, last_of selX (f_hdr c) = Some x /\ last_of selY (f_hdr c) = Some y /\ last_of selZ (f_hdr c) = Some z /\
                 boxes g i = (scaled scale x, scaled scale y, scaled scale z)) /\
  (forall k ty p f, nth_error (f_atoms c) k = Some (ty, p, f) -> atoms g (o + k) = Atom ty (scaled scale p) f i) /\
  (forall z, na_type g i z = Z.of_nat (of_type z c)).

Section Inv.
Variable scan_f : text -> option (Qc * text).
Variable atoi : text -> Z.
Variables (ntypes : nat) (scale : Qc) (min_at : Z) (stressb : bool).
Variable pd : Z -> text.
Variable pf : Qc -> text.
Hypothesis SKIP : forall t, scan_f (" "%char :: t) = scan_f t.
Hypothesis MIN : (0 < min_at)%Z.
Notation ok := (cfg_ok scan_f ntypes min_at pd pf).

Record Inv (names : nat -> text) (cs : list cfg) (g : glob) : Prop := {
  I_n : nconf g = List.length cs;
  I_a : natoms g = total cs;
  I_c : forall i c, nth_error cs i = Some c -> placed scale stressb i (offset cs i) c g;
  I_w : forall i, List.length cs <= i -> conf_weight g i = Q2Qc 1 /\ usestress g i = false /\ forall z, na_type g i z = 0%Z;
  I_e : elements g = names;
  I_f : with_forces g = List.length (filter (fun c => negb (f_use c =? 0)%Z) cs);
  I_s : with_stresses g = List.length (filter (fun c => stressb && match last_of selS (f_hdr c) with Some _ => true | None => false end) cs);
  I_m : forall c a, In c cs -> In a (f_atoms c) -> (fst (fst a) <= max_type g)%Z }.

Lemma offset_app : forall cs c i, i <= List.length cs -> offset (cs ++ [c]) i = offset cs i.
Proof.
  intros cs c i L. unfold offset. rewrite firstn_app. replace (i - List.length cs) with 0 by lia. cbn [firstn]. rewrite app_nil_r. reflexivity.
Qed.
Lemma offset_all : forall cs, offset cs (List.length cs) = total cs.
Proof. intro cs. unfold offset, total. rewrite firstn_all. reflexivity. Qed.
Lemma total_app : forall cs c, total (cs ++ [c]) = total cs + List.length (f_atoms c).
Proof. intros cs c. unfold total. rewrite map_app, list_sum_app. cbn. lia. Qed.
Lemma offset_bound : forall cs i c, nth_error cs i = Some c -> offset cs i + List.length (f_atoms c) <= total cs.
Proof.
  induction cs as [|d cs IH]; intros [|i] c H; cbn in H; try discriminate.
  - injection H as <-. unfold offset, total. cbn. lia.
  - specialize (IH i c H). unfold offset, total in *. cbn [firstn map].
    change (list_sum (?a :: ?l)) with (a + list_sum l). cbn [list_sum fold_right]. unfold list_sum in *. lia.
Qed.

Lemma tens_list_of : forall s, List.length s = 6 -> tens_list (tens_of s) = s.
Proof. intros s L. destruct s as [|a [|b [|c [|d [|e [|f [|? ?]]]]]]]; try discriminate L. reflexivity. Qed.
Lemma last_S_ok : forall hs s, hdr_ok scan_f pf hs -> last_of selS hs = Some s -> List.length s = 6.
Proof.
  induction hs as [|h hs IH]; intros s O H; [discriminate|]. inversion O as [|? ? [O1 _] O']; subst. cbn in H.
  destruct (last_of selS hs) as [a|] eqn:E.
  - injection H as <-. apply IH; [exact O'|reflexivity].
  - destruct h; try discriminate H. cbn in H. injection H as <-. exact (proj1 O1).
Qed.

Lemma step_inv : forall names dn c cs g, ok c -> Inv names dn g -> Inv names (dn ++ [c]) (step scale stressb c cs g).
Proof.
  intros names dn c cs g O [N A C W E F S M].
  pose proof O as (_ & _ & _ & _ & HO & HX & HY & HZ & HE & AO & _).
  unfold step. set (k2 := cs2 scale stressb c cs). set (h2 := g2 stressb c cs g). set (h3 := g3 stressb k2 h2).
  destruct (put_atoms_fields scale (f_atoms c) 0 h3)
    as (P1 & P2 & P3 & P4 & P5 & P6 & P7 & P8 & P9 & P10 & P11 & P12 & P13 & PM1 & PM2 & PA1 & PA2 & PN1 & PN2).
  destruct (fcs_fields scale stressb (f_hdr c) (cs1 c cs)) as (K1 & K2 & K3 & K4 & K5 & K6 & K7 & K8 & K9 & K10).
  destruct (fg_fields stressb (f_hdr c) (start_conf (cs1 c cs) g))
    as (G1 & G2 & G3 & G4 & G5 & G6 & G7 & G8 & G9 & G10 & G11 & G12 & G13 & GE & GW & GS).
  change (fold_left (fun cs h => item_cs scale stressb h cs) (f_hdr c) (cs1 c cs)) with k2 in *.
  change (fold_left (fun g h => item_g stressb h g) (f_hdr c) (start_conf (cs1 c cs) g)) with h2 in *.
  cbn [start_conf nconf natoms inconf cnfstart useforce usestress boxes atoms na_type elements with_forces with_stresses max_type coheng conf_weight stress] in G1, G2, G3, G4, G5, G6, G7, G8, G9, G10, G11, G12, G13, GE, GW, GS.
  cbn [cs1 atom_count use_force have_energy have_stress box_x box_y box_z have_x have_y have_z] in K1, K2, K3, K4, K5, K6, K7, K8, K9, K10.
  assert (h3n : nconf h3 = nconf g) by (unfold h3, g3; cbn; exact G1).
  assert (h3a : natoms h3 = natoms g) by (unfold h3, g3; cbn; exact G2).
  rewrite h3n in *. rewrite h3a in *.
  assert (HS : stressb && have_stress k2 = stressb && some (last_of selS (f_hdr c))).
  { destruct stressb; [|reflexivity]. rewrite (K4 eq_refl). reflexivity. }
  assert (T3 : inconf h3 = inconf h2) by reflexivity. assert (T4 : cnfstart h3 = cnfstart h2) by reflexivity.
  assert (T5 : useforce h3 = useforce h2) by reflexivity. assert (T6 : coheng h3 = coheng h2) by reflexivity.
  assert (T7 : conf_weight h3 = conf_weight h2) by reflexivity. assert (T8 : stress h3 = stress h2) by reflexivity.
  assert (T9 : usestress h3 = if stressb && have_stress k2 then upd (usestress h2) (nconf h2) true else usestress h2) by reflexivity.
  assert (T10 : boxes h3 = upd (boxes h2) (nconf h2) (box_x k2, box_y k2, box_z k2)) by reflexivity.
  assert (T11 : atoms h3 = atoms h2) by reflexivity. assert (T12 : na_type h3 = na_type h2) by reflexivity.
  constructor; cbn [end_conf nconf natoms inconf cnfstart useforce usestress boxes atoms na_type elements with_forces with_stresses max_type coheng conf_weight stress].
  - rewrite P1, N, app_length. cbn. lia.
  - rewrite P2, A, total_app, K1, Nat2Z.id. reflexivity.
  - intros i d H. destruct (Nat.lt_ge_cases i (List.length dn)) as [L|L].
    + rewrite nth_error_app1 in H by exact L. rewrite offset_app by lia.
      pose proof (offset_bound _ _ _ H) as OB.
      destruct (C i d H) as (C1 & C2 & C3 & C4 & C5 & C6 & C7 & C8 & C9 & C10).
      assert (NE : Nat.eqb i (nconf g) = false) by (apply Nat.eqb_neq; lia).
      unfold placed. cbn [end_conf nconf natoms inconf cnfstart useforce usestress boxes atoms na_type elements with_forces with_stresses max_type coheng conf_weight stress].
      rewrite P3, P4, P5, P6, P7, P8, P9, P10.
      rewrite T3, T4, T5, T6, T7, T8, T9, T10.
      rewrite G3, G4, G5, G6, G7, GE, GW, GS, G1, NE. unfold upd. rewrite NE. cbn [andb].
      split; [exact C1|]. split; [exact C2|]. split; [exact C3|]. split; [exact C4|]. split; [exact C5|].
      split; [destruct (stressb && have_stress k2); rewrite ?NE; exact C6|]. split; [exact C7|]. split; [exact C8|]. split.
      * intros k ty p f K. rewrite PA1.
        -- rewrite T11, G8. apply C9. exact K.
        -- assert (k < List.length (f_atoms d)) by (apply nth_error_Some; congruence). lia.
      * intro z. rewrite PN1 by lia. rewrite T12, G9. apply C10.
    + assert (i = List.length dn) as ->.
      { assert (i < List.length (dn ++ [c])) by (apply nth_error_Some; congruence). rewrite app_length in *. cbn in *. lia. }
      rewrite nth_error_app2 in H by lia. rewrite Nat.sub_diag in H. cbn in H. injection H as <-.
      rewrite offset_app by lia. rewrite offset_all, <- N.
      destruct (W (List.length dn) (le_n _)) as (W1 & W2 & W3). rewrite <- N in W1, W2, W3.
      unfold placed. cbn [end_conf nconf natoms inconf cnfstart useforce usestress boxes atoms na_type elements with_forces with_stresses max_type coheng conf_weight stress].
      rewrite P3, P4, P5, P6, P7, P8, P9, P10.
      rewrite T3, T4, T5, T6, T7, T8, T9, T10.
      rewrite G3, G4, G5, G6, G7, GE, GW, GS, G1. unfold upd. rewrite Nat.eqb_refl. cbn [andb cs1 atom_count use_force].
      split; [reflexivity|]. split; [rewrite A; reflexivity|]. split; [reflexivity|].
      split; [destruct (last_of selE (f_hdr c)); [reflexivity|congruence]|].
      split; [destruct (last_of selW (f_hdr c)); [reflexivity|exact W1]|].
      split; [rewrite HS; unfold some; destruct stressb, (last_of selS (f_hdr c)); cbn [andb]; rewrite ?Nat.eqb_refl; first [reflexivity|exact W2]|].
      split; [intros -> s Hs; rewrite Hs; cbn; symmetry; apply tens_list_of; exact (last_S_ok _ _ HO Hs)|].
      split.
      { rewrite K5, K6, K7.
        destruct (last_of selX (f_hdr c)) as [x|]; [|congruence]. destruct (last_of selY (f_hdr c)) as [y|]; [|congruence].
        destruct (last_of selZ (f_hdr c)) as [z|]; [|congruence]. exists x, y, z. repeat (split; [reflexivity|]). reflexivity. }
      split.
      { intros k ty p f K. pose proof (PA2 k (ty, p, f) K) as Q. rewrite Nat.add_0_r in Q. rewrite A in Q. rewrite Q. cbn. rewrite ?h3n. reflexivity. }
      intro z. rewrite PN2. rewrite T12, G9, W3. unfold of_type. lia.
  - intros i L. rewrite app_length in L. cbn in L. destruct (W i ltac:(lia)) as (W1 & W2 & W3).
    assert (NE : Nat.eqb i (nconf g) = false) by (apply Nat.eqb_neq; lia).
    rewrite P7, P9. rewrite T7, T9, GW, G6, G1, NE.
    split; [exact W1|]. split; [destruct (stressb && have_stress k2); unfold upd; rewrite ?NE; exact W2|].
    intro z. rewrite PN1 by lia. rewrite T12, G9. apply W3.
  - rewrite P11. unfold h3, g3. cbn [elements]. rewrite G10. exact E.
  - rewrite P12. unfold h3, g3. cbn [with_forces]. rewrite G11, K2, F, filter_app, app_length. cbn [filter].
    destruct (f_use c =? 0)%Z; cbn; lia.
  - rewrite P13. unfold h3, g3. cbn [with_stresses]. rewrite G12, HS, S, filter_app, app_length. cbn [filter]. unfold some.
    destruct (stressb && match last_of selS (f_hdr c) with Some _ => true | None => false end); cbn; lia.
  - intros d a I J. apply in_app_or in I. destruct I as [I|[<-|[]]].
    + eapply Z.le_trans; [exact (M d a I J)|]. eapply Z.le_trans; [|exact PM1]. unfold h3, g3. cbn [max_type]. rewrite G13. lia.
    + apply PM2. exact J.
Qed.

Lemma skip_hash : forall t, skip_space ("#"%char :: t) = "#"%char :: t.
Proof. reflexivity. Qed.
Lemma tight_file : forall cs, tight (file pd pf cs).
Proof.
  intros [|c cs]; [reflexivity|]. unfold tight. rewrite file_cons, cfg_text.
  destruct (f_pre c); reflexivity.
Qed.
Lemma file_nonempty : forall c cs, exists a t, file pd pf (c :: cs) = a :: t.
Proof.
  intros c cs. rewrite file_cons, cfg_text. destruct (f_pre c); eexists; eexists; reflexivity.
Qed.

Lemma main_file : forall names nc na cs dn fuel k g, cs <> [] -> Forall ok cs -> List.length (file pd pf cs) < fuel ->
  Inv names dn g -> List.length dn + List.length cs <= nc -> total dn + total cs <= na ->
  exists g', main_loop scan_f atoi ntypes scale min_at stressb nc na fuel (file pd pf cs) k g = Ok g' /\ Inv names (dn ++ cs) g'.
Proof.
  intros names nc na. induction cs as [|c cs IH]; intros dn fuel k g NE F L I B1 B2; [congruence|].
  inversion F as [|? ? O F']; subst. rewrite file_cons in *.
  destruct (main_cfg scan_f atoi ntypes scale min_at stressb pd pf SKIP MIN nc na c (file pd pf cs) fuel k g O (tight_file cs) L) as (fuel' & L' & ->).
  - rewrite (I_n _ _ _ I). cbn in B1. lia.
  - rewrite (I_a _ _ _ I). unfold total in *. cbn [map] in B2. change (list_sum (?a :: ?l)) with (a + list_sum l) in B2. cbn [list_sum fold_right] in B2. lia.
  - pose proof (step_inv names dn c k g O I) as I'.
    destruct cs as [|c' cs'].
    + exists (step scale stressb c k g). split; [reflexivity|exact I'].
    + destruct (file_nonempty c' cs') as (a & t & Et).
      destruct (IH (dn ++ [c]) fuel' (cs2 scale stressb c k) (step scale stressb c k g)) as (g' & R & I2).
      * discriminate.
      * exact F'.
      * exact L'.
      * exact I'.
      * rewrite app_length. cbn in *. lia.
      * rewrite total_app. unfold total in *. cbn [map] in *. cbn [list_sum fold_right] in *. lia.
      * exists g'. rewrite <- app_assoc in I2. split; [|exact I2]. rewrite Et in *. exact R.
Qed.

Lemma inv0 : forall names, Inv names [] (glob0 names).
Proof.
  intro names. constructor.
  - reflexivity.
  - reflexivity.
  - intros [|i] c H; discriminate.
  - intros i _. repeat (split; [reflexivity|]). reflexivity.
  - reflexivity.
  - reflexivity.
  - reflexivity.
  - intros c a [].
Qed.

Lemma sum_types_spec : forall cs (f : nat -> Z -> Z) z, (forall i c, nth_error cs i = Some c -> f i z = Z.of_nat (of_type z c)) ->
  sum_types (List.length cs) f z = Z.of_nat (list_sum (map (of_type z) cs)).
Proof.
  intros cs. induction cs as [|c cs IH] using rev_ind; intros f z H; [reflexivity|].
  rewrite app_length, map_app, list_sum_app. cbn [List.length]. rewrite Nat.add_1_r. cbn [sum_types].
  rewrite IH.
  - rewrite (H (List.length cs) c). 2: { rewrite nth_error_app2 by lia. rewrite Nat.sub_diag. reflexivity. }
    cbn. lia.
  - intros i d Hd. apply H. rewrite nth_error_app1; [exact Hd|]. apply nth_error_Some. congruence.
Qed.

Theorem round_trip : forall fixed names cs, cs <> [] -> Forall ok cs ->
  (exists c a, In c cs /\ In a (f_atoms c) /\ fst (fst a) = (Z.of_nat ntypes - 1)%Z) ->
  exists g, read_config scan_f atoi ntypes scale min_at stressb fixed names (file pd pf cs) = Ok g /\
    nconf g = List.length cs /\ natoms g = total cs /\ elements g = names /\
    (forall i c, nth_error cs i = Some c -> placed scale stressb i (offset cs i) c g) /\
    (forall z, na_type g (List.length cs) z = Z.of_nat (list_sum (map (of_type z) cs))) /\
    with_forces g = List.length (filter (fun c => negb (f_use c =? 0)%Z) cs) /\
    with_stresses g = List.length (filter (fun c => stressb && match last_of selS (f_hdr c) with Some _ => true | None => false end) cs).
Proof.
  intros fixed names cs NE F (c0 & a0 & Ic & Ia & Ea). unfold read_config, create_memory.
  rewrite (count_file scan_f ntypes min_at pd pf) by (first [exact F|lia]). cbn [bind].
  assert (T : 0 < total cs).
  { destruct cs as [|c cs']; [congruence|]. inversion F as [|? ? O _]; subst.
    pose proof O as (_ & _ & _ & _ & _ & _ & _ & _ & _ & _ & M). unfold total. cbn [map list_sum fold_right]. lia. }
  replace (Nat.eqb (0 + List.length cs) 0) with false by (symmetry; apply Nat.eqb_neq; destruct cs; [congruence|cbn; lia]).
  replace ((0 + Z.of_nat (total cs) <=? 0)%Z) with false by (symmetry; apply Z.leb_gt; lia).
  cbn [orb bind]. cbn [Nat.add Z.add]. rewrite Nat2Z.id.
  destruct (main_file names (List.length cs) (total cs) cs [] (S (List.length (file pd pf cs)))
              (CState 0 0 false false v0 v0 v0 false false false (if fixed then ntypes else 0)) (glob0 names) NE F) as (g & -> & I).
  - lia.
  - apply inv0.
  - cbn. lia.
  - cbn. lia.
  - cbn [bind app] in *. destruct I as [N A C W E FF S M]. unfold finish. cbn [max_type].
    replace (max_type g + 1 <? Z.of_nat ntypes)%Z with false by (symmetry; apply Z.ltb_ge; specialize (M c0 a0 Ic Ia); lia).
    eexists. split; [reflexivity|]. cbn [nconf natoms elements with_forces with_stresses na_type].
    split; [exact N|]. split; [exact A|]. split; [exact E|]. split; [|split; [|split; [exact FF|exact S]]].
    + intros i c H. destruct (C i c H) as (C1 & C2 & C3 & C4 & C5 & C6 & C7 & C8 & C9 & C10).
      assert (i < List.length cs) by (apply nth_error_Some; congruence).
      unfold placed. cbn [inconf cnfstart useforce coheng conf_weight stress usestress boxes atoms na_type].
      repeat (split; [assumption|]). intro z. unfold upd. destruct (Nat.eqb_spec i (nconf g)); [lia|]. apply C10.
    + intro z. unfold upd. rewrite N, Nat.eqb_refl.
      destruct (W (List.length cs) (le_n _)) as (_ & _ & W3). rewrite W3.
      rewrite (sum_types_spec cs (na_type g) z); [lia|].
      intros i c H. destruct (C i c H) as (_ & _ & _ & _ & _ & _ & _ & _ & _ & C10). apply C10.
Qed.
End Inv.
