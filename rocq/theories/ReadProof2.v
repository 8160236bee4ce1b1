(** The header and the atoms of a configuration. *)
From Coq Require Import ZArith List Bool Ascii String QArith Qcanon Arith Lia.
From Verif Require Import ParamsModel LinesModel ReadModel ReadSpec ReadProof.
Import ListNotations.
Local Open Scope nat_scope.

Section Rd.
Variable scan_f : text -> option (Qc * text).
Variable atoi : text -> Z.
Variables (ntypes : nat) (scale : Qc) (min_at : Z) (stressb : bool).
Variable pd : Z -> text.
Variable pf : Qc -> text.
Hypothesis SKIP : forall t, scan_f (" "%char :: t) = scan_f t.
Hypothesis SKIPS : forall t, scan_f (skip_space t) = scan_f t.
Notation reads_f := (reads_f scan_f pf).
Definition reads_d (z : Z) : Prop :=
  plain (pd z) /\ (forall c, In c (pd z) -> c <> "#"%char) /\ pd z <> [] /\ forall r, stop r -> scan_d (pd z ++ r) = Some (z, r).

Lemma scan_nums0 : forall q qs r, Forall reads_f (q :: qs) -> stop r ->
  scan_fs scan_f (S (List.length qs)) (pf q ++ nums pf qs ++ r) = Some (q :: qs, r).
Proof.
  intros q qs r F S. pose proof (scan_nums scan_f pf SKIP (q :: qs) r F S) as H.
  cbn [List.length nums flat_map] in H. cbn [app] in H. cbn [scan_fs] in H |- *.
  rewrite SKIP in H. rewrite <- app_assoc in H. exact H.
Qed.

Definition item_ok (h : hitem) : Prop :=
  match h with
  | HX v | HY v | HZ v => Forall reads_f (vl v)
  | HE q => reads_f q
  | HW q => reads_f q /\ (Q2Qc 0 <= q)%Qc
  | HS s => List.length s = 6 /\ Forall reads_f s
  | HCom c => plain c
  end.
Definition tens_of (s : list Qc) : tens :=
  match s with [a; b; c; d; e; f] => Tens a b c d e f | _ => tens0 end.

(** effect of a line on the state *)
Definition item_cs (h : hitem) (cs : cstate) : cstate :=
  match h with
  | HX v => CState (atom_count cs) (use_force cs) (have_energy cs) (have_stress cs) (scaled scale v) (box_y cs) (box_z cs)
                   true (have_y cs) (have_z cs) (num_fixed cs)
  | HY v => CState (atom_count cs) (use_force cs) (have_energy cs) (have_stress cs) (box_x cs) (scaled scale v) (box_z cs)
                   (have_x cs) true (have_z cs) (num_fixed cs)
  | HZ v => CState (atom_count cs) (use_force cs) (have_energy cs) (have_stress cs) (box_x cs) (box_y cs) (scaled scale v)
                   (have_x cs) (have_y cs) true (num_fixed cs)
  | HE _ => CState (atom_count cs) (use_force cs) true (have_stress cs) (box_x cs) (box_y cs) (box_z cs)
                   (have_x cs) (have_y cs) (have_z cs) (num_fixed cs)
  | HS _ => if stressb then CState (atom_count cs) (use_force cs) (have_energy cs) true (box_x cs) (box_y cs) (box_z cs)
                   (have_x cs) (have_y cs) (have_z cs) (num_fixed cs) else cs
  | _ => cs
  end.
Definition item_g (h : hitem) (g : glob) : glob :=
  match h with
  | HE q => set_eng g q
  | HW q => set_weight g q
  | HS s => if stressb then set_stress g (tens_of s) else g
  | _ => g
  end.

Lemma app_nil_r' : forall (A : Type) (l : list A), l = l ++ [].
Proof. intros. rewrite app_nil_r. reflexivity. Qed.

Lemma box_read : forall x y z, Forall reads_f [x; y; z] ->
  read_box_vector scan_f scale (pf x ++ nums pf [y; z]) = Ok (scaled scale (x, y, z)).
Proof.
  intros x y z F. unfold read_box_vector.
  rewrite (app_nil_r' _ (nums pf [y; z])). change 3%nat with (S (List.length [y; z])).
  rewrite scan_nums0 by (first [exact F|exact I]). reflexivity.
Qed.
Lemma eng_read : forall q, reads_f q -> scan_f (pf q ++ nums pf []) = Some (q, []).
Proof. intros q [_ P]. cbn. apply P. exact I. Qed.
Lemma stress_read : forall a b c d e f, Forall reads_f [a; b; c; d; e; f] ->
  scan_fs scan_f 6 (pf a ++ nums pf [b; c; d; e; f]) = Some ([a; b; c; d; e; f], []).
Proof.
  intros a b c d e f F. rewrite (app_nil_r' _ (nums pf [b; c; d; e; f])).
  change 6%nat with (S (List.length [b; c; d; e; f])). apply scan_nums0; [exact F|exact I].
Qed.

Lemma item_line_read : forall h cs g, item_ok h ->
  header_line scan_f atoi ntypes scale stressb (item_line pf h) cs g = Ok (item_cs h cs, item_g h g).
Proof.
  intros h cs g O. unfold header_line. destruct h as [v|v|v|q|q|s|c]; cbn [item_ok] in O; cbn [item_line item_cs item_g].
  1,2,3: destruct v as [[x y] z].
  - change (kind_of (ch (txt "#X" ++ nums pf (vl (x, y, z))) 1)) with KX. cbv iota.
    change (skipn 3 (txt "#X" ++ nums pf (vl (x, y, z)))) with (pf x ++ nums pf [y; z]).
    rewrite box_read by exact O. reflexivity.
  - change (kind_of (ch (txt "#Y" ++ nums pf (vl (x, y, z))) 1)) with KY. cbv iota.
    change (skipn 3 (txt "#Y" ++ nums pf (vl (x, y, z)))) with (pf x ++ nums pf [y; z]).
    rewrite box_read by exact O. reflexivity.
  - change (kind_of (ch (txt "#Z" ++ nums pf (vl (x, y, z))) 1)) with KZ. cbv iota.
    change (skipn 3 (txt "#Z" ++ nums pf (vl (x, y, z)))) with (pf x ++ nums pf [y; z]).
    rewrite box_read by exact O. reflexivity.
  - change (kind_of (ch (txt "#E" ++ nums pf [q]) 1)) with KE. cbv iota.
    change (skipn 3 (txt "#E" ++ nums pf [q])) with (pf q ++ nums pf []).
    rewrite eng_read by exact O. reflexivity.
  - change (kind_of (ch (txt "#W" ++ nums pf [q]) 1)) with KW. cbv iota.
    change (skipn 3 (txt "#W" ++ nums pf [q])) with (pf q ++ nums pf []).
    destruct O as [O1 O2]. rewrite eng_read by exact O1.
    destruct (Qclt_le_dec q (Q2Qc 0)) as [L|L]; [exfalso; exact (Qcle_not_lt _ _ O2 L)|reflexivity].
  - change (kind_of (ch (txt "#S" ++ nums pf s) 1)) with KS. cbv iota.
    destruct O as [L F].
    destruct s as [|a [|b [|c [|d [|e [|f [|? ?]]]]]]]; try discriminate L.
    destruct stressb; [|reflexivity].
    change (skipn 3 (txt "#S" ++ nums pf [a; b; c; d; e; f])) with (pf a ++ nums pf [b; c; d; e; f]).
    rewrite stress_read by exact F. reflexivity.
  - reflexivity.
Qed.
Lemma item_plain : forall h, item_ok h -> plain (item_line pf h).
Proof.
  intros h O. destruct h as [v|v|v|q|q|s|c]; cbn [item_ok] in O; cbn [item_line];
    (apply plain_app; [noc|]).
  1,2,3: apply (plain_nums scan_f pf); exact O.
  - apply (plain_nums scan_f pf). constructor; [exact O|constructor].
  - apply (plain_nums scan_f pf). constructor; [exact (proj1 O)|constructor].
  - apply (plain_nums scan_f pf). exact (proj2 O).
  - exact O.
Qed.
Lemma item_not_F : forall h, item_ok h -> ch (item_line pf h) 1 <> "F"%char.
Proof. intros h O. destruct h; discriminate. Qed.

Definition fits (l : text) : Prop := List.length l < LINE.
Definition hdr_ok (hs : list hitem) : Prop := Forall (fun h => item_ok h /\ fits (item_line pf h)) hs.

Lemma header_read : forall hs fuel r cs g, hdr_ok hs ->
  List.length (unlines (map (item_line pf) hs ++ [txt "#F"]) ++ r) < fuel ->
  header scan_f atoi ntypes scale stressb fuel (unlines (map (item_line pf) hs ++ [txt "#F"]) ++ r) cs g
  = Ok (r, fold_left (fun cs h => item_cs h cs) hs cs, fold_left (fun g h => item_g h g) hs g).
Proof.
  induction hs as [|h hs IH]; intros fuel r cs g OK L; (destruct fuel as [|fuel]; [lia|]).
  - reflexivity.
  - inversion OK as [|? ? [O F] OK']; subst.
    set (R := unlines (map (item_line pf) hs ++ [txt "#F"]) ++ r) in *.
    assert (E : unlines (map (item_line pf) (h :: hs) ++ [txt "#F"]) ++ r = item_line pf h ++ LF :: R).
    { unfold R. cbn [map app unlines flat_map]. rewrite <- !app_assoc. reflexivity. }
    rewrite E in *. cbn [header].
    rewrite fgets_line by (first [exact (item_plain h O)|exact F]). cbv iota beta.
    rewrite cut_line by (exact (proj1 (item_plain h O))).
    rewrite item_line_read by exact O. cbn [bind].
    destruct (ascii_dec (ch (item_line pf h) 1) "F") as [e|_]; [exfalso; exact (item_not_F h O e)|].
    apply IH; [exact OK'|]. rewrite app_length in L. cbn [List.length] in L. fold R. lia.
Qed.

(** ** Effect of the whole header *)
Notation fcs := (fold_left (fun cs h => item_cs h cs)).
Notation fg := (fold_left (fun g h => item_g h g)).
Definition some {A} (o : option A) : bool := match o with Some _ => true | None => false end.
Definition dflt {A} (o : option A) (d : A) : A := match o with Some a => a | None => d end.

Lemma fcs_fields : forall hs cs,
  atom_count (fcs hs cs) = atom_count cs /\ use_force (fcs hs cs) = use_force cs /\
  have_energy (fcs hs cs) = have_energy cs || some (last_of selE hs) /\
  (stressb = true -> have_stress (fcs hs cs) = have_stress cs || some (last_of selS hs)) /\
  box_x (fcs hs cs) = dflt (option_map (scaled scale) (last_of selX hs)) (box_x cs) /\
  box_y (fcs hs cs) = dflt (option_map (scaled scale) (last_of selY hs)) (box_y cs) /\
  box_z (fcs hs cs) = dflt (option_map (scaled scale) (last_of selZ hs)) (box_z cs) /\
  have_x (fcs hs cs) = have_x cs || some (last_of selX hs) /\
  have_y (fcs hs cs) = have_y cs || some (last_of selY hs) /\
  have_z (fcs hs cs) = have_z cs || some (last_of selZ hs).
Proof.
  induction hs as [|h hs IH]; intro cs.
  - cbn. rewrite !orb_false_r. repeat (split; [reflexivity|]). reflexivity.
  - cbn [fold_left]. destruct (IH (item_cs h cs)) as (A1 & A2 & A3 & A4 & A5 & A6 & A7 & A8 & A9 & A10).
    rewrite A1, A2, A3, A5, A6, A7, A8, A9, A10.
    assert (A4' : stressb = true -> have_stress (fcs hs (item_cs h cs)) = have_stress cs || some (last_of selS (h :: hs))).
    { intro S. rewrite (A4 S). destruct h; cbn; rewrite ?S; cbn; destruct (last_of selS hs); cbn; rewrite ?orb_true_r, ?orb_false_r; reflexivity. }
    split; [destruct h; cbn; try destruct stressb; reflexivity|].
    split; [destruct h; cbn; try destruct stressb; reflexivity|].
    split; [destruct h; cbn; try destruct stressb; cbn; destruct (last_of selE hs); cbn; rewrite ?orb_true_r, ?orb_false_r; reflexivity|].
    split; [exact A4'|].
    split; [destruct h; cbn; try destruct stressb; cbn; destruct (last_of selX hs); reflexivity|].
    split; [destruct h; cbn; try destruct stressb; cbn; destruct (last_of selY hs); reflexivity|].
    split; [destruct h; cbn; try destruct stressb; cbn; destruct (last_of selZ hs); reflexivity|].
    split; [destruct h; cbn; try destruct stressb; cbn; destruct (last_of selX hs); cbn; rewrite ?orb_true_r, ?orb_false_r; reflexivity|].
    split; [destruct h; cbn; try destruct stressb; cbn; destruct (last_of selY hs); cbn; rewrite ?orb_true_r, ?orb_false_r; reflexivity|].
    destruct h; cbn; try destruct stressb; cbn; destruct (last_of selZ hs); cbn; rewrite ?orb_true_r, ?orb_false_r; reflexivity.
Qed.

Lemma fg_fields : forall hs g,
  nconf (fg hs g) = nconf g /\ natoms (fg hs g) = natoms g /\ inconf (fg hs g) = inconf g /\ cnfstart (fg hs g) = cnfstart g /\
  useforce (fg hs g) = useforce g /\ usestress (fg hs g) = usestress g /\ boxes (fg hs g) = boxes g /\ atoms (fg hs g) = atoms g /\
  na_type (fg hs g) = na_type g /\ elements (fg hs g) = elements g /\ with_forces (fg hs g) = with_forces g /\
  with_stresses (fg hs g) = with_stresses g /\ max_type (fg hs g) = max_type g /\
  (forall i, coheng (fg hs g) i = if Nat.eqb i (nconf g) then dflt (last_of selE hs) (coheng g i) else coheng g i) /\
  (forall i, conf_weight (fg hs g) i = if Nat.eqb i (nconf g) then dflt (last_of selW hs) (conf_weight g i) else conf_weight g i) /\
  (forall i, stress (fg hs g) i = if Nat.eqb i (nconf g) && stressb then dflt (option_map tens_of (last_of selS hs)) (stress g i) else stress g i).
Proof.
  induction hs as [|h hs IH]; intro g.
  - cbn. repeat (split; [reflexivity|]).
    split; [|split]; intro i; destruct (Nat.eqb i (nconf g)); try reflexivity; destruct stressb; reflexivity.
  - cbn [fold_left]. destruct (IH (item_g h g)) as (A1 & A2 & A3 & A4 & A5 & A6 & A7 & A8 & A9 & A10 & A11 & A12 & A13 & AE & AW & AS).
    rewrite A1, A2, A3, A4, A5, A6, A7, A8, A9, A10, A11, A12, A13.
    assert (N : nconf (item_g h g) = nconf g) by (destruct h; cbn; try (destruct stressb); reflexivity).
    rewrite N in *.
    split; [exact eq_refl|]. do 12 (split; [destruct h; cbn; try (destruct stressb); reflexivity|]).
    split; [|split]; intro i; [rewrite AE|rewrite AW|rewrite AS]; destruct (Nat.eqb i (nconf g)) eqn:K; cbn [andb].
    + destruct h; cbn; rewrite ?K; try (destruct stressb; cbn); unfold upd; rewrite ?K; destruct (last_of selE hs); reflexivity.
    + destruct h; cbn; try (destruct stressb; cbn); unfold upd; rewrite ?K; reflexivity.
    + destruct h; cbn; rewrite ?K; try (destruct stressb; cbn); unfold upd; rewrite ?K; destruct (last_of selW hs); reflexivity.
    + destruct h; cbn; try (destruct stressb; cbn); unfold upd; rewrite ?K; reflexivity.
    + destruct h; cbn; rewrite ?K; destruct stressb; cbn; unfold upd; rewrite ?K; destruct (last_of selS hs); reflexivity.
    + destruct h; cbn; try (destruct stressb; cbn); unfold upd; rewrite ?K; reflexivity.
Qed.

(** ** Atoms *)
Definition atom_ok (a : Z * vec3 * vec3) : Prop :=
  let '(ty, p, f) := a in reads_d ty /\ Forall reads_f (vl p ++ vl f) /\ (0 <= ty < Z.of_nat ntypes)%Z.
Definition mk_atom (k : nat) (a : Z * vec3 * vec3) : atom := let '(ty, p, f) := a in Atom ty (scaled scale p) f k.
Definition put_atom (i : nat) (a : Z * vec3 * vec3) (g : glob) : glob :=
  let ty := fst (fst a) in
  Glob (nconf g) (natoms g) (inconf g) (cnfstart g) (useforce g) (coheng g) (conf_weight g) (stress g)
       (usestress g) (boxes g) (upd (atoms g) (natoms g + i) (mk_atom (nconf g) a))
       (upd (na_type g) (nconf g) (updz (na_type g (nconf g)) ty (na_type g (nconf g) ty + 1)%Z))
       (elements g) (with_forces g) (with_stresses g) (Z.max (max_type g) ty).
Fixpoint put_atoms (i : nat) (l : list (Z * vec3 * vec3)) (g : glob) : glob :=
  match l with [] => g | a :: l' => put_atoms (S i) l' (put_atom i a g) end.

Lemma skip_skip : forall t, skip_space (skip_space t) = skip_space t.
Proof. induction t as [|c t IH]; [reflexivity|]. cbn. destruct (is_space c) eqn:E; [exact IH|]. cbn. rewrite E. reflexivity. Qed.

Lemma read_atoms_spec : forall na l i t r g, Forall atom_ok l -> natoms g + i + List.length l <= na ->
  skip_space t = skip_space (unlines (map (atom_line pd pf) l) ++ r) ->
  read_atoms scan_f ntypes scale na (List.length l) i t g
  = Ok (match l with [] => t | _ => skip_space r end, put_atoms i l g).
Proof.
  induction l as [|a l IH]; intros i t r g F B E; [reflexivity|].
  inversion F as [|? ? A F']; subst. destruct a as [[ty [[x y] z]] [[fx fy] fz]].
  destruct A as (D & N & T). cbn [List.length] in B. cbn [List.length read_atoms].
  replace (Nat.leb na (natoms g + i)) with false by (symmetry; apply Nat.leb_gt; lia).
  set (R := unlines (map (atom_line pd pf) l) ++ r) in *.
  assert (E' : skip_space t = skip_space (pd ty ++ nums pf [x; y; z; fx; fy; fz] ++ LF :: R)).
  { rewrite E. unfold R. cbn [map unlines flat_map atom_line vl app]. rewrite <- !app_assoc. reflexivity. }
  rewrite <- scan_d_skip, E', scan_d_skip.
  destruct D as (_ & _ & _ & D). rewrite D by (apply stop_nums; right; reflexivity).
  change 6%nat with (List.length [x; y; z; fx; fy; fz]).
  rewrite (scan_nums scan_f pf SKIP) by (first [exact N|right; reflexivity]).
  change (skip_space (LF :: R)) with (skip_space R).
  replace ((Z.of_nat ntypes <=? ty)%Z || (ty <? 0)%Z) with false
    by (symmetry; apply orb_false_iff; split; [apply Z.leb_gt|apply Z.ltb_ge]; lia).
  cbv zeta.
  match goal with |- read_atoms _ _ _ _ _ _ _ ?G = _ => change G with (put_atom i (ty, (x, y, z), (fx, fy, fz)) g) end.
  rewrite (IH (S i) (skip_space R) r); [|exact F'|cbn; lia|unfold R; apply skip_skip].
  destruct l; [|reflexivity]. reflexivity.
Qed.

Lemma put_atoms_fields : forall l i g,
  nconf (put_atoms i l g) = nconf g /\ natoms (put_atoms i l g) = natoms g /\ inconf (put_atoms i l g) = inconf g /\
  cnfstart (put_atoms i l g) = cnfstart g /\ useforce (put_atoms i l g) = useforce g /\ coheng (put_atoms i l g) = coheng g /\
  conf_weight (put_atoms i l g) = conf_weight g /\ stress (put_atoms i l g) = stress g /\
  usestress (put_atoms i l g) = usestress g /\ boxes (put_atoms i l g) = boxes g /\ elements (put_atoms i l g) = elements g /\
  with_forces (put_atoms i l g) = with_forces g /\ with_stresses (put_atoms i l g) = with_stresses g /\
  (max_type g <= max_type (put_atoms i l g))%Z /\ (forall a, In a l -> (fst (fst a) <= max_type (put_atoms i l g))%Z) /\
  (forall j, j < natoms g + i -> atoms (put_atoms i l g) j = atoms g j) /\
  (forall k a, nth_error l k = Some a -> atoms (put_atoms i l g) (natoms g + i + k) = mk_atom (nconf g) a) /\
  (forall j z, j <> nconf g -> na_type (put_atoms i l g) j z = na_type g j z) /\
  (forall z, na_type (put_atoms i l g) (nconf g) z
             = (na_type g (nconf g) z + Z.of_nat (List.length (filter (fun a => Z.eqb (fst (fst a)) z) l)))%Z).
Proof.
  induction l as [|a l IH]; intros i g; cbn [put_atoms].
  - do 13 (split; [reflexivity|]). split; [lia|]. split; [intros a []|]. split; [reflexivity|].
    split; [intros [|k] a H; discriminate|]. split; [reflexivity|]. intro z. cbn. lia.
  - destruct (IH (S i) (put_atom i a g)) as (A1 & A2 & A3 & A4 & A5 & A6 & A7 & A8 & A9 & A10 & A11 & A12 & A13 & M1 & M2 & B1 & B2 & C1 & C2).
    rewrite A1, A2, A3, A4, A5, A6, A7, A8, A9, A10, A11, A12, A13.
    cbn [put_atom nconf natoms max_type] in M1, B1, B2, C1, C2.
    do 13 (split; [reflexivity|]).
    split; [lia|]. split; [intros b [<-|H]; [lia|apply M2; exact H]|].
    split; [|split; [|split]].
    + intros j Hj. rewrite B1 by lia. cbn. unfold upd. destruct (Nat.eqb_spec j (natoms g + i)); [lia|reflexivity].
    + intros [|k] b H; cbn in H.
      * injection H as <-. rewrite B1 by lia. cbn. unfold upd. rewrite Nat.add_0_r, Nat.eqb_refl. reflexivity.
      * replace (natoms g + i + S k) with (natoms g + S i + k) by lia. apply B2. exact H.
    + intros j z Hj. rewrite C1 by exact Hj. cbn. unfold upd. destruct (Nat.eqb_spec j (nconf g)); [contradiction|reflexivity].
    + intro z. rewrite C2. cbn [put_atom na_type]. unfold upd. rewrite Nat.eqb_refl. unfold updz.
      cbn [filter]. rewrite (Z.eqb_sym z). destruct (Z.eqb_spec (fst (fst a)) z) as [->|D]; cbn [List.length]; lia.
Qed.
End Rd.
