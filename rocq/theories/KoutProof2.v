(** Printing of integers, sections, witnesses. *)
From Coq Require Import ZArith List Bool Ascii String Lia Floats.SpecFloat.
From Verif Require Import ParamsModel ParamsProof KimModel KimProof KoutModel KoutSpec KoutProof.
Import ListNotations.
Local Open Scope Z_scope.

Lemma positional_snoc : forall ds d, positional (ds ++ [d]) = 10 * positional ds + d.
Proof.
  induction ds as [|a ds IH]; intros d; cbn [app positional]; [cbn; lia|].
  rewrite IH, app_length. cbn [List.length]. rewrite Nat2Z.inj_add, Z.pow_add_r by lia. change (10 ^ Z.of_nat 1) with 10. ring.
Qed.
Lemma digits_spec : forall fuel z, 0 <= z < 10 ^ Z.of_nat fuel -> (fuel <> 0)%nat ->
  digits fuel z <> [] /\ digits_ok (digits fuel z) /\ positional (digits fuel z) = z.
Proof.
  induction fuel as [|fuel IH]; intros z H F; [congruence|]. cbn [digits].
  destruct (Z.ltb_spec z 10) as [L|L].
  - split; [discriminate|]. split; [intros d [<-|[]]; lia|cbn; lia].
  - assert (B : 0 <= z / 10 < 10 ^ Z.of_nat fuel).
    { split; [apply Z.div_pos; lia|]. apply Z.div_lt_upper_bound; [lia|].
      rewrite Nat2Z.inj_succ, Z.pow_succ_r in H by lia. lia. }
    assert (F' : fuel <> 0%nat) by (intros ->; cbn in B; pose proof (Z.div_le_lower_bound z 10 1 ltac:(lia) ltac:(lia)); lia).
    destruct (IH _ B F') as [N [O P]].
    split; [intros E; apply app_eq_nil in E; destruct E; discriminate|]. split.
    + intros d I. apply in_app_or in I. destruct I as [I|[<-|[]]]; [exact (O d I)|].
      pose proof (Z.mod_pos_bound z 10 ltac:(lia)); lia.
    + rewrite positional_snoc, P. pose proof (Z.div_mod z 10 ltac:(lia)); lia.
Qed.
Theorem decimal_prints : prints_ints decimal.
Proof.
  intros z B. unfold decimal.
  destruct (digits_spec 10 (Z.abs z) ltac:(cbn; lia) ltac:(discriminate)) as [N [O P]].
  destruct (Z.ltb_spec z 0) as [L|L].
  - exists ["-"%char], true, (digits 10 (Z.abs z)). split; [constructor|]. split; [exact N|]. split; [exact O|].
    split; [reflexivity|]. cbn [signed]. lia.
  - exists [], false, (digits 10 (Z.abs z)). split; [constructor|]. split; [exact N|]. split; [exact O|].
    split; [reflexivity|]. cbn [signed]. lia.
Qed.

(** ** Sections *)
Lemma starts_prefix : forall a b, starts a b = true -> is_prefix a b.
Proof.
  induction a as [|x a IH]; intros b H; [exists b; reflexivity|].
  destruct b as [|y b]; [discriminate|]. cbn in H. destruct (ascii_dec x y) as [<-|]; [|discriminate].
  destruct (IH b H) as [r ->]. exists r. reflexivity.
Qed.
Lemma find_head_heads : forall f cut n g, find_head f = Some (cut, n, g) -> heads f = (cut, n) :: heads g.
Proof.
  induction f as [|[c m|t v|] f IH]; intros cut n g H; cbn in H; [discriminate| | |].
  - injection H as -> -> ->. reflexivity.
  - exact (IH _ _ _ H).
  - exact (IH _ _ _ H).
Qed.
Lemma read_cells_heads : forall cut int cs f es g, read_cells cut int cs f = Some (es, g) ->
  heads f = heads g /\ List.length es = List.length cs.
Proof.
  intros cut int cs; induction cs as [|c cs IH]; intros f es g H; cbn in H.
  - injection H as <- <-. split; reflexivity.
  - destruct f as [|l f]; [discriminate|].
    destruct (read_line cut int c l) as [e|] eqn:E; [|discriminate].
    destruct (read_cells cut int cs f) as [[es' g']|] eqn:R; [|discriminate]. injection H as <- <-.
    destruct (IH _ _ _ R) as [A B]. destruct l as [c' n|t v|]; [discriminate| |discriminate].
    cbn. split; [exact A|rewrite B; reflexivity].
Qed.
Theorem sections : forall ps f ess, read_params ps f = Some ess ->
  Forall2 (fun p es => List.length es = List.length (p_cells p)) ps ess /\
  forall i p, nth_error ps i = Some p ->
    exists cut n, nth_error (heads f) i = Some (cut, n) /\ is_prefix n (p_name p).
Proof.
  induction ps as [|p ps IH]; intros f ess H; cbn in H.
  - injection H as <-. split; [constructor|]. intros [|i] p E; discriminate.
  - unfold read_param in H. destruct (find_head f) as [[[cut n] g]|] eqn:Fh; [|discriminate].
    destruct (starts n (p_name p)) eqn:S; [|discriminate].
    destruct (read_cells cut (p_int p) (p_cells p) g) as [[es g']|] eqn:R; [|discriminate].
    destruct (read_params ps g') as [ess'|] eqn:R'; [|discriminate]. injection H as <-.
    destruct (IH _ _ R') as [A B]. destruct (read_cells_heads _ _ _ _ _ _ R) as [C D].
    split; [constructor; assumption|].
    intros [|i] q E; rewrite (find_head_heads _ _ _ _ Fh), C; cbn in E |- *.
    + injection E as <-. exists cut, n. split; [reflexivity|exact (starts_prefix _ _ S)].
    + exact (B i q E).
Qed.

(** ** Witnesses *)
(** 1.0 and 2.0; 1e-7, 2e-7, 3e-7 as bit patterns *)
Definition one := 0x3FF0000000000000. Definition two := 0x4000000000000000.
Definition e7 := 0x3E7AD7F29ABCAF48. Definition e7_2 := 0x3E8AD7F29ABCAF48. Definition e7_3 := 0x3E9421F5F40D8376.
Theorem integers_lost : exists ps xi k c, nth_error (entries ps) k = Some (true, c) /\ pattern c /\ int_view c = 5 /\ xi k = 0 /\
  forall pr prf rd nd pmin pmax, exists v,
    nth_error (datas (endpot pr prf rd nd true xi pmin pmax ps)) k = Some (pr 0, v).
Proof.
  exists [Param (txt "n") false true [5]; Param (txt "sigma") false false [one]], (fun k => match k with 1%nat => two | _ => 0 end), 0%nat, 5.
  split; [reflexivity|]. split; [unfold pattern; lia|]. split; [reflexivity|]. split; [reflexivity|].
  intros. apply endpot_integers with (c := 5); [reflexivity|unfold pattern; lia|reflexivity].
Qed.
Theorem values_lost : exists ps xi c, entries ps = [(false, c)] /\
  SFltb (dbl_view c) (dbl_view (xi 0%nat)) = true /\
  forall pr prf rd nd pmin pmax,
    datas (endpot pr prf rd nd false xi pmin pmax ps) = [(prf (dbl_view c), [rd (dbl_view c); rd (pmin 0%nat); rd (pmax 0%nat)])].
Proof.
  exists [Param (txt "sigma") false false [one]], (fun _ => two), one.
  split; [reflexivity|]. split; [vm_compute; reflexivity|]. intros. reflexivity.
Qed.
Theorem nine_refused : exists n, let ps := [Param (txt "n") false true [n]] in
  int_view n = n /\ forall prf rd nd model, same_model ps model ->
  read_params model (template decimal prf rd nd ps) = None /\
  forall pmin pmax, read_params model (write_pot_table5 decimal prf rd nd pmin pmax ps) = None.
Proof.
  exists 9. intros ps. split; [reflexivity|]. intros prf rd nd model M.
  inversion M as [|p q l model' [Mn [Mi Ml]] M']; subst. inversion M'; subst.
  destruct q as [qn qc qi qs]. cbn in Mn, Mi, Ml. subst qn qi. destruct qs as [|c [|c' qs]]; try discriminate.
  split; [reflexivity|intros; reflexivity].
Qed.
Theorem small_fixed : exists v lo hi, SFltb (dbl_view lo) (dbl_view v) = true /\ SFltb (dbl_view v) (dbl_view hi) = true /\
  forall pr prf rd nd, prints_numbers prf -> (forall c, In c [v; lo; hi] -> rd (dbl_view c) = S754_zero false) ->
  let ps := [Param (txt "sigma") false false [v]] in
  read_params ps (write_pot_table5 pr prf rd nd (fun _ => dbl_view lo) (fun _ => dbl_view hi) ps) =
    Some [[EDbl (S754_zero false) (S754_zero false) (S754_zero false) true]].
Proof.
  exists e7_2, e7, e7_3. split; [vm_compute; reflexivity|]. split; [vm_compute; reflexivity|].
  intros pr prf rd nd Hp Hr ps. destruct (Hp (dbl_view e7_2)) as [P1 P2].
  unfold ps, write_pot_table5. cbn [write_params write_cells p_cut p_int p_cells p_name app List.length].
  rewrite (Hr e7_2), (Hr e7), (Hr e7_3) by (cbn; tauto).
  cbn [read_params]. unfold read_param. cbn [find_head p_name p_cut p_int p_cells]. rewrite starts_refl.
  cbn [read_cells]. rewrite (read_dbl _ _ _ _ _ P1 P2). reflexivity.
Qed.
Theorem other_name : exists ps f ess, read_params ps f = Some ess /\ heads f = [(false, txt "sig")] /\
  map p_name ps = [txt "sigma"].
Proof.
  exists [Param (txt "sigma") false false [one]], [Head false (txt "sig"); Data (txt "1.0") [dbl_view one; dbl_view one; dbl_view two]].
  eexists. split; [vm_compute; reflexivity|]. split; reflexivity.
Qed.
