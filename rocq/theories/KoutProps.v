(** C154-C156: potential files of KIM models. *)
From Coq Require Import ZArith List Bool Ascii String Floats.SpecFloat.
From Verif Require Import ParamsModel ParamsProof KimModel KimProof KoutModel KoutSpec KoutProof KoutProof2.
Import ListNotations.
Local Open Scope Z_scope.

(** C154.  After a fit the file names all parameters of the model in its order and has one
    line for every value; the lines of doubles hold the value of the optimiser and the
    limits. *)
Theorem C154_doubles : forall pr prf rd nd xi pmin pmax ps,
  let f := endpot pr prf rd nd true xi pmin pmax ps in
  heads f = map (fun p => (p_cut p, p_name p)) ps /\
  List.length (datas f) = List.length (entries ps) /\
  (forall k c, nth_error (entries ps) k = Some (false, c) ->
     exists v, same v (dbl_view (xi k)) /\ nth_error (datas f) k = Some (prf v, [rd v; rd (pmin k); rd (pmax k)])).
Proof. exact endpot_file. Qed.
Print Assumptions C154_doubles.
(** Integers: the table of the optimiser holds 0.0 for them (they are stored in the model
    and "forgotten"), and the file says 0, whatever their value. *)
Theorem C154_integers : forall pr prf rd nd xi pmin pmax ps k c,
  nth_error (entries ps) k = Some (true, c) -> pattern c -> xi k = 0 ->
  exists v, nth_error (datas (endpot pr prf rd nd true xi pmin pmax ps)) k = Some (pr 0, v).
Proof. exact endpot_integers. Qed.
Print Assumptions C154_integers.
Theorem C154_integers_refuted : exists ps xi k c, nth_error (entries ps) k = Some (true, c) /\ pattern c /\ int_view c = 5 /\ xi k = 0 /\
  forall pr prf rd nd pmin pmax, exists v,
    nth_error (datas (endpot pr prf rd nd true xi pmin pmax ps)) k = Some (pr 0, v).
Proof. exact integers_lost. Qed.
Print Assumptions C154_integers_refuted.
(** Without a fit the file holds the values of the KIM model as it was loaded, not those
    read from the potential file and used for the errors. *)
Theorem C154_without_fit : forall pr prf rd nd xi pmin pmax ps k c, nth_error (entries ps) k = Some (false, c) ->
  nth_error (datas (endpot pr prf rd nd false xi pmin pmax ps)) k =
    Some (prf (dbl_view c), [rd (dbl_view c); rd (pmin k); rd (pmax k)]).
Proof. exact endpot_unfitted. Qed.
Print Assumptions C154_without_fit.
Theorem C154_without_fit_refuted : exists ps xi c, entries ps = [(false, c)] /\
  SFltb (dbl_view c) (dbl_view (xi 0%nat)) = true /\
  forall pr prf rd nd pmin pmax,
    datas (endpot pr prf rd nd false xi pmin pmax ps) = [(prf (dbl_view c), [rd (dbl_view c); rd (pmin 0%nat); rd (pmax 0%nat)])].
Proof. exact values_lost. Qed.
Print Assumptions C154_without_fit_refuted.
Example C154_ex : let ps := [Param (txt "cut") true false [one]; Param (txt "n") false true [7]; Param (txt "eps") false false [one; two]] in
  let f := endpot decimal (fun _ => txt "x") (fun x => x) (fun _ => S754_nan) true
             (fun k => match k with 0%nat => one | 2%nat => two | 3%nat => one | _ => 0 end) (fun _ => dbl_view one) (fun _ => dbl_view two) ps in
  entries ps = [(false, one); (true, 7); (false, one); (false, two)] /\
  heads f = [(true, txt "cut"); (false, txt "n"); (false, txt "eps")] /\
  nth_error (datas f) 2 = Some (txt "x", [dbl_view two; dbl_view one; dbl_view two]) /\
  option_map fst (nth_error (datas f) 1) = Some (txt "0") /\ decimal (-120) = txt "-120".
Proof. vm_compute. repeat split. Qed.

(** C155.  A file written by potfit is read again by a model with the same parameters, if
    every integer starts with a digit other than 9 and every value lies within its limits:
    all values and limits come back as %f shows them. *)
Theorem C155_read_back : forall pr prf rd nd, prints_ints pr -> prints_numbers prf -> monotone rd ->
  forall pmin pmax ps model, same_model ps model -> all_fit pr pmin pmax 0 ps ->
  exists ess, read_params model (write_pot_table5 pr prf rd nd pmin pmax ps) = Some ess /\ all_read rd pmin pmax 0 ps ess.
Proof. exact read_back. Qed.
Print Assumptions C155_read_back.
(** The template is read again, and no parameter is to be optimised. *)
Theorem C155_template : forall pr prf rd nd, prints_ints pr -> prints_numbers prf -> monotone rd ->
  forall ps model, same_model ps model ->
  (forall p c, In p ps -> In c (p_cells p) ->
     if p_int p then plain_start (pr (int_view c)) else p_cut p = true \/ SFleb (dbl_view c) (dbl_view c) = true) ->
  exists ess, read_params model (template pr prf rd nd ps) = Some ess /\
    Forall2 (fun p es => Forall2 (fun c e => is_fixed e /\ reads_as rd (p_cut p) (p_int p) c (dbl_view c) (dbl_view c) e) (p_cells p) es) ps ess.
Proof. exact template_read. Qed.
Print Assumptions C155_template.
(** Files with an integer such as 9 are refused. *)
Theorem C155_integers_refuted : exists n, let ps := [Param (txt "n") false true [n]] in
  int_view n = n /\ forall prf rd nd model, same_model ps model ->
  read_params model (template decimal prf rd nd ps) = None /\
  forall pmin pmax, read_params model (write_pot_table5 decimal prf rd nd pmin pmax ps) = None.
Proof. exact nine_refused. Qed.
Print Assumptions C155_integers_refuted.
(** A free parameter with a value and limits below 5e-7 comes back fixed at 0. *)
Theorem C155_small_refuted : exists v lo hi, SFltb (dbl_view lo) (dbl_view v) = true /\ SFltb (dbl_view v) (dbl_view hi) = true /\
  forall pr prf rd nd, prints_numbers prf -> (forall c, In c [v; lo; hi] -> rd (dbl_view c) = S754_zero false) ->
  let ps := [Param (txt "sigma") false false [v]] in
  read_params ps (write_pot_table5 pr prf rd nd (fun _ => dbl_view lo) (fun _ => dbl_view hi) ps) =
    Some [[EDbl (S754_zero false) (S754_zero false) (S754_zero false) true]].
Proof. exact small_fixed. Qed.
Print Assumptions C155_small_refuted.
Theorem C155_printf : prints_ints decimal.
Proof. exact decimal_prints. Qed.
Print Assumptions C155_printf.
Example C155_ex : let ps := [Param (txt "cut") true false [one]; Param (txt "n") false true [80]; Param (txt "eps") false false [one]] in
  prints_numbers (fun _ => txt "1.5") /\ monotone (fun x => x) /\
  all_fit decimal (fun _ => dbl_view one) (fun _ => dbl_view two) 0 ps /\
  read_params ps (write_pot_table5 decimal (fun _ => txt "1.5") (fun x => x) (fun _ => S754_nan) (fun _ => dbl_view one) (fun _ => dbl_view two) ps) =
    Some [[EDbl (dbl_view one) (dbl_view one) (dbl_view one) true]; [EInt 80]; [EDbl (dbl_view one) (dbl_view one) (dbl_view two) false]].
Proof.
  intros ps. split; [intros x; split; reflexivity|]. split; [intros a b H; exact H|]. split; [|vm_compute; reflexivity].
  constructor; [|constructor; [|constructor; [|constructor]]].
  - intros [|[|j]] c H; try discriminate. left; reflexivity.
  - intros [|[|j]] c H; try discriminate. injection H as <-. exists "8"%char, ["0"%char]. split; [reflexivity|split; discriminate].
  - intros [|[|j]] c H; try discriminate. injection H as <-. right. split; [|split]; vm_compute; reflexivity.
Qed.

(** C156.  A file is accepted only if its first sections are, in the order of the parameters,
    called by prefixes of their names; every value then has its line. *)
Theorem C156_sections : forall ps f ess, read_params ps f = Some ess ->
  Forall2 (fun p es => List.length es = List.length (p_cells p)) ps ess /\
  forall i p, nth_error ps i = Some p ->
    exists cut n, nth_error (heads f) i = Some (cut, n) /\ is_prefix n (p_name p).
Proof. exact sections. Qed.
Print Assumptions C156_sections.
(** A proper prefix is another name, and it is accepted. *)
Theorem C156_names_refuted : exists ps f ess, read_params ps f = Some ess /\ heads f = [(false, txt "sig")] /\
  map p_name ps = [txt "sigma"].
Proof. exact other_name. Qed.
Print Assumptions C156_names_refuted.
Example C156_ex : read_params [Param (txt "a") false true [3]; Param (txt "b") false false [one]]
    [Head false (txt "a"); Data (txt "4") []; Blank; Head false (txt "b"); Data (txt "default") [dbl_view one; dbl_view two]] =
  Some [[EInt 4]; [EDbl (dbl_view one) (dbl_view one) (dbl_view two) false]] /\
  read_params [Param (txt "a") false true [3]] [Head false (txt "b"); Data (txt "4") []] = None.
Proof. vm_compute. split; reflexivity. Qed.
