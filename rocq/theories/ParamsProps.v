(** C05, C06, C08: reading the parameter file. *)
From Coq Require Import ZArith List Bool Ascii String QArith Lia.
From Verif Require Import ParamsModel ParamsProof.
Import ListNotations.
Open Scope Z_scope.

(** ** C05 *)
(** Whatever the text, an accepted integer lies in the interval. *)
Theorem C05_int_in_range : forall str lo hi v, get_param_int str lo hi = GOk v -> lo <= v <= hi.
Proof. exact get_int_range. Qed.
Print Assumptions C05_int_in_range.

(** [written s z]: [s] is an optional sign and decimal digits with positional value [z].
    For numerals that fit into an int the value stored is exactly the one written, and
    it is rejected exactly if it is outside the interval. *)
Theorem C05_int_exact : forall s z lo hi, written s z -> - 2^31 <= z < 2^31 ->
  get_param_int (Some s) lo hi = (if (lo <=? z) && (z <=? hi) then GOk z else GError).
Proof. exact get_int_written. Qed.
Print Assumptions C05_int_exact.

Example C05_int_ex : written (txt "-42") (-42) /\
  get_param_int (Some (txt "-42")) INT_MIN INT_MAX = GOk (-42) /\
  get_param_int (Some (txt "-42")) 0 1 = GError.
Proof.
  split; [|split; reflexivity].
  exists ["-"%char], true, [4; 2]. split; [constructor|]. split; [discriminate|].
  split; [intros d H; cbn in H; lia|]. split; reflexivity.
Qed.

(** Numerals outside the int range can be accepted with another value. *)
Theorem C05_int_wrap_refuted :
  exists s z v, written s z /\ get_param_int (Some s) 1 INT_MAX = GOk v /\ v <> z.
Proof. exact get_int_wraps. Qed.
Print Assumptions C05_int_wrap_refuted.

(** Texts that are no numbers can be accepted. *)
Theorem C05_int_garbage_refuted :
  exists s v, (forall z, ~ written s z) /\ get_param_int (Some s) 1 INT_MAX = GOk v.
Proof. exact get_int_garbage. Qed.
Print Assumptions C05_int_garbage_refuted.

(** Accepted reals are inside the interval unless they are not-a-number. *)
Theorem C05_double_in_range : forall str lo hi v, get_param_double str lo hi = GOk v ->
  v = DNaN \/ exists d, v = DFin d /\ (dec_Q lo <= dec_Q d)%Q /\ (dec_Q d <= dec_Q hi)%Q.
Proof. exact get_double_range. Qed.
Print Assumptions C05_double_in_range.

(** Decimal texts (sign, digits, fraction, exponent) are read exactly (before rounding to
    double) and rejected exactly if outside the interval. *)
Theorem C05_double_exact : forall s q lo hi, written_dec s q ->
  (exists d, get_param_double (Some s) lo hi = GOk (DFin d) /\ (dec_Q d == q)%Q /\
     (dec_Q lo <= q)%Q /\ (q <= dec_Q hi)%Q) \/
  (get_param_double (Some s) lo hi = GError /\ ((q < dec_Q lo)%Q \/ (dec_Q hi < q)%Q)).
Proof. exact get_double_written. Qed.
Print Assumptions C05_double_exact.

Example C05_double_ex : written_dec (txt "-12.5e-1") (-5 # 4).
Proof.
  exists ["-"%char], true, [1; 2], [5], ["."%char], ["-"%char], true, [1], ["e"%char].
  split; [constructor|]. split; [intros d H; cbn in H; lia|]. split; [intros d H; cbn in H; lia|].
  split; [discriminate|]. split; [intros d H; cbn in H; lia|]. split; [constructor|].
  split; [right; reflexivity|]. split; [right; split; [left; reflexivity|discriminate]|].
  split; [reflexivity|]. vm_compute. reflexivity.
Qed.

(** The interval test accepts not-a-number for every interval. *)
Theorem C05_double_nan_refuted : forall lo hi, get_param_double (Some (txt "nan")) lo hi = GOk DNaN.
Proof. exact get_double_nan. Qed.
Print Assumptions C05_double_nan_refuted.

(** ** C06 *)
(** [mention_arg name line arg]: the first word of [line] is [name] in any letter case and
    [arg] is the next word.  [gives]: there is a next word. *)
Theorem C06_last_assignment_wins : forall b name k l1 line l2 s st, In (name, k) (table b) ->
  mention_arg name line (Some s) -> (forall l, In l l2 -> ~ gives name l) ->
  read_parameter_file b (l1 ++ line :: l2) = Done st ->
  exists v, parse k s = GOk v /\ lookup name st = Some v.
Proof. exact last_wins. Qed.
Print Assumptions C06_last_assignment_wins.

(** Keywords that are never given keep their default. *)
Theorem C06_unmentioned_default : forall b name k lines st, In (name, k) (table b) ->
  (forall l, In l lines -> ~ gives name l) -> read_parameter_file b lines = Done st ->
  lookup name st = None.
Proof. exact never_given. Qed.
Print Assumptions C06_unmentioned_default.

(** Lines that do not mention a keyword do not change it. *)
Theorem C06_other_lines_irrelevant : forall b name line st st', ~ mentions name line ->
  read_line b st line = Done st' -> lookup name st' = lookup name st.
Proof. exact read_line_other. Qed.
Print Assumptions C06_other_lines_irrelevant.

(** Whether a file is accepted does not depend on the order of its lines. *)
Theorem C06_acceptance_linewise : forall b lines,
  (exists st, read_parameter_file b lines = Done st) <-> (forall l, In l lines -> line_ok b l).
Proof. exact (fun b lines => read_lines_done b lines []). Qed.
Print Assumptions C06_acceptance_linewise.

Definition plain_build := {| b_apot := false; b_pair := true; b_coulomb := false; b_dipole := false;
  b_evo := false; b_bindist := false; b_stress := true; b_uq := false; b_kim := false |}.

Example C06_ex : exists st,
  read_parameter_file plain_build
    [txt "ntypes 1"; txt "# ntypes 7"; txt "foo bar"; txt "NTypes	2 # two"; txt ""; txt "opt 1"] = Done st
  /\ lookup "ntypes" st = Some (VInt 2) /\ In ("ntypes"%string, KInt 1 INT_MAX) (table plain_build)
  /\ mention_arg "ntypes" (txt "NTypes	2 # two") (Some (txt "2")).
Proof.
  eexists. split; [vm_compute; reflexivity|]. split; [reflexivity|]. split; [left; reflexivity|].
  exists (txt "NTypes"), [txt "2"; txt "#"; txt "two"]. repeat split; vm_compute; reflexivity.
Qed.

(** ** C08 *)
(** Settings the build cannot run without ([mandatory]): ntypes, startpot, config, tempfile,
    and depending on the build stress_weight, bindist_file, acc_moves, acc_rescaling,
    kim_model_name.  If one is not given, the program stops. *)
Theorem C08_missing_setting_reported : forall b lines name,
  In name (mandatory b) -> ~ given name lines -> read_parameters b lines = None.
Proof. exact missing_reported. Qed.
Print Assumptions C08_missing_setting_reported.

Theorem C08_accepted_values_usable : forall b lines st, read_parameters b lines = Some st ->
  1 <= get_int "ntypes" 0 st /\ has_str "startpot" st = true /\ has_str "config" st = true /\
  has_str "tempfile" st = true /\
  dle0 (get_dbl "cell_scale" d1 st) = false /\ dlt (get_dbl "eng_weight" d0 st) (DFin d0) = false /\
  (b_stress b = true -> dlt (get_dbl "stress_weight" dm1 st) (DFin d0) = false) /\
  (has_str "imdpot" st = true -> 1 <= get_int "imdpotsteps" 500 st) /\
  (0 < get_int "write_lammps" 0 st -> 1 <= get_int "lammpspotsteps" 500 st) /\
  (b_apot b = true -> dlt (get_dbl "plotmin" d0 st) (DFin d0) = false) /\
  (b_apot b = true -> b_pair b = true -> get_int "enable_cp" 0 st = 0 \/ get_int "enable_cp" 0 st = 1) /\
  (b_evo b = true -> dlt (get_dbl "evo_threshold" {| man := 1; ex := -6 |} st) (DFin d0) = false) /\
  (b_bindist b = true -> has_str "bindist_file" st = true) /\
  (b_uq b = true -> get_int "acc_moves" 0 st <> 0 /\ deq0 (get_dbl "acc_rescaling" d0 st) = false) /\
  (b_kim b = true -> has_str "kim_model_name" st = true).
Proof. exact check_values. Qed.
Print Assumptions C08_accepted_values_usable.

Example C08_ex : In "stress_weight"%string (mandatory plain_build) /\
  read_parameters plain_build
    [txt "ntypes 1"; txt "startpot p"; txt "config c"; txt "tempfile t"; txt "eng_weight 1"] = None /\
  read_parameters plain_build
    [txt "ntypes 1"; txt "startpot p"; txt "config c"; txt "tempfile t"; txt "stress_weight 1"] <> None.
Proof. split; [vm_compute; auto 10|]. split; [vm_compute; reflexivity|]. vm_compute. discriminate. Qed.

(** A missing energy weight is not noticed (it is then 0). *)
Theorem C08_eng_weight_refuted : exists lines, read_parameters
    {| b_apot := false; b_pair := true; b_coulomb := false; b_dipole := false; b_evo := false;
       b_bindist := false; b_stress := false; b_uq := false; b_kim := false |} lines <> None /\
    ~ given "eng_weight" lines.
Proof. exact missing_eng_weight. Qed.
Print Assumptions C08_eng_weight_refuted.
