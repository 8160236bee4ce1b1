(** Parameter file: words of a line, numbers, keywords, completeness check.
    Models src/params.c.  Lines are C strings (no NUL bytes); a file is the list of the
    lines delivered by fgets_potfit (lines shorter than the 1024 byte buffer). *)
From Coq Require Import ZArith List Bool Ascii String.
Import ListNotations.
Open Scope Z_scope.

Definition text := list ascii.
Definition txt (s : string) : text := list_ascii_of_string s.
Definition code (c : ascii) : Z := Z.of_nat (nat_of_ascii c).

(** * strtok(.., " \t\r\n"), src/params.c:95 and 341 *)
Definition is_delim (c : ascii) : bool :=
  (code c =? 32) || (code c =? 9) || (code c =? 13) || (code c =? 10).

(** [words_acc acc s]: words of [s], [acc] is the word being read (reversed). *)
Fixpoint words_acc (acc : text) (s : text) : list text :=
  match s with
  | [] => match acc with [] => [] | _ => [rev acc] end
  | c :: s' =>
      if is_delim c
      then match acc with [] => words_acc [] s' | _ => rev acc :: words_acc [] s' end
      else words_acc (c :: acc) s'
  end.
Definition words (s : text) : list text := words_acc [] s.

(** strcasecmp in the C locale: compare after mapping A-Z to a-z. *)
Definition lower (c : ascii) : ascii :=
  if (65 <=? code c) && (code c <=? 90) then ascii_of_nat (nat_of_ascii c + 32) else c.
Definition text_eqb (a b : text) : bool :=
  if list_eq_dec ascii_dec a b then true else false.
Definition strcaseeq (a b : text) : bool := text_eqb (map lower a) (map lower b).

(** * strtol(str, &endptr, 10) *)
Definition is_space (c : ascii) : bool := (code c =? 32) || ((9 <=? code c) && (code c <=? 13)).
Definition is_digit (c : ascii) : bool := (48 <=? code c) && (code c <=? 57).

Fixpoint skip_space (s : text) : text :=
  match s with c :: s' => if is_space c then skip_space s' else s | [] => [] end.

(** optional sign: [true] for minus *)
Definition take_sign (s : text) : bool * text :=
  match s with
  | c :: s' => if code c =? 45 then (true, s') else if code c =? 43 then (false, s') else (false, s)
  | [] => (false, [])
  end.

(** longest run of digits and the rest *)
Fixpoint take_digits (s : text) : list Z * text :=
  match s with
  | c :: s' => if is_digit c
               then let (ds, r) := take_digits s' in ((code c - 48) :: ds, r)
               else ([], s)
  | [] => ([], [])
  end.

Definition horner (ds : list Z) : Z := fold_left (fun a d => 10 * a + d) ds 0.

Definition LONG_MAX : Z := 2^63 - 1.
Definition LONG_MIN : Z := - 2^63.
Definition INT_MAX : Z := 2^31 - 1.
Definition INT_MIN : Z := - 2^31.

(** [None]: no conversion (endptr == str, returns 0); otherwise the saturated value. *)
Definition strtol (s : text) : option Z :=
  let (neg, s1) := take_sign (skip_space s) in
  let (ds, _) := take_digits s1 in
  match ds with
  | [] => None
  | _ => let v := if (neg : bool) then - horner ds else horner ds in
         Some (Z.max LONG_MIN (Z.min LONG_MAX v))
  end.

(** conversion of long to a 32 bit int (gcc: modulo 2^32) *)
Definition to_int (z : Z) : Z := (z + 2^31) mod 2^32 - 2^31.

Inductive getres (A : Type) := GOk (a : A) | GError.
Arguments GOk {A} _.
Arguments GError {A}.

(** src/params.c:338-359 get_param_int; [str] is the result of strtok. *)
Definition get_param_int (str : option text) (min max : Z) : getres Z :=
  match str with
  | None => GError
  | Some s =>
      match strtol s with
      | None => GError
      | Some l => let v := to_int l in
                  if (v <? min) || (v >? max) then GError else GOk v
      end
  end.

(** * strtod *)
(** Finite numbers are exact decimals man * 10^ex (rounding to double is not modelled);
    infinity and not-a-number are separate. *)
Record dec := { man : Z; ex : Z }.
Inductive dbl := DFin (d : dec) | DInf (neg : bool) | DNaN.

(** "inf", "infinity" and "nan" in any letter case (hexadecimal floats are not modelled) *)
Fixpoint prefix_ci (p s : text) : bool :=
  match p, s with
  | [], _ => true
  | a :: p', b :: s' => if ascii_dec (lower a) (lower b) then prefix_ci p' s' else false
  | _, _ => false
  end.

Definition take_exponent (s : text) : Z :=
  match s with
  | c :: s' =>
      if (code c =? 101) || (code c =? 69)
      then let (neg, s2) := take_sign s' in
           let (ds, _) := take_digits s2 in
           if (neg : bool) then - horner ds else horner ds
      else 0
  | [] => 0
  end.

Definition strtod (s : text) : option dbl :=
  let (neg, s1) := take_sign (skip_space s) in
  if prefix_ci (txt "inf") s1 then Some (DInf neg)
  else if prefix_ci (txt "nan") s1 then Some DNaN
  else
    let (ip, r1) := take_digits s1 in
    let (fp, r2) := match r1 with
                    | c :: r => if code c =? 46 then take_digits r else ([], r1)
                    | [] => ([], r1)
                    end in
    match ip ++ fp with
    | [] => None
    | ds => let m := horner ds in
            Some (DFin {| man := if (neg : bool) then - m else m;
                          ex := take_exponent r2 - Z.of_nat (List.length fp) |})
    end.

Definition dec_cmp (a b : dec) : comparison :=
  let e := Z.min (ex a) (ex b) in
  (man a * 10 ^ (ex a - e)) ?= (man b * 10 ^ (ex b - e)).

(** C comparisons: false if an operand is NaN *)
Definition dlt (a b : dbl) : bool :=
  match a, b with
  | DNaN, _ | _, DNaN => false
  | DInf true, DInf true => false
  | DInf true, _ => true
  | DInf false, _ => false
  | DFin _, DInf n => negb n
  | DFin x, DFin y => match dec_cmp x y with Lt => true | _ => false end
  end.

(** src/params.c:365-386 get_param_double *)
Definition get_param_double (str : option text) (min max : dec) : getres dbl :=
  match str with
  | None => GError
  | Some s =>
      match strtod s with
      | None => GError
      | Some v => if dlt v (DFin min) || dlt (DFin max) v then GError else GOk v
      end
  end.

(** limits of <float.h>, to 17 digits *)
Definition DBL_MAX : dec := {| man := 17976931348623157; ex := 292 |}.
Definition DBL_MIN : dec := {| man := 22250738585072014; ex := -324 |}.
Definition d0 : dec := {| man := 0; ex := 0 |}.
Definition d1 : dec := {| man := 1; ex := 0 |}.
Definition dm1 : dec := {| man := -1; ex := 0 |}.

(** * keywords, src/params.c:95-331 *)
Record build := { b_apot : bool; b_pair : bool; b_coulomb : bool; b_dipole : bool;
                  b_evo : bool; b_bindist : bool; b_stress : bool; b_uq : bool; b_kim : bool }.

Inductive kind := KInt (min max : Z) | KDbl (min max : dec) | KStr.

Definition table_common : list (string * kind) :=
  [("ntypes", KInt 1 INT_MAX); ("startpot", KStr); ("endpot", KStr); ("output_prefix", KStr);
   ("imdpot", KStr); ("plotfile", KStr); ("imdpotsteps", KInt 1 INT_MAX);
   ("extend", KDbl DBL_MIN DBL_MAX); ("config", KStr); ("opt", KInt 0 1); ("flagfile", KStr);
   ("write_pair", KInt 0 1); ("plotpointfile", KStr); ("tempfile", KStr);
   ("seed", KInt INT_MIN INT_MAX); ("eng_weight", KDbl d0 DBL_MAX); ("d_eps", KDbl d0 DBL_MAX);
   ("write_lammps", KInt 0 1); ("lammpspotsteps", KInt 1 INT_MAX);
   ("cell_scale", KDbl d0 DBL_MAX)]%string.

Definition table_uq : list (string * kind) :=
  [("ensemblefile", KStr); ("acc_rescaling", KDbl DBL_MIN DBL_MAX); ("acc_moves", KInt 1 INT_MAX);
   ("uq_temp", KDbl DBL_MIN d1); ("use_svd", KInt 0 1); ("hess_pert", KDbl dm1 d1);
   ("eig_max", KDbl DBL_MIN DBL_MAX); ("write_ensemble", KInt 0 INT_MAX)]%string.

(** kim_model_params (315-326) is kept as the text given; its translation to an enum value
    and the output names (327-332) do not influence the checks modelled here. *)
Definition table_kim : list (string * kind) :=
  [("kim_model_name", KStr); ("kim_model_params", KStr);
   ("kim_model_output_directory", KStr); ("kim_model_output_name", KStr)]%string.

Definition table (b : build) : list (string * kind) :=
  table_common
  ++ (if b_apot b
      then [("apot_punish", KDbl d0 DBL_MAX); ("plotmin", KDbl DBL_MIN DBL_MAX)]%string
           ++ (if b_pair b then [("enable_cp", KInt INT_MIN INT_MAX)]%string else [])
      else [("maxchfile", KStr)]%string)
  ++ (if b_coulomb b then [("dp_cut", KDbl DBL_MIN DBL_MAX)]%string else [])
  ++ (if b_dipole b then [("dp_tol", KDbl DBL_MIN DBL_MAX); ("dp_mix", KDbl DBL_MIN DBL_MAX)]%string else [])
  ++ (if b_evo b then [("evo_threshold", KDbl d0 DBL_MAX)]%string else [("anneal_temp", KStr)]%string)
  ++ (if b_bindist b then [("bindist_file", KStr)]%string else [])
  ++ (if b_stress b then [("stress_weight", KDbl d0 DBL_MAX)]%string else [])
  ++ (if b_uq b then table_uq else [])
  ++ (if b_kim b then table_kim else []).

Inductive value := VInt (z : Z) | VDbl (d : dbl) | VStr (s : text).

(** Settings: assignments made so far, newest first.  A setting never assigned keeps the
    value given by initialize_global_variables (src/memory.c:135-180). *)
Definition settings := list (string * value).
Definition lookup (k : string) (st : settings) : option value :=
  option_map snd (find (fun kv => String.eqb k (fst kv)) st).

Inductive outcome := Done (st : settings) | Stop.

Definition find_kw (t : list (string * kind)) (tok : text) : option (string * kind) :=
  find (fun kv => strcaseeq tok (txt (fst kv))) t.

Definition assign (name : string) (k : kind) (arg : option text) (st : settings) : outcome :=
  match k with
  | KInt lo hi => match get_param_int arg lo hi with GOk v => Done ((name, VInt v) :: st) | GError => Stop end
  | KDbl lo hi => match get_param_double arg lo hi with GOk v => Done ((name, VDbl v) :: st) | GError => Stop end
  | KStr => match arg with
            | Some s => Done ((name, VStr s) :: st)
            | None => Done st        (* src/params.c:397-399: error(0, ...) does not stop *)
            end
  end.

Definition read_line (b : build) (st : settings) (line : text) : outcome :=
  match words line with
  | [] => Done st
  | tok :: rest =>
      match tok with
      | c :: _ =>
          if code c =? 35 then Done st
          else match find_kw (table b) tok with
               | None => Done st                  (* unknown tag: warning *)
               | Some (name, k) => assign name k (hd_error rest) st
               end
      | [] => Done st
      end
  end.

Fixpoint read_lines (b : build) (st : settings) (lines : list text) : outcome :=
  match lines with
  | [] => Done st
  | l :: ls => match read_line b st l with Done st' => read_lines b st' ls | Stop => Stop end
  end.
Definition read_parameter_file (b : build) (lines : list text) : outcome := read_lines b [] lines.

(** * check_parameters_complete, src/params.c:411-536 *)
Definition get_int (k : string) (dflt : Z) (st : settings) : Z :=
  match lookup k st with Some (VInt z) => z | _ => dflt end.
Definition get_dbl (k : string) (dflt : dec) (st : settings) : dbl :=
  match lookup k st with Some (VDbl d) => d | _ => DFin dflt end.
Definition has_str (k : string) (st : settings) : bool :=
  match lookup k st with Some (VStr _) => true | _ => false end.
Definition dle0 (d : dbl) : bool :=   (* d <= 0 in C *)
  match d with DNaN => false | DInf n => n | DFin x => negb (match dec_cmp d0 x with Lt => true | _ => false end) end.
Definition deq0 (d : dbl) : bool :=   (* d == 0 in C *)
  match d with DFin x => man x =? 0 | _ => false end.

(** [true]: the check passes.  Defaults that the check itself fills in (endpot,
    anneal_temp, ensemblefile, uq_temp, hess_pert) never make it fail. *)
Definition check_complete (b : build) (st : settings) : bool :=
  negb (get_int "ntypes" 0 st <? 1)
  && has_str "startpot" st
  && has_str "config" st
  && has_str "tempfile" st
  && negb (dlt (get_dbl "eng_weight" d0 st) (DFin d0))
  && (if b_stress b then negb (dlt (get_dbl "stress_weight" dm1 st) (DFin d0)) else true)
  && negb (has_str "imdpot" st && (get_int "imdpotsteps" 500 st <? 1))
  && negb ((0 <? get_int "write_lammps" 0 st) && (get_int "lammpspotsteps" 500 st <? 1))
  && (if b_apot b then
        negb (dlt (get_dbl "plotmin" d0 st) (DFin d0))
        && (if b_pair b then (get_int "enable_cp" 0 st =? 0) || (get_int "enable_cp" 0 st =? 1) else true)
      else true)
  && (if b_evo b then negb (dlt (get_dbl "evo_threshold" {| man := 1; ex := -6 |} st) (DFin d0)) else true)
  && (if b_bindist b then has_str "bindist_file" st else true)
  && negb (dle0 (get_dbl "cell_scale" d1 st))
  && (if b_uq b then negb (get_int "acc_moves" 0 st =? 0) && negb (deq0 (get_dbl "acc_rescaling" d0 st)) else true)
  && (if b_kim b then has_str "kim_model_name" st else true).

(** src/params.c:52-66 read_parameters: [Some st] if the program goes on. *)
Definition read_parameters (b : build) (lines : list text) : option settings :=
  match read_parameter_file b lines with
  | Done st => if check_complete b st then Some st else None
  | Stop => None
  end.
