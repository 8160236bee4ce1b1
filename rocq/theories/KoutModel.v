(** Potential files of KIM models: update_kim_table (potential_input.c), write_pot_table5
    (potential_output.c), the template of kim_model_params and the reader
    (potential_input_f5.c).

    A value_t (types.h:556-559) is a union of int and double: a pattern of 64 bits whose low
    half is the int (little endian).  Doubles are binary64 numbers (spec_float).  Lines of
    the file are given by what the scanning functions find in them; printf and scanf are
    arguments.  Not modelled: the header up to #E, the global section (which accepts no name
    starting with a letter other than A), lines of more than 254 characters, failing calls of
    the KIM library. *)
From Coq Require Import ZArith List Bool Ascii String Floats.SpecFloat.
From Verif Require Import ParamsModel KimModel.
Import ListNotations.
Local Open Scope Z_scope.

Definition cell := Z.
(** values[j].i *)
Definition int_view (c : cell) : Z :=
  let l := c mod 2^32 in if l <? 2^31 then l else l - 2^32.
(** values[j].d *)
Definition dbl_view (c : cell) : spec_float :=
  let s := Z.odd (c / 2^63) in
  let e := (c / 2^52) mod 2^11 in
  let m := c mod 2^52 in
  if e =? 0 then
    match m with Zpos p => S754_finite s p (-1074) | _ => S754_zero s end
  else if e =? 2047 then (if m =? 0 then S754_infinity s else S754_nan)
  else match m + 2^52 with Zpos p => S754_finite s p (e - 1075) | _ => S754_nan end.

(** kim_parameter_t, types.h:561-574; the extent is the number of cells *)
Record param := Param { p_name : text; p_cut : bool; p_int : bool; p_cells : list cell }.

(** ** update_kim_table, potential_input.c:700-713; [pos] counts all entries *)
Fixpoint update_cells (xi : nat -> cell) (pos : nat) (cs : list cell) : list cell :=
  match cs with
  | [] => []
  | c :: cs =>
      (if SFeqb (dbl_view (xi pos)) (dbl_view c) then c else xi pos) :: update_cells xi (S pos) cs
  end.
Fixpoint update_params (xi : nat -> cell) (pos : nat) (ps : list param) : list param :=
  match ps with
  | [] => []
  | p :: ps =>
      Param (p_name p) (p_cut p) (p_int p) (update_cells xi pos (p_cells p))
        :: update_params xi (pos + List.length (p_cells p)) ps
  end.
Definition update_kim_table (xi : nat -> cell) (ps : list param) : list param := update_params xi 0 ps.

(** ** Lines of the file *)
(** [Head cut name]: "KIM_CUTOFF name" or any other "KIM_... name".  [Data t v]: any other
    line, its first word and the numbers found by %lf (after the word "default", if that is
    the first one). *)
Inductive line := Head (cut : bool) (name : text) | Data (t : text) (v : list spec_float) | Blank.

Section Files.
(** what %d prints, what %f prints, the double read from what %f printed, the double read
    from what %d printed *)
Variable pr : Z -> text.
Variable prf : spec_float -> text.
Variable rd : spec_float -> spec_float.
Variable nd : Z -> spec_float.

(** write_pot_table5, potential_output.c:506-525 *)
Fixpoint write_cells (int : bool) (pmin pmax : nat -> spec_float) (pos : nat) (cs : list cell) : list line :=
  match cs with
  | [] => []
  | c :: cs =>
      (if int then Data (pr (int_view c)) [nd (int_view c); nd (int_view c); nd (int_view c)]
       else Data (prf (dbl_view c)) [rd (dbl_view c); rd (pmin pos); rd (pmax pos)])
        :: write_cells int pmin pmax (S pos) cs
  end.
Fixpoint write_params (pmin pmax : nat -> spec_float) (pos : nat) (ps : list param) : list line :=
  match ps with
  | [] => []
  | p :: ps =>
      Head (p_cut p) (p_name p) :: write_cells (p_int p) pmin pmax pos (p_cells p)
        ++ (match ps with [] => [] | _ => [Blank] end)
        ++ write_params pmin pmax (pos + List.length (p_cells p)) ps
  end.
Definition write_pot_table5 (pmin pmax : nat -> spec_float) (ps : list param) : list line :=
  write_params pmin pmax 0 ps.
(** File at the end of a run, potfit.c:122-140.  [fitted]: powell_lsq came to its end
    (powell_lsq.c:377), otherwise nothing calls update_kim_table. *)
Definition endpot (fitted : bool) (xi : nat -> cell) (pmin pmax : nat -> spec_float) (ps : list param) : list line :=
  write_pot_table5 pmin pmax (if fitted then update_kim_table xi ps else ps).

(** Template, print_model_parameters_impl, potential_input_f5.c:151-163 *)
Definition template_cell (cut int : bool) (c : cell) : line :=
  if int then Data (pr (int_view c)) [nd (int_view c); nd (int_view c); nd (int_view c)]
  else if cut then Data (prf (dbl_view c)) [rd (dbl_view c)]
  else Data (prf (dbl_view c)) [rd (dbl_view c); rd (dbl_view c); rd (dbl_view c)].
Definition template (ps : list param) : list line :=
  flat_map (fun p => Head (p_cut p) (p_name p) :: map (template_cell (p_cut p) (p_int p)) (p_cells p) ++ [Blank]) ps.
End Files.

(** ** Reader *)
(** An entry: integers are passed to the model, doubles come with limits and invar_par *)
Inductive entry := EInt (n : Z) | EDbl (v lo hi : spec_float) (fixed : bool).

(** 514-531; NaN compares false *)
Definition limits (v mn mx : spec_float) : option entry :=
  let lo := if SFltb mx mn then mx else mn in
  let hi := if SFltb mx mn then mn else mx in
  let fixed := SFeqb lo hi in
  if (negb fixed && (SFltb v lo || SFltb hi v))%bool then None else Some (EDbl v lo hi fixed).
(** 455-536, one line; [None]: error(1); [c]: value of the model *)
Definition read_line (cut int : bool) (c : cell) (l : line) : option entry :=
  match l with
  | Data t v =>
      if int then option_map EInt (read_kim_int (int_view c) t)
      else if cut then match v with x :: _ => Some (EDbl x x x true) | [] => None end
      else if starts (txt "!") t then Some (EDbl (S754_zero false) (S754_zero false) (S754_zero false) false)
      else if starts (txt "default") t
      then match v with mn :: mx :: _ => limits (dbl_view c) mn mx | _ => None end
      else match v with x :: mn :: mx :: _ => limits x mn mx | _ => None end
  | Head _ _ | Blank => None   (* no number and no digit *)
  end.
Fixpoint read_cells (cut int : bool) (cs : list cell) (f : list line) : option (list entry * list line) :=
  match cs with
  | [] => Some ([], f)
  | c :: cs =>
      match f with
      | [] => None
      | l :: f =>
          match read_line cut int c l with
          | None => None
          | Some e =>
              match read_cells cut int cs f with
              | Some (es, f) => Some (e :: es, f)
              | None => None
              end
          end
      end
  end.
(** 432-441: skip to the next "KIM_" *)
Fixpoint find_head (f : list line) : option (bool * text * list line) :=
  match f with
  | [] => None
  | Head cut name :: f => Some (cut, name, f)
  | _ :: f => find_head f
  end.
(** read_single_kim_parameter, 422-536; 450: strncmp over the length of the name in the file *)
Definition read_param (p : param) (f : list line) : option (list entry * list line) :=
  match find_head f with
  | None => None
  | Some (cut, name, f) =>
      if starts name (p_name p) then read_cells cut (p_int p) (p_cells p) f else None
  end.
(** read_kim_parameters_file, 538-546 *)
Fixpoint read_params (ps : list param) (f : list line) : option (list (list entry)) :=
  match ps with
  | [] => Some []
  | p :: ps =>
      match read_param p f with
      | None => None
      | Some (es, f) => option_map (cons es) (read_params ps f)
      end
  end.
