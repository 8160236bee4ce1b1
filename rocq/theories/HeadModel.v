(** Header of a potential file: read_pot_table, src/potential_input.c:67-130, with
    read_pot_line_F (169-265), _T (271-292), _I (298-327), _G (333-353) and _C (359-386);
    fgets_potfit is that of LinesModel.v, fgets and %d those of ReadModel.v.

    A file is its text.  int is not bounded.  The builds for KIM are left out.  [supported]:
    formats of the build (195-204), [npots]: number of functions needed (213-245), [name]:
    interaction_name, [apot]: analytic potentials.  A line with "#T" alone, without line end, at
    the end of the file lets the code look behind the string; the reading fails here, in C at
    the latest with the next line. *)
From Coq Require Import ZArith List Bool Ascii String Arith.
From Verif Require Import ParamsModel LinesModel ReadModel.
Import ListNotations.
Local Open Scope nat_scope.

Inductive herr := HEof | HCorrupt | HFormat | HSupport | HNumber | HType | HOrder | HItems | HNone.
Inductive hres (A : Type) := HOk (a : A) | HErr (e : herr) | HLoop.
Arguments HOk {A} _. Arguments HErr {A} _. Arguments HLoop {A}.
Definition hbind {A B} (x : hres A) (f : A -> hres B) : hres B :=
  match x with HOk a => f a | HErr e => HErr e | HLoop => HLoop end.

(** pstate and what the header sets in g_pot and g_config *)
Record hstate := HState {
  h_have : bool;                             (* have_format *)
  h_format : Z;
  h_invar : list Z; h_have_invar : bool; h_invar_pots : nat;
  h_grad : list Z; h_have_grad : bool;
  h_elements : option (list text) }.
Definition hstate0 : hstate := HState false 0 [] false 0 [] false None.

(** atoi *)
Definition c_atoi (t : text) : Z := match scan_d t with Some (z, _) => z | None => 0%Z end.

Section Head.
Variable supported : Z -> bool.
Variables (npots ntypes : nat) (name : text) (apot : bool).

(** 307-315, 341-348, 366-378: the first [k] words after the keyword; [None]: not enough items *)
Definition items (k : nat) (l : text) : option (list text) :=
  let w := words (skipn 2 l) in
  if Nat.ltb (List.length w) k then None else Some (firstn k w).

(** 169-265; Malloc clears the memory *)
Definition line_F (l : text) (st : hstate) : hres hstate :=
  match scan_d (skipn 2 l) with
  | None => HErr HFormat
  | Some (f, l1) =>
      match scan_d l1 with
      | None => HErr HFormat
      | Some (n, _) =>
          if negb (supported f) then HErr HSupport
          else if negb (n =? Z.of_nat npots)%Z then HErr HNumber
          else HOk (HState true f (repeat 0%Z npots) (h_have_invar st) (h_invar_pots st)
                           (repeat 0%Z npots) (h_have_grad st) (h_elements st))
      end
  end.
(** 271-292 *)
Definition line_T (l : text) (st : hstate) : hres hstate :=
  if Nat.ltb (List.length l) 3 then HErr HType
  else if text_eqb (cut_lf (skipn 3 l)) name then HOk st else HErr HType.
(** 298-327 *)
Definition line_I (l : text) (st : hstate) : hres hstate :=
  if h_have st then
    match items npots l with
    | None => HErr HItems
    | Some w =>
        let v := map c_atoi w in
        HOk (HState (h_have st) (h_format st) v (existsb (fun z => (z =? 1)%Z) v)
                    (if apot then List.length (filter (fun z => (z =? 1)%Z) v) else h_invar_pots st)
                    (h_grad st) (h_have_grad st) (h_elements st))
    end
  else HErr HOrder.
(** 333-353 *)
Definition line_G (l : text) (st : hstate) : hres hstate :=
  if apot then HOk st
  else if h_have st then
    match items npots l with
    | None => HErr HItems
    | Some w => HOk (HState (h_have st) (h_format st) (h_invar st) (h_have_invar st) (h_invar_pots st)
                            (map c_atoi w) true (h_elements st))
    end
  else HErr HOrder.
(** 359-386 *)
Definition line_C (l : text) (st : hstate) : hres hstate :=
  if h_have st then
    match items ntypes l with
    | None => HErr HItems
    | Some w => HOk (HState (h_have st) (h_format st) (h_invar st) (h_have_invar st) (h_invar_pots st)
                            (h_grad st) (h_have_grad st) (Some (map (firstn 14) w)))
    end
  else HErr HOrder.

(** 92-125: one line; [true]: end of the header *)
Definition head_line (l : text) (st : hstate) : hres (hstate * bool) :=
  let go r := hbind r (fun st => HOk (st, false)) in
  if ascii_dec (ch l 0) LF then HOk (st, false)
  else if ascii_dec (ch l 0) "#" then
    if ascii_dec (ch l 1) "C" then go (line_C l st)
    else if ascii_dec (ch l 1) "E" then HOk (st, true)
    else if ascii_dec (ch l 1) "G" then go (line_G l st)
    else if ascii_dec (ch l 1) "I" then go (line_I l st)
    else if ascii_dec (ch l 1) "F" then go (line_F l st)
    else if ascii_dec (ch l 1) "T" then go (line_T l st)
    else HOk (st, false)
  else HErr HCorrupt.
(** 90-127; result: the rest of the file *)
Fixpoint head (fuel : nat) (t : text) (st : hstate) : hres (hstate * text) :=
  match fuel with
  | O => HLoop
  | S fuel' =>
      match fgets t with
      | None => HErr HEof
      | Some (l, r, _) =>
          hbind (head_line l st) (fun p => let '(st, fin) := p in if fin then HOk (st, r) else head fuel' r st)
      end
  end.
(** 67-132 *)
Definition read_header (t : text) : hres (hstate * text) :=
  hbind (head (S (List.length t)) t hstate0) (fun p => if h_have (fst p) then HOk p else HErr HNone).
End Head.
