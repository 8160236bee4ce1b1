(** Cutoff of a KIM model: potential_input_f5.c:322-357 (read_cutoff_parameter).  The lines are
    those after the header, without the newline, shorter than 254 characters and without NUL;
    the last one ends with a newline.  The value of [name] is None before it is set. *)
From Coq Require Import List Bool Ascii String.
Import ListNotations.
Local Open Scope string_scope.

(** isspace, as used by %s of sscanf *)
Definition space (c : ascii) : bool :=
  match nat_of_ascii c with 9 | 10 | 11 | 12 | 13 | 32 => true | _ => false end.
Fixpoint skip (s : string) : string :=
  match s with String c r => if space c then skip r else s | EmptyString => "" end.
Fixpoint word (s : string) : string :=
  match s with String c r => if space c then "" else String c (word r) | EmptyString => "" end.
Fixpoint after (s : string) : string :=
  match s with String c r => if space c then s else after r | EmptyString => "" end.
(** sscanf with "%s" and with "%*s %s" *)
Definition first (s : string) : option string :=
  match skip s with "" => None | t => Some (word t) end.
Definition second (s : string) : option string := first (after (skip s)).

Inductive outcome := Marked (i : nat) | NoCutoff | Fail | Undefined.

(** lines 349-354: the first parameter of that name *)
Fixpoint find (names : list string) (n : string) (i : nat) : outcome :=
  match names with
  | [] => Fail      (* 356 *)
  | x :: r => if String.eqb x n then Marked i else find r n (S i)
  end.
Definition keyword := "KIM_CUTOFF".
(** lines 338-356 *)
Definition finish (names : list string) (buffer : string) : outcome :=
  if String.prefix keyword buffer then
    match second buffer with None => Fail | Some n => find names n 0 end
  else NoCutoff.
(** lines 328-334; at the end of the file the buffer stays as it is *)
Fixpoint loop (names : list string) (buffer : string) (name : option string) (lines : list string) : outcome :=
  match lines with
  | [] => match name with None => Undefined | Some _ => finish names buffer end
  | l :: r =>
    let go n := match n with
      | None => Undefined      (* 334: name has not been set *)
      | Some w => if String.prefix keyword w then finish names l else loop names l n r
      end in
    match l with
    | "" => go name      (* 331: strlen(buffer) is 1 *)
    | _ => match first l with None => Fail | Some w => go (Some w) end
    end
  end.
Definition read_cutoff_parameter (names lines : list string) : outcome := loop names "" None lines.
