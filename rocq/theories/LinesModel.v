(** src/utils.c:110-149 fgets_potfit: reading a line with DOS line ends. *)
From Coq Require Import ZArith List Bool Ascii.
From Verif Require Import ParamsModel.
Import ListNotations.
Local Open Scope nat_scope.

Definition CR : ascii := ascii_of_nat 13.
Definition LF : ascii := ascii_of_nat 10.

(** 116-125: search for CR LF in the buffer *)
Fixpoint has_crlf (s : text) : bool :=
  match s with
  | a :: ((b :: _) as s') => (if ascii_dec a CR then if ascii_dec b LF then true else false else false) || has_crlf s'
  | _ => false
  end.

(** 134-139: copy without CR *)
Definition strip_cr (s : text) : text := filter (fun c => if ascii_dec c CR then false else true) s.

(** [line]: C string delivered by fgets (no NUL inside).  144: memcpy of the [pos] copied
    characters without the terminating NUL, so the old rest of the buffer, which ends with
    the old NUL, stays behind it. *)
Definition fgets_potfit (line : text) : text :=
  if has_crlf line
  then strip_cr line ++ skipn (length (strip_cr line)) line
  else line.
