(** Meaning of the header of a potential file, line by line. *)
From Coq Require Import ZArith List Bool Ascii String.
From Verif Require Import ParamsModel LinesModel ReadModel HeadModel.
Import ListNotations.
Local Open Scope nat_scope.

(** an ordinary line, without its line end *)
Definition proper (s : text) : Prop := ~ In LF s /\ ~ In CR s /\ List.length s < 1023.
Definition text_of (L : list text) : text := flat_map (fun s => s ++ [LF]) L.
(** the line begins with # and the letter c *)
Definition keyed (c : ascii) (s : text) : Prop := exists r, s = "#"%char :: c :: r.
Definition is_keyed (c : ascii) (s : text) : bool :=
  match s with
  | a :: b :: _ => (if ascii_dec a "#" then true else false) && (if ascii_dec b c then true else false)
  | _ => false
  end.

Section S.
Variable supported : Z -> bool.
Variables (npots ntypes : nat) (name : text) (apot : bool).
Definition has_format (p : list text) : Prop := exists s, In s p /\ keyed "F" s.
Definition enough (k : nat) (s : text) : Prop := k <= List.length (words (skipn 2 s)).
(** the line s is allowed after the lines p *)
Definition line_ok (p : list text) (s : text) : Prop :=
  (s = [] \/ exists r, s = "#"%char :: r) /\
  (keyed "F" s -> exists f r1 r2, scan_d (skipn 2 s) = Some (f, r1) /\ scan_d r1 = Some (Z.of_nat npots, r2) /\ supported f = true) /\
  (keyed "T" s -> skipn 3 s = name) /\
  (keyed "I" s -> has_format p /\ enough npots s) /\
  (keyed "G" s -> apot = true \/ (has_format p /\ enough npots s)) /\
  (keyed "C" s -> has_format p /\ enough ntypes s).
Definition lines_ok (L : list text) : Prop := forall p s q, L = p ++ s :: q -> line_ok p s.

(** s is the last of the lines L with the letter c / there is none *)
Definition last_one (c : ascii) (L : list text) (s : text) : Prop := exists p q, L = p ++ s :: q /\ keyed c s /\ forall x, In x q -> ~ keyed c x.
Definition none (c : ascii) (L : list text) : Prop := forall x, In x L -> ~ keyed c x.
Definition numbers (s : text) : list Z := map c_atoi (firstn npots (words (skipn 2 s))).
(** what the header says *)
Definition says (L : list text) (st : hstate) : Prop :=
  (exists p f q, L = p ++ f :: q /\ keyed "F" f /\ none "F" q /\
     (exists r, scan_d (skipn 2 f) = Some (h_format st, r)) /\
     (forall s, last_one "I" q s -> h_invar st = numbers s) /\ (none "I" q -> h_invar st = repeat 0%Z npots) /\
     (apot = false -> (forall s, last_one "G" q s -> h_grad st = numbers s) /\ (none "G" q -> h_grad st = repeat 0%Z npots))) /\
  (forall s, last_one "C" L s -> h_elements st = Some (map (firstn 14) (firstn ntypes (words (skipn 2 s))))) /\
  (none "C" L -> h_elements st = None) /\
  (forall s, last_one "I" L s -> h_have_invar st = existsb (fun z => (z =? 1)%Z) (numbers s)) /\
  (none "I" L -> h_have_invar st = false) /\
  (apot = false -> (h_have_grad st = true <-> exists s, In s L /\ keyed "G" s)).
End S.
