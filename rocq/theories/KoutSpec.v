(** Specification of potential files of KIM models. *)
From Coq Require Import ZArith List Bool Ascii String Floats.SpecFloat.
From Verif Require Import ParamsModel ParamsProof KimModel KimProof KoutModel.
Import ListNotations.
Local Open Scope Z_scope.

(** Heads and data lines of a file, in order *)
Fixpoint heads (f : list line) : list (bool * text) :=
  match f with [] => [] | Head c n :: f => (c, n) :: heads f | _ :: f => heads f end.
Fixpoint datas (f : list line) : list (text * list spec_float) :=
  match f with [] => [] | Data t v :: f => (t, v) :: datas f | _ :: f => datas f end.
(** All entries of a model, in order: is it an integer, its value *)
Definition entries (ps : list param) : list (bool * cell) :=
  flat_map (fun p => map (fun c => (p_int p, c)) (p_cells p)) ps.
(** 64 bits *)
Definition pattern (c : cell) : Prop := 0 <= c < 2^64.
(** equal numbers (or the same NaN) *)
Definition same (a b : spec_float) : Prop := SFeqb a b = true \/ a = b.

(** printf and scanf: %d prints a numeral; what %f prints is neither '!' nor "default";
    printing and reading preserves the order *)
Definition prints_ints (pr : Z -> text) : Prop := forall z, - 2^31 <= z < 2^31 -> written (pr z) z.
Definition prints_numbers (prf : spec_float -> text) : Prop :=
  forall x, starts (txt "!") (prf x) = false /\ starts (txt "default") (prf x) = false.
Definition monotone (rd : spec_float -> spec_float) : Prop :=
  forall a b, SFleb a b = true -> SFleb (rd a) (rd b) = true.

(** The entry read from the line of a value, given its limits *)
Inductive reads_as (rd : spec_float -> spec_float) (cut : bool) : bool -> cell -> spec_float -> spec_float -> entry -> Prop :=
| as_int : forall c lo hi, reads_as rd cut true c lo hi (EInt (int_view c))
| as_cutoff : forall c lo hi x, cut = true -> x = rd (dbl_view c) -> reads_as rd cut false c lo hi (EDbl x x x true)
| as_double : forall c lo hi b, cut = false -> (b = true <-> SFeqb (rd lo) (rd hi) = true) ->
    reads_as rd cut false c lo hi (EDbl (rd (dbl_view c)) (rd lo) (rd hi) b).
(** All values of a list of parameters and the entries read; [pos]: number of earlier values *)
Inductive all_read (rd : spec_float -> spec_float) (pmin pmax : nat -> spec_float) : nat -> list param -> list (list entry) -> Prop :=
| ar_nil : forall pos, all_read rd pmin pmax pos [] []
| ar_cons : forall pos p ps es ess,
    List.length es = List.length (p_cells p) ->
    (forall j c e, nth_error (p_cells p) j = Some c -> nth_error es j = Some e ->
       reads_as rd (p_cut p) (p_int p) c (pmin (pos + j)%nat) (pmax (pos + j)%nat) e) ->
    all_read rd pmin pmax (pos + List.length (p_cells p)) ps ess ->
    all_read rd pmin pmax pos (p :: ps) (es :: ess).
(** What the file needs: integers that start with a digit other than 9, values within limits *)
Definition fit (pr : Z -> text) (cut int : bool) (c : cell) (lo hi : spec_float) : Prop :=
  if int then plain_start (pr (int_view c))
  else cut = true \/ (SFleb lo (dbl_view c) = true /\ SFleb (dbl_view c) hi = true /\ SFleb lo hi = true).
Inductive all_fit (pr : Z -> text) (pmin pmax : nat -> spec_float) : nat -> list param -> Prop :=
| af_nil : forall pos, all_fit pr pmin pmax pos []
| af_cons : forall pos p ps,
    (forall j c, nth_error (p_cells p) j = Some c -> fit pr (p_cut p) (p_int p) c (pmin (pos + j)%nat) (pmax (pos + j)%nat)) ->
    all_fit pr pmin pmax (pos + List.length (p_cells p)) ps ->
    all_fit pr pmin pmax pos (p :: ps).
(** Two sets of parameters of one KIM model: names, types and extents agree *)
Definition same_model : list param -> list param -> Prop :=
  Forall2 (fun p q => p_name p = p_name q /\ p_int p = p_int q /\ List.length (p_cells p) = List.length (p_cells q)).
(** Not to be optimised *)
Definition is_fixed (e : entry) : Prop := match e with EInt _ => True | EDbl _ _ _ b => b = true end.
(** What %d prints: decimal digits without leading zeros, a sign only for negative numbers *)
Fixpoint digits (fuel : nat) (z : Z) : list Z :=
  match fuel with
  | O => []
  | S fuel => if z <? 10 then [z] else digits fuel (z / 10) ++ [z mod 10]
  end.
Definition decimal (z : Z) : text :=
  (if z <? 0 then ["-"%char] else []) ++ map digit_char (digits 10 (Z.abs z)).
Definition is_prefix (a b : text) : Prop := exists r, b = a ++ r.
