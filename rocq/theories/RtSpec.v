(** What a round trip of an analytic potential file should give. *)
From Coq Require Import Reals ZArith List Bool String Ascii.
From Verif Require Import ApotModel RtModel.
Import ListNotations.
Local Open Scope R_scope.

(** [y] is [x] rounded to [k] decimals (any choice for ties) *)
Definition decimals (k : nat) (x y : R) : Prop := exists z, y = IZR z / 10 ^ k /\ Rabs (x - y) <= 1 / 2 / 10 ^ k.

(** a word that is not a keyword of the file and does not start a comment *)
Definition plain_word (s : string) : Prop := s <> ""%string /\ s <> "type"%string /\ s <> "global"%string /\ s <> "empty"%string /\ (forall c s', s = String c s' -> c <> "#"%char).
Definition bound_to (s : string) (gs : list par) (l : nat) : Prop :=
  (l < List.length gs)%nat /\ strncmp_eq (String.length s - 1) s (p_name (nth l gs (Par "" 0 0 0 false))) = true /\
  forall k, (l < k < List.length gs)%nat -> strncmp_eq (String.length s - 1) s (p_name (nth k gs (Par "" 0 0 0 false))) = false.
Definition globals_of (t : wtab) : list par := match t_globals t with Some gs => gs | None => [] end.
(** the tables that are written *)
Record legal (num_params : string -> option nat) (t : wtab) : Prop := {
  lg_fun : forall q, In q (t_pots t) -> exists n, num_params (w_name q) = Some n /\ List.length (w_pars q) = (if w_smooth q then S n else n);
  lg_name : forall q, In q (t_pots t) -> w_name q <> "pohlong"%string /\ plain_word (w_name q) /\
    (w_smooth q = false -> forall b, w_name q <> (b ++ "_sc")%string);
  lg_pars : forall q p, In q (t_pots t) -> In p (w_pars q) -> plain_word (p_name p);
  lg_globals : forall g, In g (globals_of t) -> plain_word (p_name g);
  lg_distinct : NoDup (map p_name (globals_of t));
  lg_bound : forall q p, In q (t_pots t) -> In p (w_pars q) -> has_bang (p_name p) = true -> exists l, bound_to (p_name p) (globals_of t) l;
  lg_used : t_globals t <> None <-> exists q p, In q (t_pots t) /\ In p (w_pars q) /\ has_bang (p_name p) = true }.

(** [a]: a parameter read back from [p] printed with [kv] and [kb] decimals *)
Section Trip.
Variable pr : nat -> R -> R.
Variable opt : bool.
Definition limited (a b x : R) : R := Rmin b (Rmax a x).
Record back (kv kb : nat) (p a : par) : Prop := {
  bk_name : p_name a = p_name p;
  bk_min : p_min a = Rmin (pr kb (p_min p)) (pr kb (p_max p));
  bk_max : p_max a = Rmax (pr kb (p_min p)) (pr kb (p_max p));
  bk_fixed : p_inv a = true <-> pr kb (p_min p) = pr kb (p_max p);
  bk_val : p_val a = if opt then (if Rlt_dec (pr kb (p_min p)) (pr kb (p_max p)) then limited (pr kb (p_min p)) (pr kb (p_max p)) (pr kv (p_val p)) else pr kv (p_val p))
                     else pr kv (p_val p) }.
(** a bound parameter is a fixed copy of its global parameter *)
Definition copied (gs : list par) (p a : par) : Prop := exists l, bound_to (p_name p) gs l /\
  let g := nth l gs (Par "" 0 0 0 false) in a = Par (p_name p) (p_val g) (p_min g) (p_max g) true.
Definition par_back (gs : list par) (p a : par) : Prop := if has_bang (p_name p) then copied gs p a else back 8 4 p a.
Record pot_back (gs : list par) (q a : wpot) : Prop := {
  pb_name : w_name a = w_name q;
  pb_smooth : w_smooth a = w_smooth q;
  pb_end : w_end a = pr 6 (w_end q);
  pb_pars : Forall2 (par_back gs) (w_pars q) (w_pars a) }.
Record tab_back (els : nat -> string) (t a : wtab) : Prop := {
  tb_cp : match t_cp t, t_cp a with
          | None, None => True
          | Some c, Some d => List.length d = List.length c /\ forall i, (i < List.length c)%nat ->
              let z := Par "" 0 0 0 false in back 10 2 (rename ("cp_" ++ els i) (nth i c z)) (nth i d z)
          | _, _ => False
          end;
  tb_have : t_globals a <> None <-> t_globals t <> None;
  tb_globals : Forall2 (back 8 4) (globals_of t) (globals_of a);
  tb_pots : Forall2 (pot_back (globals_of a)) (t_pots t) (t_pots a) }.
End Trip.

(** a table as the reader leaves it, with numbers that are printed exactly *)
Definition multiple (k : nat) (x : R) : Prop := exists z, x = IZR z / 10 ^ k.
Record sound_par (opt : bool) (kv kb : nat) (p : par) : Prop := {
  sp_order : p_min p <= p_max p;
  sp_fixed : p_inv p = true <-> p_min p = p_max p;
  sp_inside : opt = true -> p_min p < p_max p -> p_min p <= p_val p <= p_max p;
  sp_val : multiple kv (p_val p);
  sp_min : multiple kb (p_min p);
  sp_max : multiple kb (p_max p) }.
Record sound (opt : bool) (els : nat -> string) (t : wtab) : Prop := {
  sd_cp : forall c, t_cp t = Some c -> forall i, (i < List.length c)%nat ->
    let p := nth i c (Par "" 0 0 0 false) in p_name p = ("cp_" ++ els i)%string /\ sound_par opt 10 2 p;
  sd_globals : forall g, In g (globals_of t) -> sound_par opt 8 4 g;
  sd_ends : forall q, In q (t_pots t) -> multiple 6 (w_end q);
  sd_pars : forall q p, In q (t_pots t) -> In p (w_pars q) ->
    if has_bang (p_name p) then copied (globals_of t) p p else sound_par opt 8 4 p }.

(** chemical potentials: one for every type of atom; every potential has a parameter *)
Definition cp_of (t : wtab) : bool := if t_cp t then true else false.
Definition ntypes_of (t : wtab) (n : nat) : Prop := forall c, t_cp t = Some c -> c <> [] /\ n = List.length c.
Definition filled (t : wtab) : Prop := t_pots t <> [] /\ forall q, In q (t_pots t) -> w_pars q <> [].
(** every free parameter has ordered limits *)
Record ordered (t : wtab) : Prop := {
  od_cp : forall c p, t_cp t = Some c -> In p c -> p_min p <= p_max p;
  od_globals : forall g, In g (globals_of t) -> p_min g <= p_max g;
  od_pars : forall q p, In q (t_pots t) -> In p (w_pars q) -> has_bang (p_name p) = false -> p_min p <= p_max p }.
