(** Analytic potential files as text: write_pot_table0, src/potential_output.c:76-260, from
    the end tag on, and the tokeniser of src/potential_input_f0.c:301-936.

    A file is a list of words, numbers and line ends.  Numbers are real numbers; [pr k x] is
    what is read back after [x] was printed with [k] decimals.  [None]: the program stops
    with a message, or it goes on with memory that was not written (a matching failure in
    line 664), or a number stands where a word is read.  What is done with the values read is that of ApotModel.v.  The header (#F to
    #E) is not part of the list: the position is saved behind it (81-85).  Names are shorter
    than their buffers; carriage returns are not modelled. *)
From Coq Require Import Reals ZArith List Bool String Ascii Arith.
From Verif Require Import ApotModel.
Import ListNotations.
Local Open Scope R_scope.

Inductive tok := W (s : string) | N (x : R) | EOL.

(** function of an analytic table, name without "_sc"; [t_globals]: [Some] if have_globals *)
Record wpot := WPot { w_name : string; w_smooth : bool; w_end : R; w_pars : list par }.
Record wtab := WTab { t_cp : option (list par); t_globals : option (list par); t_pots : list wpot }.
(** charges (one less than types), name and value of the last one, kappa; alpha, b, c *)
Record welstat := WElstat { e_charges : list par; e_last_name : string; e_last : R; e_kappa : par; e_dipole : list par }.

Section Text.
Variable pr : nat -> R -> R.

(** ** The writer *)
Fixpoint last_char (s : string) : option ascii :=
  match s with
  | EmptyString => None
  | String c EmptyString => Some c
  | String _ s' => last_char s'
  end.
Definition last_bang (s : string) : bool := match last_char s with Some c => Ascii.eqb c "!"%char | None => false end.
(** name, value and limits, 170-172, 225-228, 246-247 *)
Definition line (kv kb : nat) (p : par) : list tok := [W (p_name p); N (pr kv (p_val p)); N (pr kb (p_min p)); N (pr kb (p_max p)); EOL].
(** 166-185; the names are made from those of the elements *)
Definition rename (s : string) (p : par) : par := Par s (p_val p) (p_min p) (p_max p) (p_inv p).
Definition write_cp (els : nat -> string) (cp : option (list par)) : list tok :=
  match cp with
  | None => []
  | Some c => flat_map (fun ip => line 10 2 (rename ("cp_" ++ els (fst ip)) (snd ip))) (combine (seq 0 (List.length c)) c) ++ [EOL]
  end.
(** 187-218 *)
Definition write_elstat (e : option welstat) : list tok :=
  match e with
  | None => []
  | Some e => [W "elstat"; EOL] ++ flat_map (line 6 6) (e_charges e) ++ [W (e_last_name e); N (pr 6 (e_last e)); EOL]
              ++ line 6 6 (e_kappa e) ++ flat_map (line 6 6) (e_dipole e) ++ [EOL]
  end.
(** 220-230 *)
Definition write_globals (g : option (list par)) : list tok :=
  match g with
  | None => []
  | Some gs => [W "global"; N (INR (List.length gs)); EOL] ++ flat_map (line 8 4) gs ++ [EOL]
  end.
(** 244-251 *)
Definition write_par (p : par) : list tok := if last_bang (p_name p) then [W (p_name p); EOL] else line 8 4 p.
(** 233-252; rmin is printed behind a comment sign *)
Definition write_pot (rmin : R) (q : wpot) : list tok :=
  [W "type"; W (if w_smooth q then w_name q ++ "_sc" else w_name q); EOL; W "cutoff"; N (pr 6 (w_end q)); EOL;
   W "#"; W "rmin"; N (pr 6 rmin); EOL] ++ flat_map write_par (w_pars q).
(** 253-254: an empty line between two potentials *)
Fixpoint write_pots (rmin : wpot -> R) (qs : list wpot) : list tok :=
  match qs with
  | [] => []
  | q :: rest => write_pot (rmin q) q ++ (match rest with [] => [] | _ => [EOL] end) ++ write_pots rmin rest
  end.
(** 161-255; the end tag is followed by two line ends, one of them is read with the header *)
Definition write_table (els : nat -> string) (rmin : wpot -> R) (e : option welstat) (t : wtab) : list tok :=
  [EOL] ++ write_cp els (t_cp t) ++ write_elstat e ++ write_globals (t_globals t) ++ write_pots rmin (t_pots t).

(** ** fscanf: white space, then a word or a number *)
Fixpoint skip_eol (l : list tok) : list tok := match l with EOL :: l' => skip_eol l' | _ => l end.
Definition scan_word (l : list tok) : option (string * list tok) := match skip_eol l with W s :: l' => Some (s, l') | _ => None end.
Definition scan_num (l : list tok) : option (R * list tok) := match skip_eol l with N x :: l' => Some (x, l') | _ => None end.
Definition scan_line (l : list tok) : option (raw * list tok) :=
  match scan_word l with
  | None => None
  | Some (s, l) =>
      match scan_num l with
      | None => None
      | Some (v, l) =>
          match scan_num l with
          | None => None
          | Some (a, l) => match scan_num l with None => None | Some (b, l) => Some (Raw s v a b, l) end
          end
      end
  end.
Fixpoint scan_lines (n : nat) (l : list tok) : option (list raw * list tok) :=
  match n with
  | O => Some ([], l)
  | S n' =>
      match scan_line l with
      | None => None
      | Some (r, l) => match scan_lines n' l with None => None | Some (rs, l) => Some (r :: rs, l) end
      end
  end.
(** word by word to the first one with [key], which is not consumed: 326-333, 458-462,
    601-611, 726-731, 735-740 *)
Fixpoint seek (key : string -> bool) (l : list tok) : option (list tok) :=
  match l with
  | [] => None
  | W s :: l' => if key s then Some l else seek key l'
  | _ :: l' => seek key l'
  end.
(** 318-372; [None]: no chemical potentials *)
Definition parse_cp (ntypes : nat) (l : list tok) : option (list raw) :=
  match seek (prefix "cp") l with
  | None => None
  | Some l =>
      match scan_lines ntypes l with
      | None => None
      | Some (rs, _) => if forallb (fun r => prefix "cp_" (r_name r)) rs then Some rs else None
      end
  end.
Fixpoint scan_nums (n : nat) (l : list tok) : option (list R * list tok) :=
  match n with
  | O => Some ([], l)
  | S n' =>
      match scan_num l with
      | None => None
      | Some (x, l) => match scan_nums n' l with None => None | Some (xs, l) => Some (x :: xs, l) end
      end
  end.
(** 449-575: ratio of the types, charges, kappa, [nd] parameters of the dipoles *)
Definition parse_elstat (ntypes nd : nat) (l : list tok) : option (list R * list raw) :=
  match seek (String.eqb "elstat") l with
  | Some (_ :: l) =>
      match scan_word l with
      | None => None
      | Some (s, l) =>
          if String.eqb "ratio" s then
            match scan_nums ntypes l with
            | None => None
            | Some (xs, l) => match scan_lines (ntypes - 1 + 1 + nd) l with None => None | Some (rs, _) => Some (xs, rs) end
            end
          else None
      end
  | _ => None
  end.
(** 600-667; [Some []] without the section.  The number is read with %d: nothing but the
    decimal digits of a natural number is accepted here *)
Definition parse_globals (l : list tok) : option (list raw) :=
  match seek (String.eqb "global") l with
  | None => Some []
  | Some l =>
      match scan_word l with
      | None => None
      | Some (_, l) =>
          match scan_num l with
          | None => None
          | Some (x, l) =>
              if Req_EM_T x (IZR (Int_part x)) then
                match scan_lines (Z.to_nat (Int_part x)) l with None => None | Some (rs, _) => Some rs end
              else None
          end
      end
  end.

(** ** Potentials *)
(** [strrchr(name, '_')] is "_sc", 753-757 *)
Fixpoint ends_sc (s : string) : option string :=
  match s with
  | EmptyString => None
  | String c s' =>
      if String.eqb s "_sc" then Some EmptyString
      else match ends_sc s' with None => None | Some b => Some (String c b) end
  end.
(** fgets: a line and what follows it *)
Fixpoint get_line (l : list tok) : option (list tok * list tok) :=
  match l with
  | [] => None
  | EOL :: l' => Some ([], l')
  | t :: l' => match get_line l' with None => None | Some (x, r) => Some (t :: x, r) end
  end.
Definition comment (x : list tok) : bool := match x with W (String c _) :: _ => Ascii.eqb c "#"%char | _ => false end.
(** lines up to the first one that is not a comment, which is not consumed, 801-807 *)
Fixpoint skip_comments (fuel : nat) (l : list tok) : option (list tok) :=
  match fuel with
  | O => None
  | S f =>
      match get_line l with
      | None => None
      | Some (x, r) => if comment x then skip_comments f r else Some l
      end
  end.
(** 819-826: the same before a parameter other than the last one *)
Fixpoint par_line (fuel : nat) (last : bool) (l : list tok) : option (list tok * list tok) :=
  match fuel with
  | O => None
  | S f =>
      match get_line l with
      | None => None
      | Some (x, r) => if (comment x && negb last)%bool then par_line f last r else Some (x, r)
      end
  end.
(** one parameter, 813-905: sscanf of the line; [extra]: the parameter is the one of the
    smooth cutoff, which may be missing *)
Definition parse_par (last extra : bool) (l : list tok) : option (raw * list tok) :=
  match par_line (S (List.length l)) last l with
  | None => None
  | Some (x, r) =>
      match x with
      | N _ :: _ => None
      | W s :: N v :: N a :: N b :: _ => Some (Raw s v a b, r)
      | W s :: _ =>
          if has_bang s then Some (Raw s 0 0 0, r)
          else if (extra && (String.eqb s "type" || String.eqb s "empty"))%bool then Some (Raw "h" 1 (1/2) 2, l) else None
      | _ => if extra then Some (Raw "h" 1 (1/2) 2, l) else None
      end
  end.
(** [j]: parameter, [k]: how many are left *)
Fixpoint parse_pars (num : nat) (smooth : bool) (j k : nat) (l : list tok) : option (list raw * list tok) :=
  match k with
  | O => Some ([], l)
  | S k' =>
      match parse_par (Nat.eqb k' 0) (smooth && Nat.eqb j num) l with
      | None => None
      | Some (r, l) => match parse_pars num smooth (S j) k' l with None => None | Some (rs, l) => Some (r :: rs, l) end
      end
  end.
(** functions.c:108-116, [None]: -1 *)
Variable num_params : string -> option nat.
(** 733-935: name, smooth cutoff, end, lines *)
Definition parse_pot (l : list tok) : option ((string * bool * R * list raw) * list tok) :=
  match seek (String.eqb "type") l with
  | Some (_ :: l) =>
      match scan_word l with
      | None => None
      | Some (s, l) =>
          let smooth := match ends_sc s with Some _ => true | None => false end in
          let s := match ends_sc s with Some b => b | None => s end in
          let s := if String.eqb s "pohlong" then "bjs"%string else s in
          match num_params s with
          | None => None
          | Some n =>
              match scan_word l with
              | Some (c, l) =>
                  match scan_num l with
                  | Some (e, l) =>
                      if String.eqb c "cutoff" then
                        match get_line l with
                        | None => None
                        | Some (_, l) =>
                            match skip_comments (S (List.length l)) l with
                            | None => None
                            | Some l =>
                                match parse_pars n smooth 0 (if smooth then S n else n) l with
                                | None => None
                                | Some (rs, l) => Some ((s, smooth, e, rs), l)
                                end
                            end
                        end
                      else None
                  | None => None
                  end
              | None => None
              end
          end
      end
  | _ => None
  end.
Fixpoint parse_pots (n : nat) (l : list tok) : option (list (string * bool * R * list raw)) :=
  match n with
  | O => Some []
  | S n' =>
      match parse_pot l with
      | None => None
      | Some (q, l) => match parse_pots n' l with None => None | Some qs => Some (q :: qs) end
      end
  end.

(** ** The table read from a file; [n]: number of potentials of the header, [cp]: enable_cp
    of a PAIR build, [el]: parameters of the dipoles of a COULOMB build *)
Definition read_pots (opt : bool) (gs : list par) (qs : list (string * bool * R * list raw)) : option (list wpot) :=
  fold_right (fun q acc =>
    match acc with
    | None => None
    | Some ps =>
        let '(s, sm, e, rs) := q in
        match read_pars opt gs rs with None => None | Some l => Some (WPot s sm e (map fst l) :: ps) end
    end) (Some []) qs.
(** 101-111: globals that are not used are forgotten *)
Definition used (ps : list wpot) : bool := existsb (fun q => existsb (fun p => has_bang (p_name p)) (w_pars q)) ps.
Definition read_table (opt cp : bool) (el : option nat) (ntypes n : nat) (l : list tok) : option wtab :=
  match (if cp then match parse_cp ntypes l with None => None | Some c => Some (Some (map (check_value opt) c)) end else Some None) with
  | None => None
  | Some c =>
      match (match el with None => Some tt | Some nd => match parse_elstat ntypes nd l with None => None | Some _ => Some tt end end) with
      | None => None
      | Some _ =>
          match parse_globals l with
          | None => None
          | Some g =>
              match read_globals opt [] g with
              | None => None
              | Some gs =>
                  match parse_pots n l with
                  | None => None
                  | Some qs =>
                      match read_pots opt gs qs with
                      | None => None
                      | Some ps => Some (WTab c (if used ps then Some gs else None) ps)
                      end
                  end
              end
          end
      end
  end.
End Text.
