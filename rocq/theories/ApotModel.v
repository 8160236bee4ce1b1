(** Model of the analytic potential input, src/potential_input_f0.c:74-936, of
    update_apot_table and update_calc_table, src/potential_input.c:600-694, and of
    calculate_cutoffs, src/potential_input.c:512-559.

    The model starts after the tokeniser: a parameter line is its name and its three
    numbers ([raw]); the lines of one potential are those that follow its "cutoff" line,
    comments removed.  Numbers are real numbers.  [None]: the program stops with an error
    message.  Composition nodes are compiled out (potential_input_f0.c:400). *)
From Coq Require Import Reals ZArith List Bool String Ascii.
From Verif Require Import LoopUtil.
Import ListNotations.
Local Open Scope R_scope.

Record raw := Raw { r_name : string; r_val : R; r_min : R; r_max : R }.
Record par := Par { p_name : string; p_val : R; p_min : R; p_max : R; p_inv : bool }.

(** ** Value check, the same three times: 376-396, 684-705, 911-932.
    [opt]: the parameter file asks for an optimisation. *)
Definition check_value (opt : bool) (r : raw) : par :=
  if Req_EM_T (r_min r) (r_max r) then Par (r_name r) (r_val r) (r_min r) (r_max r) true
  else if Rlt_dec (r_max r) (r_min r) then Par (r_name r) (r_val r) (r_max r) (r_min r) false
  else if opt then
    let v := if Rlt_dec (r_val r) (r_min r) then r_min r else r_val r in
    let v := if Rlt_dec (r_max r) v then r_max r else v in
    Par (r_name r) v (r_min r) (r_max r) false
  else Par (r_name r) (r_val r) (r_min r) (r_max r) false.

(** Electrostatic parameters are taken as they are, 497-506, 508-519, 528-570 *)
Definition take_value (r : raw) : par :=
  Par (r_name r) (r_val r) (r_min r) (r_max r) (if Req_EM_T (r_min r) (r_max r) then true else false).

(** ** read_global_parameters, 655-706 *)
Fixpoint read_globals (opt : bool) (acc : list par) (rs : list raw) : option (list par) :=
  match rs with
  | [] => Some acc
  | r :: rest =>
      if existsb (fun g => String.eqb (r_name r) (p_name g)) acc then None
      else read_globals opt (acc ++ [check_value opt r]) rest
  end.

(** ** strrchr(s, '!') != NULL and strncmp(a, b, n) == 0 *)
Fixpoint has_bang (s : string) : bool :=
  match s with
  | EmptyString => false
  | String c s' => if Ascii.eqb c "!"%char then true else has_bang s'
  end.
Fixpoint strncmp_eq (n : nat) (a b : string) : bool :=
  match n with
  | O => true
  | S n' =>
      match a, b with
      | EmptyString, EmptyString => true
      | String c a', String d b' => Ascii.eqb c d && strncmp_eq n' a' b'
      | _, _ => false
      end
  end.

(** search for the global parameter, 845-850: the last match wins *)
Definition find_global (name : string) (globals : list par) : option nat :=
  for_up 0 (List.length globals)
    (fun k l => if strncmp_eq (String.length name - 1) name
                     (p_name (nth k globals (Par "" 0 0 0 false)))
                then Some k else l) None.

(** one parameter of a potential, 838-932: the parameter and the global it is bound to *)
Definition read_par (opt : bool) (globals : list par) (r : raw) : option (par * option nat) :=
  if has_bang (r_name r) then
    match find_global (r_name r) globals with
    | None => None
    | Some l =>
        let g := nth l globals (Par "" 0 0 0 false) in
        Some (Par (r_name r) (p_val g) (p_min g) (p_max g) true, Some l)
    end
  else Some (check_value opt r, None).
Fixpoint read_pars (opt : bool) (globals : list par) (rs : list raw) : option (list (par * option nat)) :=
  match rs with
  | [] => Some []
  | r :: rest =>
      match read_par opt globals r with
      | None => None
      | Some p => match read_pars opt globals rest with None => None | Some ps => Some (p :: ps) end
      end
  end.

(** A potential in the file: number of parameters of its function, smooth cutoff (name
    ends in "_sc"), flag of the #I line, its parameter lines. *)
Record rawpot := RawPot { rq_npar : nat; rq_smooth : bool; rq_inv : bool; rq_lines : list raw }.
Record pot := Pot { q_smooth : bool; q_inv : bool; q_pars : list (par * option nat) }.
Definition n_par (q : pot) : nat := List.length (q_pars q).
Definition par_of (q : pot) (j : nat) : par := fst (nth j (q_pars q) (Par "" 0 0 0 false, None)).

(** the lines used: a missing cutoff parameter is added, 876-891 *)
Definition lines_used (q : rawpot) : option (list raw) :=
  let have := List.length (rq_lines q) in
  if (have <? rq_npar q)%nat then None
  else if rq_smooth q then
    if (have =? rq_npar q)%nat then Some (rq_lines q ++ [Raw "h" 1 (1 / 2) 2])
    else Some (firstn (S (rq_npar q)) (rq_lines q))
  else Some (firstn (rq_npar q) (rq_lines q)).
(** 760-935 *)
Definition read_potential (opt : bool) (globals : list par) (q : rawpot) : option pot :=
  match lines_used q with
  | None => None
  | Some rs =>
      match read_pars opt globals rs with
      | None => None
      | Some ps => Some (Pot (rq_smooth q) (rq_inv q) ps)
      end
  end.
Fixpoint read_potentials (opt : bool) (globals : list par) (qs : list rawpot) : option (list pot) :=
  match qs with
  | [] => Some []
  | q :: rest =>
      match read_potential opt globals q with
      | None => None
      | Some p => match read_potentials opt globals rest with None => None | Some ps => Some (p :: ps) end
      end
  end.

(** All that the reader leaves in the analytic table.  [a_cp]: chemical potentials of a
    PAIR build with enable_cp.  [a_elstat]: charges (one less than types) and kappa of a
    COULOMB build.  [a_dipole]: alpha, b and c of a DIPOLE build.  The build system never
    combines PAIR with COULOMB (wscript:54-84). *)
Record apot := Apot {
  a_pots : list pot;
  a_cp : option (list par);
  a_elstat : option (list par * par);
  a_dipole : option (list par * list par * list par);
  a_globals : list par }.

(** 853-861: where each global parameter is used: (global, (potential, parameter)) *)
Definition uses_read (a : apot) : list (nat * (nat * nat)) :=
  flat_map (fun ij : nat * pot =>
    flat_map (fun jp : nat * (par * option nat) =>
      match snd (snd jp) with
      | None => []
      | Some l => [(l, (fst ij, fst jp))]
      end) (combine (seq 0 (n_par (snd ij))) (q_pars (snd ij))))
    (combine (seq 0 (List.length (a_pots a))) (a_pots a)).
(** the same in the order of the loops over global_idx *)
Definition uses (a : apot) : list (nat * (nat * nat)) :=
  flat_map (fun l => filter (fun u => Nat.eqb (fst u) l) (uses_read a)) (seq 0 (List.length (a_globals a))).
(** 101-111: have_globals is reset if no global is used *)
Definition have_globals (a : apot) : bool :=
  match uses a with [] => false | _ => true end.

(** whole input *)
Record rawfile := RawFile {
  f_opt : bool;
  f_cp : option (list raw);
  f_elstat : option (list raw * raw);
  f_dipole : option (list raw * list raw * list raw);
  f_globals : list raw;
  f_pots : list rawpot }.
Definition read_file (f : rawfile) : option apot :=
  match read_globals (f_opt f) [] (f_globals f) with
  | None => None
  | Some gs =>
      match read_potentials (f_opt f) gs (f_pots f) with
      | None => None
      | Some ps =>
          Some (Apot ps (option_map (map (check_value (f_opt f))) (f_cp f))
                  (option_map (fun x => (map take_value (fst x), take_value (snd x))) (f_elstat f))
                  (option_map (fun x => (map take_value (fst (fst x)), map take_value (snd (fst x)),
                                         map take_value (snd x))) (f_dipole f))
                  gs)
      end
  end.

(** ** Layout of the optimised table, 127-299 *)
(** first[], last[], 134-138; [ns]: numbers of parameters *)
Fixpoint first_of (ns : list nat) (start : nat) (i : nat) : nat :=
  match i, ns with
  | S i', n :: rest => first_of rest (start + n + 2) i'
  | _, _ => start
  end.
Definition pot_first (a : apot) (i : nat) : nat := first_of (map n_par (a_pots a)) 2 i.
(** last[number - 1] + 1 *)
Definition pots_end (a : apot) : nat :=
  let m := (List.length (a_pots a) - 1)%nat in
  (pot_first a m + n_par (nth m (a_pots a) (Pot false false [])))%nat.

(** The writing position: table written so far ([None]: the two entries before the
    parameters of a potential), counter l, triples (idx, idxpot, idxparam) written so far. *)
Record wr := Wr { w_tab : list (option R); w_l : nat; w_idx : list (nat * nat * nat) }.

(** one parameter: *val++ = value; if free: idx[k] = l++ ... else l++ *)
Definition put (i j : nat) (free : bool) (v : R) (w : wr) : wr :=
  Wr (w_tab w ++ [Some v]) (S (w_l w))
     (if free then w_idx w ++ [(w_l w, i, j)] else w_idx w).
(** the same for a chemical potential, 205-213: l stays if it is not free *)
Definition put_cp (i j : nat) (free : bool) (v : R) (w : wr) : wr :=
  Wr (w_tab w ++ [Some v]) (if free then S (w_l w) else w_l w)
     (if free then w_idx w ++ [(w_l w, i, j)] else w_idx w).
Fixpoint put_row (putf : nat -> nat -> bool -> R -> wr -> wr) (i j : nat) (inv : bool) (ps : list par) (w : wr) : wr :=
  match ps with
  | [] => w
  | p :: rest => put_row putf i (S j) inv rest (putf i j (negb inv && negb (p_inv p)) (p_val p) w)
  end.
(** 176-197 *)
Definition put_gap (w : wr) : wr := Wr (w_tab w ++ [None; None]) (w_l w + 2) (w_idx w).
Fixpoint put_pots (i : nat) (ps : list pot) (w : wr) : wr :=
  match ps with
  | [] => w
  | q :: rest => put_pots (S i) rest (put_row put i 0 (q_inv q) (map fst (q_pars q)) (put_gap w))
  end.

Definition inv_count (ps : list par) : Z := Z.of_nat (List.length (filter p_inv ps)).
(** number of the row of the global parameters, 618-624 *)
Definition global_pot (a : apot) : nat :=
  (List.length (a_pots a) + (if a_cp a then 1 else 0) + (if a_elstat a then 5 else 0))%nat.

Record layout := Layout { l_tab : list (option R); l_idx : list (nat * nat * nat); l_idxlen : Z;
                          l_global_idx : Z; l_cp_start : Z; l_total_ne : Z; l_len : Z; l_total_par : Z }.

Definition sumz (l : list Z) : Z := fold_right Z.add 0%Z l.
(** total_par after reading, 617, 786: all parameters of potentials and all globals *)
Definition total_read (a : apot) : Z :=
  (sumz (map (fun q => Z.of_nat (n_par q)) (a_pots a)) + Z.of_nat (List.length (a_globals a)))%Z.

Definition read_pot_table0 (ntypes : nat) (a : apot) : layout :=
  let n := List.length (a_pots a) in
  let nt := Z.of_nat ntypes in
  let w := put_pots 0 (a_pots a) (Wr [] 0 []) in
  let idxlen := sumz (map (fun q => if q_inv q then 0 else Z.of_nat (n_par q) - inv_count (map fst (q_pars q)))%Z (a_pots a)) in
  (* chemical potentials, 200-217 *)
  let w := match a_cp a with None => w | Some c => put_row put_cp n 0 false c w end in
  let cpfree := match a_cp a with None => 0%Z | Some c => (nt - inv_count c)%Z end in
  let idxlen := (idxlen + cpfree)%Z in
  (* charges and kappa, 219-248 *)
  let w := match a_elstat a with
           | None => w
           | Some (ch, ka) => put_row put (n + 1) 0 false [ka] (put_row put n 0 false ch w)
           end in
  let idxlen := match a_elstat a with
                | None => idxlen
                | Some (ch, ka) => (idxlen - inv_count ch - inv_count [ka] + nt)%Z
                end in
  (* dipoles, 250-282 *)
  let w := match a_dipole a with
           | None => w
           | Some (al, b, c) => put_row put (n + 4) 0 false c (put_row put (n + 3) 0 false b (put_row put (n + 2) 0 false al w))
           end in
  let idxlen := match a_dipole a with
                | None => idxlen
                | Some (al, b, c) => (idxlen - inv_count al - inv_count b - inv_count c + nt * (nt + 2))%Z
                end in
  (* global parameters, 284-298 *)
  let w := if have_globals a then put_row put (global_pot a) 0 false (a_globals a) w else w in
  let idxlen := if have_globals a then (idxlen + Z.of_nat (List.length (a_globals a)) - inv_count (a_globals a))%Z else idxlen in
  Layout (w_tab w) (w_idx w) idxlen
    (cpfree + Z.of_nat (pots_end a))%Z                                     (* 214, 299 *)
    (total_read a - Z.of_nat (List.length (a_globals a)) + nt * (nt + 1))%Z      (* 118-119 *)
    (total_read a)                                                         (* 98 *)
    (Z.of_nat (pots_end a)                                                 (* 140-156 *)
     + (if have_globals a then Z.of_nat (List.length (a_globals a)) else 0)
     + (if a_cp a then nt else 0)
     + (if a_elstat a then 2 * nt - 1 else 0)
     + (if a_dipole a then nt * (nt + 2) else 0))%Z
    (total_read a                                                          (* 120-131, at the allocation *)
     + cpfree
     + (if a_elstat a then nt else 0)
     + (if a_dipole a then nt * (nt + 2) else 0))%Z.

(** ** Where the force routines look *)
(** parameter j of potential i: opt_pot.first[i] + j *)
(** chemical potential j: cp_start + j, force_pair.c:185 *)
(** charge j: 2 * number + total_ne_par + j; kappa: ... + ntypes - 1; alpha: ... + ntypes + j;
    b: ... + 2 * ntypes + j; c: ... + 2 * ntypes + paircol + j, force_elstat.c:186-216,
    force_eam_elstat.c:192-223 *)
Definition elstat_base (a : apot) (l : layout) : Z := (2 * Z.of_nat (List.length (a_pots a)) + l_total_ne l)%Z.
(** global l: global_idx + l, potential_input.c:612, 635 *)

(** ** update_apot_table, potential_input.c:600-616
    [vals]: row, column; [xi]: optimised table *)
Definition update_apot_table (a : apot) (l : layout) (xi : Z -> R) (vals : nat -> nat -> R) : nat -> nat -> R :=
  let set (v : nat -> nat -> R) (i j : nat) (x : R) : nat -> nat -> R :=
      fun i' j' => if (Nat.eqb i' i && Nat.eqb j' j)%bool then x else v i' j' in
  let v := fold_left (fun v (t : nat * nat * nat) => set v (snd (fst t)) (snd t) (xi (Z.of_nat (fst (fst t))))) (l_idx l) vals in
  if have_globals a then
    fold_left (fun v (u : nat * (nat * nat)) => set v (fst (snd u)) (snd (snd u)) (xi (l_global_idx l + Z.of_nat (fst u))%Z)) (uses a) v
  else v.

(** ** update_calc_table, potential_input.c:623-694 *)
Section Calc.
  (** Fixed during a run: columns, numbers of parameters, smooth cutoff, #I flag; the
      analytic function of column i at r with the parameters found from a pointer on
      ([None]: not a number); the cutoff function; the numerical derivative; the begin of
      each column; abscissae; uses of globals in the order of the loops 629-636; APOT_STEPS. *)
  Variable ncols : nat.
  Variable npar : nat -> nat.
  Variable smooth invar : nat -> bool.
  Variable fval : nat -> R -> (nat -> R) -> option R.
  Variable cut : nat -> R -> R -> R.      (* column, r, h *)
  Variable grad : nat -> (nat -> R) -> R.
  Variable xcoord : nat -> R.
  Variable binds : list (nat * (nat * nat)).
  Variable first : nat -> nat.
  Variable global_idx : nat.
  Variable steps : nat.

  Definition set1 (f : nat -> R) (k : nat) (x : R) : nat -> R := fun m => if Nat.eqb m k then x else f m.
  (** 629-637 *)
  Definition copy_globals (xi : nat -> R) : nat -> R :=
    fold_left (fun xi (b : nat * (nat * nat)) =>
      set1 xi (first (fst (snd b)) + snd (snd b)) (xi (global_idx + fst b)%nat)) binds xi.

  Record cst := Cst { c_xi : nat -> R; c_list : nat -> R; c_tab : nat -> R; c_h : R; c_off : nat }.

  (** 655-660: compare and copy the parameters of column i *)
  Definition compare (n : nat) (off : nat) (xi : nat -> R) (lst : nat -> R) : bool * (nat -> R) :=
    for_up 0 n (fun j (s : bool * (nat -> R)) =>
      if Req_EM_T (snd s (off + j)%nat) (xi (off + j)%nat) then s
      else (true, set1 (snd s) (off + j) (xi (off + j)%nat))) (false, lst).

  (** 663-691 *)
  Definition fill (i : nat) (h : R) (p : nat -> R) (tab : nat -> R) : option (nat -> R) :=
    for_up 0 steps (fun j (t : option (nat -> R)) =>
      match t with
      | None => None
      | Some tab =>
          let k := (i * steps + (i + 1) * 2 + j)%nat in
          match fval i (xcoord k) p with
          | None => None
          | Some f => Some (set1 tab k (if smooth i then f * cut i (xcoord k) h else f))
          end
      end) (Some tab).

  (** one column, 639-693; off: position of val *)
  Definition calc_col (do_all : bool) (i : nat) (s : cst) : option cst :=
    let live := (smooth i && (do_all || negb (invar i)))%bool in
    let h := if live then c_xi s (c_off s + 1 + npar i)%nat else c_h s in
    if (live && (if Req_EM_T h 0 then true else false))%bool then None
    else
      let par (k : nat) := c_xi s (c_off s + 2 + k)%nat in
      let xi := set1 (c_xi s) (c_off s) (grad i par) in
      let cl := compare (npar i) (c_off s + 2) xi (c_list s) in
      let off' := (c_off s + 2 + npar i)%nat in
      if (do_all || (fst cl && negb (invar i)))%bool then
        match fill i h par (c_tab s) with
        | None => None
        | Some tab => Some (Cst xi (snd cl) tab h off')
        end
      else Some (Cst xi (snd cl) (c_tab s) h off').

  (** optimised table, list of old parameters, calculation table *)
  Definition update_calc_table (do_all : bool) (xi lst tab : nat -> R) : option ((nat -> R) * (nat -> R) * (nat -> R)) :=
    let s := for_up 0 ncols (fun i s => match s with None => None | Some s => calc_col do_all i s end)
               (Some (Cst (copy_globals xi) lst tab 0 0)) in
    match s with
    | None => None
    | Some s => Some (c_xi s, c_list s, c_tab s)
    end.
End Calc.

(** ** calculate_cutoffs, potential_input.c:512-559 *)
Inductive model := MPair | MEam | MTbeam | MAdp | MMeam | MAng.
Definition eam_like (m : model) : bool := match m with MEam | MTbeam | MAdp | MMeam => true | _ => false end.
(** 522-525 *)
Definition pair_col (n i j : nat) : nat :=
  (if (i <=? j)%nat then i * n + j - (i * (i + 1)) / 2 else j * n + i - (j * (j + 1)) / 2)%nat.
(** [coul]: dp_cut of a COULOMB build *)
Definition rcut_of (m : model) (coul : option R) (n : nat) (pend : nat -> R) (i j : nat) : R :=
  let r := pend (pair_col n i j) in
  let r := if eam_like m
           then Rmax (Rmax r (pend (n * (n + 1) / 2 + i)%nat)) (pend (n * (n + 1) / 2 + j)%nat)
           else r in
  match coul with None => r | Some c => Rmax r c end.
(** 552-557; the start value of g_config.rcutmax is 0 *)
Definition rcutmax_of (m : model) (coul : option R) (n : nat) (pend : nat -> R) : R :=
  for_up 0 n (fun i mx => for_up 0 n (fun j mx => Rmax mx (rcut_of m coul n pend i j)) mx) 0.
