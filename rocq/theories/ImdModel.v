(** Model of the IMD export, src/potential_output_imd.c.

    Numbers are real; what printf does to them is not modelled, nor the text around them.  One
    file of the tabulated export is a header number, an info block and data blocks.  pt is
    opt_pot: [pt c] describes column c, [tab] is pt->table.  apot_table has the functions
    [fv] (with the parameters put in), the flags [smooth], the ends [aend] and the last
    parameters [lastp]. *)
From Coq Require Import Reals ZArith List Bool String.
From Verif Require Import PairIndexModel SplineModel FuncModel.
Import ListNotations.
Local Open Scope R_scope.

Record file := mk_file { header : nat; info : list (R * R * R); data : list (list R) }.
(** r2begin, r2end, r2step (176-178), used again for every file *)
Record lims := mk_lims { lb : arr; le : arr; ls : arr }.

Section Tables.
Variables (APOT : bool) (n N : nat).         (* ntypes, imdpotsteps *)
Variables (plotmin extend : R).
Variable pt : nat -> column.
Variable tab : arr.
Variable fv : nat -> R -> R.
Variable smooth : nat -> bool.
Variables aend lastp : nat -> R.

(** 193-202, 218-227: the column of the pair (i,j) by running sums (imd_columns, C01) *)
Definition pair_col (i j : nat) : nat :=
  Z.to_nat (nth j (nth i (imd_columns (Z.of_nat n)) []) 0%Z).
(** the ordered pairs in the order of the loops *)
Definition cells : list (nat * nat) := flat_map (fun i => map (fun j => (i, j)) (seq 0 n)) (seq 0 n).
Definition dsquare (x : R) : R := x * x.

(** 203-214 *)
Definition r2begin_of (c : nat) : R :=
  if APOT then dsquare (if Req_EM_T plotmin 0 then 1 / 10 else plotmin)
  else dsquare (Rmax (begin (pt c) - extend * step (pt c)) 0).
Definition info_cell (col1 : nat -> nat -> nat) (s : lims * list (R * R * R)) (ij : nat * nat) : lims * list (R * R * R) :=
  let '(a, out) := s in
  let '(i, j) := ij in
  let c := col1 i j in
  let col2 := (i * n + j)%nat in
  let b := r2begin_of c in
  let e := dsquare (endr (pt c)) in
  let st := (e - b) / INR N in
  (mk_lims (setr (lb a) col2 b) (setr (le a) col2 e) (setr (ls a) col2 st), out ++ [(b, e, st)]).

(** 228-253: imdpotsteps values over r2, then 0.0 *)
Fixpoint samples (f : R -> R) (cnt : nat) (r2 dr : R) : list R :=
  match cnt with
  | O => []
  | S k => f r2 :: samples f k (r2 + dr) dr
  end.
(** 230-251: the value written for column c at distance r; [lin]: splint_ne_lin or splint_ne *)
Definition value (lin : bool) (c : nat) (r : R) : R :=
  if APOT then
    let temp := fv c r in
    if smooth c then temp * apot_cutoff r (aend c) (lastp c) else temp
  else if lin then splint_ne_lin (pt c) tab r else splint_ne (pt c) tab r.
Definition data_cell (lin : bool) (col1 : nat -> nat -> nat) (a : lims) (ij : nat * nat) : list R :=
  let '(i, j) := ij in
  let col2 := (i * n + j)%nat in
  samples (fun r2 => value lin (col1 i j) (sqrt r2)) N (lb a col2) (ls a col2) ++ [0].
(** a function of the distance for all ordered pairs: phi 180-258, rho 262-323, u 376-448,
    w 450-520, f of MEAM 524-595 *)
Definition radial (lin : bool) (col1 : nat -> nat -> nat) (a : lims) : file * lims :=
  let '(a', out) := fold_left (info_cell col1) cells (a, []) in
  (mk_file (n * n) out (map (data_cell lin col1 a') cells), a').

(** 332-348 *)
Definition line_cell (bounds : nat -> R * R) (s : lims * list (R * R * R)) (i : nat) : lims * list (R * R * R) :=
  let '(a, out) := s in
  let '(b, e) := bounds i in
  let st := (e - b) / INR N in
  (mk_lims (setr (lb a) i b) (setr (le a) i e) (setr (ls a) i st), out ++ [(b, e, st)]).
Definition embed_col (i : nat) : nat := ((n * (n + 3)) / 2 + i)%nat.
Definition embed_bounds (i : nat) : R * R :=
  let c := embed_col i in
  if APOT then (0, endr (pt c))
  else (begin (pt c) - extend * step (pt c), endr (pt c) + extend * step (pt c)).
(** 360-370; root (353-358) is not used *)
Definition embed_value (i : nat) (x : R) : R :=
  let c := embed_col i in
  if APOT then fv c x
  else
    let temp := splint_ne_lin (pt c) tab x in
    let temp2 := x - endr (pt c) in
    temp + (if Rlt_dec 0 temp2 then 500 * (temp2 * temp2 * temp2) else 0).
(** 325-374: imdpotsteps + 1 values *)
Definition embedding (a : lims) : file * lims :=
  let '(a', out) := fold_left (line_cell embed_bounds) (seq 0 n) (a, []) in
  (mk_file n out (map (fun i => samples (embed_value i) (S N) (lb a' i) (ls a' i)) (seq 0 n)), a').

(** ** g of MEAM, 597-631: splint_ne(&g_pot.calc_pot, pt->table, col1, r2).  calc_pot is opt_pot
    for tables (init_calc_table3, potential_input_f3.c:459-474; f4 the same); for analytic
    potentials it has columns of APOT_STEPS values of its own (init_calc_table0,
    potential_input_f0.c:943-988).  pt->table has [len] numbers; [None]: a read behind its end. *)
Variable len : nat.
Definition APOT_STEPS : nat := 500.
Definition calc_first (c : nat) : nat := (2 + c * (APOT_STEPS + 2))%nat.
Definition calc_col (c : nat) : column :=
  if APOT then
    let st := (endr (pt c) - begin (pt c)) / INR (APOT_STEPS - 1) in
    mk_col (begin (pt c)) (endr (pt c)) st (1 / st) (calc_first c) (calc_first c + (APOT_STEPS - 1))
      (fun k => begin (pt c) + INR (k - calc_first c) * st) (d2tab (pt c))
  else pt c.
(** pt->first and pt->len of analytic potentials, potential_input_f0.c:133-147; [npar]: apt->n_par *)
Fixpoint opt_first (npar : nat -> nat) (c : nat) : nat :=
  match c with
  | O => 2
  | S c' => opt_first npar c' + npar c' - 1 + 3
  end.
Definition opt_len (npar : nat -> nat) (number globals : nat) : nat :=
  (opt_first npar (number - 1) + npar (number - 1) + globals)%nat.
Definition read_spline (c : nat) (x : R) : option R :=
  let '(klo, khi) := ne_find (calc_col c) x in
  if (Nat.ltb klo len && Nat.ltb khi len)%bool then Some (splint_ne (calc_col c) tab x) else None.
Fixpoint g_samples (c cnt : nat) (x dx : R) : option (list R) :=
  match cnt with
  | O => Some []
  | S k => match read_spline c x, g_samples c k (x + dx) dx with Some v, Some l => Some (v :: l) | _, _ => None end
  end.
Definition g_col (i : nat) : nat := (n * (n + 3) + i)%nat.
Fixpoint g_blocks (a : lims) (is : list nat) : option (list (list R)) :=
  match is with
  | [] => Some []
  | i :: is' => match g_samples (g_col i) (S N) (lb a i) (ls a i), g_blocks a is' with Some b, Some l => Some (b :: l) | _, _ => None end
  end.
Definition angular (a : lims) : option (file * lims) :=
  let '(a', out) := fold_left (line_cell (fun i => (begin (pt (g_col i)), endr (pt (g_col i))))) (seq 0 n) (a, []) in
  match g_blocks a' (seq 0 n) with
  | Some d => Some (mk_file n out d, a')
  | None => None
  end.

(** ** All files, in the order of the code *)
Inductive kind := KPair | KEam | KAdp | KMeam.
Definition pairs : nat := Z.to_nat (paircol (Z.of_nat n)).      (* g_calc.paircol *)
Definition trans_col (i j : nat) : nat := ((n * (n + 1)) / 2 + j)%nat.
Definition u_col (i j : nat) : nat := (pair_col i j + (pairs + 2 * n))%nat.
Definition w_col (i j : nat) : nat := (pair_col i j + (2 * pairs + 2 * n))%nat.
Definition f_col (i j : nat) : nat := ((n * (n + 5)) / 2 + pair_col i j)%nat.
Definition write_imd (k : kind) (a : lims) : option (list (string * file)) :=
  let '(phi, a) := radial (match k with KMeam => true | _ => false end) pair_col a in
  match k with
  | KPair => Some [("phi"%string, phi)]
  | _ =>
      let '(rho, a) := radial true trans_col a in
      let '(F, a) := embedding a in
      let eam := [("phi"%string, phi); ("rho"%string, rho); ("F"%string, F)] in
      match k with
      | KAdp =>
          let '(u, a) := radial false u_col a in
          let '(w, a) := radial false w_col a in
          Some (eam ++ [("upot"%string, u); ("wpot"%string, w)])
      | KMeam =>
          let '(f, a) := radial true f_col a in
          match angular a with
          | Some (g, _) => Some (eam ++ [("f_meam"%string, f); ("g_meam"%string, g)])
          | None => None
          end
      | _ => Some eam
      end
  end.
End Tables.

(** ** Electrostatics, 633-720: the file _charges.imd.  [names], [values]: apot_table.names and
    .values, as long as they are allocated; [None]: read outside of an array. *)
Section Charges.
Variable n : nat.
Variables (charge : nat -> R) (last_charge : R).
Variable names : list string.
Variable number : nat.                       (* apt->number *)
Variable values : list (list R).
Variables (dp_cut kappa : R) (aend : nat -> R).
Record charges_file := mk_charges {
  w_charge : list R;
  w_kind : option string;                    (* "ms": ms_D, ms_gamma, ms_r0; "buck": a, sigma, c *)
  w_par : list (list R);
  w_ew_rcut : R; w_ew_kappa : R; w_r_cut : list R }.
(** 654-656, 667-669: names[0], names[1], names[2] with && *)
Fixpoint all_named (s : string) (is : list nat) : option bool :=
  match is with
  | [] => Some true
  | i :: is' => match nth_error names i with
                | None => None
                | Some x => if String.eqb x s then all_named s is' else Some false
                end
  end.
Fixpoint collect (l : list (option R)) : option (list R) :=
  match l with
  | [] => Some []
  | o :: l' => match o, collect l' with Some x, Some r => Some (x :: r) | _, _ => None end
  end.
(** values[i][k] for i < apt->number *)
Definition par_line (k : nat) : option (list R) :=
  collect (map (fun i => match nth_error values i with Some v => nth_error v k | None => None end) (seq 0 number)).
Definition write_charges : option charges_file :=
  let line := (map charge (seq 0 (n - 1)) ++ [last_charge])%list in
  let ncols := ((n * (n + 1)) / 2)%nat in
  let out kd ps := Some (mk_charges line kd ps dp_cut kappa (map (fun _ => aend 0%nat) (seq 0 ncols))) in
  let three kd := match par_line 0, par_line 1, par_line 2 with
                  | Some a, Some b, Some c => out (Some kd) [a; b; c]
                  | _, _, _ => None
                  end in
  match all_named "ms"%string [0; 1; 2]%nat with
  | None => None
  | Some true => three "ms"%string
  | Some false =>
      match all_named "buck"%string [0; 1; 2]%nat with
      | None => None
      | Some true => three "buck"%string
      | Some false => out None []
      end
  end.
End Charges.

(** ** Stillinger-Weber and Tersoff, 49-167: keywords and numbers *)
Section Parameters.
Variable n : nat.
Variable V : nat -> nat -> R.                (* apot_table.values *)
Variable number : nat.
Definition npairs : nat := Z.to_nat (paircol (Z.of_nat n)).
(** write_imd_data_pair, 728-737 *)
Definition pair_line (key : string) (offset y : nat) : string * list R :=
  (key, map (fun i => V (offset + i)%nat y) (seq 0 npairs)).
(** 96-115 *)
Definition la_line : string * list R :=
  ("stiweb_la"%string, flat_map (fun j => map (fun i => V (number - 1)%nat (i * npairs + j)%nat) (seq 0 n)) (seq 0 npairs)).
Definition write_sw : list (string * list R) :=
  [pair_line "stiweb_a"%string 0 0; pair_line "stiweb_b"%string 0 1; pair_line "stiweb_p"%string 0 2; pair_line "stiweb_q"%string 0 3;
   pair_line "stiweb_de"%string 0 4; pair_line "stiweb_a1"%string 0 5; pair_line "stiweb_ga"%string npairs 0; pair_line "stiweb_a2"%string npairs 1; la_line].
(** 120-145; the bound n(n-1)/2.0 is an integer *)
Definition mix_line (key : string) (y : nat) : string * list R :=
  (key, map (fun i => V (npairs + i)%nat y) (seq 0 (n * (n - 1) / 2))).
Definition write_ters : list (string * list R) :=
  [pair_line "ters_a"%string 0 0; pair_line "ters_b"%string 0 1; pair_line "ters_la"%string 0 2; pair_line "ters_mu"%string 0 3; pair_line "ters_ga"%string 0 4;
   pair_line "ters_n"%string 0 5; pair_line "ters_c"%string 0 6; pair_line "ters_d"%string 0 7; pair_line "ters_h"%string 0 8; pair_line "ters_r_cut"%string 0 9;
   pair_line "ters_r0"%string 0 10] ++
  (if Nat.ltb 1 n then [mix_line "ters_chi"%string 0; mix_line "ters_om"%string 1] else []).
(** 147-164 *)
Definition write_mod : list (string * list R) :=
  [pair_line "ters_a"%string 0 0; pair_line "ters_b"%string 0 1; pair_line "ters_la"%string 0 2; pair_line "ters_mu"%string 0 3; pair_line "ters_eta"%string 0 4;
   pair_line "ters_delta"%string 0 5; pair_line "ters_alpha"%string 0 6; pair_line "ters_beta"%string 0 7; pair_line "ters_c1"%string 0 8; pair_line "ters_c2"%string 0 9;
   pair_line "ters_c3"%string 0 10; pair_line "ters_c4"%string 0 11; pair_line "ters_c5"%string 0 12; pair_line "ters_h"%string 0 13; pair_line "ters_r0"%string 0 14;
   pair_line "ters_r_cut"%string 0 15].
End Parameters.
