(** Model of the library of analytic functions: functions_impl.c:51-720 (values),
    functions.itm:30-87 (names and numbers of parameters), functions.c:58-156 (table of
    functions, search by name, functions with a punishment) and functions.c:339-350
    (apot_gradient).

    Numbers are reals.  [pw] is pow (utils.c:78-99, LAPACK build); [p] is the array of the
    parameters.  The functions ms_value and buck_value of COULOMB builds are in FuncModel;
    here [Ms] and [Buck] are the ones behind RENAME_VALUE.  A function that does not write
    its result (lambda, tersoff_pot, tersoff_mix, tersoff_mod_pot) has the value [None].
    Division by zero is not an error here; theorems that need a divisor other than zero say
    so.  Memory of the table of functions is left out (C04). *)
From Coq Require Import Reals List Arith ZArith Bool String.
From Coq Require Import Ascii.
Import ListNotations.
Local Open Scope R_scope.

Inductive afun :=
  Lj | Eopp | Morse | Ms | Buck | MsEs | BuckEs | Born | Softshell | EoppExp | Meopp | Power | PowerDecay | ExpDecay | Bjs
  | Parabola | Harmonic | Acosharmonic | Csw | Universal | Const | Sqrt | MexpDecay | Strmm | DoubleMorse | DoubleExp
  | Poly5 | Kawamura | KawamuraMix | ExpPlus | Mishin | GenLj | Gljm | Vas | Vpair | Csw2 | ShengPhi1 | ShengPhi2 | ShengRho | ShengF
  | Stiweb2 | Stiweb3 | Lambda | TersoffPot | TersoffMix | TersoffModPot.

Section Values.
Variable pw : R -> R -> R.
(** ms_value and buck_value of COULOMB builds, see FuncModel *)
Variables ms_es buck_es : R -> (nat -> R) -> R.

(** 51-57 *)
Definition lj_value (r : R) (p : nat -> R) : R :=
  let x := (p 1%nat * p 1%nat) / (r * r) in
  let x := x * x * x in
  4 * p 0%nat * x * (x - 1).
(** 64-73 *)
Definition eopp_value (r : R) (p : nat -> R) : R :=
  p 0%nat / pw r (p 1%nat) + (p 2%nat / pw r (p 3%nat)) * cos (p 4%nat * r + p 5%nat).
(** 80-83 *)
Definition morse_value (r : R) (p : nat -> R) : R :=
  p 0%nat * (exp (- (2) * p 1%nat * (r - p 2%nat)) - 2 * exp (- p 1%nat * (r - p 2%nat))).
(** 121-126 *)
Definition ms_value (r : R) (p : nat -> R) : R :=
  let x := 1 - r / p 2%nat in
  p 0%nat * (exp (p 1%nat * x) - 2 * exp ((p 1%nat * x) / 2)).
(** 162-168 *)
Definition buck_value (r : R) (p : nat -> R) : R :=
  let x := (p 1%nat * p 1%nat) / (r * r) in
  let y := x * x * x in
  p 0%nat * exp (- r / p 1%nat) - p 2%nat * y.
(** 174-182 *)
Definition born_value (r : R) (p : nat -> R) : R :=
  let x := p 2%nat - r in
  let r2 := r * r in
  let r6 := r2 * r2 * r2 in
  let r8 := r6 * r2 in
  p 0%nat * exp (x / p 1%nat) - p 3%nat / r6 + p 4%nat / r8.
(** 189-194 *)
Definition softshell_value (r : R) (p : nat -> R) : R := pw (p 0%nat / r) (p 1%nat).
(** 201-208 *)
Definition eopp_exp_value (r : R) (p : nat -> R) : R :=
  p 0%nat * exp (- p 1%nat * r) + (p 2%nat / pw r (p 3%nat)) * cos (p 4%nat * r + p 5%nat).
(** 215-224 *)
Definition meopp_value (r : R) (p : nat -> R) : R :=
  p 0%nat / pw (r - p 6%nat) (p 1%nat) + (p 2%nat / pw r (p 3%nat)) * cos (p 4%nat * r + p 5%nat).
(** 231-238 *)
Definition power_value (r : R) (p : nat -> R) : R := p 0%nat * pw r (p 1%nat).
(** 245-252 *)
Definition power_decay_value (r : R) (p : nat -> R) : R := p 0%nat / pw r (p 1%nat).
(** 259-262 *)
Definition exp_decay_value (r : R) (p : nat -> R) : R := p 0%nat * exp (- p 1%nat * r).
(** 269-280 *)
Definition bjs_value (r : R) (p : nat -> R) : R :=
  if Req_EM_T r 0 then 0
  else p 0%nat * (1 - p 1%nat * ln r) * pw r (p 1%nat) + p 2%nat * r.
(** 287-290 *)
Definition parabola_value (r : R) (p : nat -> R) : R := (r * r) * p 0%nat + r * p 1%nat + p 2%nat.
(** 297-300 *)
Definition harmonic_value (r : R) (p : nat -> R) : R := p 0%nat * (r - p 1%nat) * (r - p 1%nat).
(** 307-312 *)
Definition acosharmonic_value (r : R) (p : nat -> R) : R :=
  let theta := acos r in p 0%nat * (theta - p 1%nat) * (theta - p 1%nat).
(** 319-326 *)
Definition csw_value (r : R) (p : nat -> R) : R :=
  (1 + p 0%nat * cos (p 2%nat * r) + p 1%nat * sin (p 2%nat * r)) / pw r (p 3%nat).
(** 333-340 *)
Definition csw2_value (r : R) (p : nat -> R) : R := (1 + p 0%nat * cos (p 1%nat * r + p 2%nat)) / pw r (p 3%nat).
(** 347-358 *)
Definition universal_value (r : R) (p : nat -> R) : R :=
  p 0%nat * (p 2%nat / (p 2%nat - p 1%nat) * pw r (p 1%nat) - p 1%nat / (p 2%nat - p 1%nat) * pw r (p 2%nat)) + p 3%nat * r.
(** 365 *)
Definition const_value (r : R) (p : nat -> R) : R := p 0%nat.
(** 371-374 *)
Definition sqrt_value (r : R) (p : nat -> R) : R := p 0%nat * sqrt (r / p 1%nat).
(** 381-384 *)
Definition mexp_decay_value (r : R) (p : nat -> R) : R := p 0%nat * exp (- p 1%nat * (r - p 2%nat)).
(** 391-397 *)
Definition strmm_value (r : R) (p : nat -> R) : R :=
  let r_0 := r - p 4%nat in
  2 * p 0%nat * exp (- p 1%nat / 2 * r_0) - p 2%nat * (1 + p 3%nat * r_0) * exp (- p 3%nat * r_0).
(** 404-410 *)
Definition double_morse_value (r : R) (p : nat -> R) : R :=
  (p 0%nat * (exp (- (2) * p 1%nat * (r - p 2%nat)) - 2 * exp (- p 1%nat * (r - p 2%nat))) +
   p 3%nat * (exp (- (2) * p 4%nat * (r - p 5%nat)) - 2 * exp (- p 4%nat * (r - p 5%nat)))) + p 6%nat.
(** 417-420 *)
Definition double_exp_value (r : R) (p : nat -> R) : R :=
  p 0%nat * exp (- p 1%nat * ((r - p 2%nat) * (r - p 2%nat))) + exp (- p 3%nat * (r - p 4%nat)).
(** 427-433 *)
Definition poly_5_value (r : R) (p : nat -> R) : R :=
  let dr := (r - 1) * (r - 1) in
  p 0%nat + 1 / 2 * p 1%nat * dr + p 2%nat * (r - 1) * dr + p 3%nat * (dr * dr) + p 4%nat * (dr * dr) * (r - 1).
(** 440-449 *)
Definition kawamura_value (r : R) (p : nat -> R) : R :=
  let r6 := r * r * r in
  let r6 := r6 * r6 in
  p 0%nat * p 1%nat / r + p 2%nat * (p 5%nat + p 6%nat) * exp ((p 3%nat + p 4%nat - r) / (p 5%nat + p 6%nat)) - p 7%nat * p 8%nat / r6.
(** 456-467 *)
Definition kawamura_mix_value (r : R) (p : nat -> R) : R :=
  let r6 := r * r * r in
  let r6 := r6 * r6 in
  p 0%nat * p 1%nat / r + p 2%nat * (p 5%nat + p 6%nat) * exp ((p 3%nat + p 4%nat - r) / (p 5%nat + p 6%nat)) - p 7%nat * p 8%nat / r6 +
  p 2%nat * p 9%nat * (exp (- (2) * p 10%nat * (r - p 11%nat)) - 2 * exp (- p 10%nat * (r - p 11%nat))).
(** 474-477 *)
Definition exp_plus_value (r : R) (p : nat -> R) : R := p 0%nat * exp (- p 1%nat * r) + p 2%nat.
(** 484-493 *)
Definition mishin_value (r : R) (p : nat -> R) : R :=
  let z := r - p 3%nat in
  let temp := exp (- p 5%nat * z) in
  p 0%nat * pw z (p 4%nat) * temp * (1 + p 1%nat * temp) + p 2%nat.
(** 500-509 *)
Definition gen_lj_value (r : R) (p : nat -> R) : R :=
  p 0%nat / (p 2%nat - p 1%nat) * (p 2%nat / pw (r / p 3%nat) (p 1%nat) - p 1%nat / pw (r / p 3%nat) (p 2%nat)) + p 4%nat.
(** 516-528 *)
Definition gljm_value (r : R) (p : nat -> R) : R :=
  let x2 := r - p 9%nat in
  let temp := exp (- p 11%nat * x2) in
  p 0%nat / (p 2%nat - p 1%nat) * (p 2%nat / pw (r / p 3%nat) (p 1%nat) - p 1%nat / pw (r / p 3%nat) (p 2%nat)) + p 4%nat +
  p 5%nat * (p 6%nat * pw x2 (p 10%nat) * temp * (1 + p 7%nat * temp) + p 8%nat).
(** 535-538 *)
Definition vas_value (r : R) (p : nat -> R) : R := exp (p 0%nat / (r - p 1%nat)).
(** 546-558 *)
Definition vpair_value (r : R) (p : nat -> R) : R :=
  let x := r * r in
  let x := x * x in
  144 / 10 * (p 0%nat / pw r (p 1%nat) -
    1 / 2 * (p 4%nat * p 3%nat * p 3%nat + p 5%nat * p 2%nat * p 2%nat / x) * exp (- r / p 6%nat)).
(** 565-571 *)
Definition sheng_phi1_value (r : R) (p : nat -> R) : R :=
  let y := r - p 4%nat in
  let z := - p 3%nat * y * y in
  p 0%nat * exp (- p 1%nat * r * r) + p 2%nat * exp z.
(** 578-584 *)
Definition sheng_phi2_value (r : R) (p : nat -> R) : R :=
  let y := r - p 3%nat in
  let z := p 2%nat * p 2%nat + y * y in
  p 0%nat * exp (- p 1%nat * r * r) + p 2%nat / z.
(** 591-604 *)
Definition sheng_rho_value (r : R) (p : nat -> R) : R :=
  let x := (p 4%nat * p 4%nat) / (r * r) in
  let x := x * x * x in
  if Rlt_dec (145 / 100) r then 4 * p 3%nat * x * (x - 1) else p 0%nat * pw r (p 1%nat) + p 2%nat.
(** 611-618 *)
Definition sheng_F_value (r : R) (p : nat -> R) : R := p 0%nat * pw r (p 1%nat) + p 2%nat * r + p 3%nat.
(** 626-635 *)
Definition stiweb_2_value (r : R) (p : nat -> R) : R :=
  (p 0%nat * pw r (- p 2%nat) - p 1%nat * pw r (- p 3%nat)) * exp (p 4%nat / (r - p 5%nat)).
(** 641-644 *)
Definition stiweb_3_value (r : R) (p : nat -> R) : R := exp (p 0%nat / (r - p 1%nat)).

(** the function pointers; 650-720: the last four do not write the result *)
Definition avalue (k : afun) (r : R) (p : nat -> R) : option R :=
  match k with
  | Lj => Some (lj_value r p) | Eopp => Some (eopp_value r p) | Morse => Some (morse_value r p) | Ms => Some (ms_value r p)
  | Buck => Some (buck_value r p) | MsEs => Some (ms_es r p) | BuckEs => Some (buck_es r p) | Born => Some (born_value r p)
  | Softshell => Some (softshell_value r p) | EoppExp => Some (eopp_exp_value r p) | Meopp => Some (meopp_value r p)
  | Power => Some (power_value r p) | PowerDecay => Some (power_decay_value r p) | ExpDecay => Some (exp_decay_value r p)
  | Bjs => Some (bjs_value r p) | Parabola => Some (parabola_value r p) | Harmonic => Some (harmonic_value r p)
  | Acosharmonic => Some (acosharmonic_value r p) | Csw => Some (csw_value r p) | Universal => Some (universal_value r p)
  | Const => Some (const_value r p) | Sqrt => Some (sqrt_value r p) | MexpDecay => Some (mexp_decay_value r p)
  | Strmm => Some (strmm_value r p) | DoubleMorse => Some (double_morse_value r p) | DoubleExp => Some (double_exp_value r p)
  | Poly5 => Some (poly_5_value r p) | Kawamura => Some (kawamura_value r p) | KawamuraMix => Some (kawamura_mix_value r p)
  | ExpPlus => Some (exp_plus_value r p) | Mishin => Some (mishin_value r p) | GenLj => Some (gen_lj_value r p)
  | Gljm => Some (gljm_value r p) | Vas => Some (vas_value r p) | Vpair => Some (vpair_value r p) | Csw2 => Some (csw2_value r p)
  | ShengPhi1 => Some (sheng_phi1_value r p) | ShengPhi2 => Some (sheng_phi2_value r p) | ShengRho => Some (sheng_rho_value r p)
  | ShengF => Some (sheng_F_value r p) | Stiweb2 => Some (stiweb_2_value r p) | Stiweb3 => Some (stiweb_3_value r p)
  | Lambda | TersoffPot | TersoffMix | TersoffModPot => None
  end.
End Values.

(** ** apot_gradient, functions.c:339-350; [f] is the function with its parameters *)
Definition apot_gradient (r : R) (f : R -> R) : R :=
  let h := 1 / 10000 in
  (f (r + h) - f (r - h)) / (2 * h).

(** ** the table of functions, functions.itm:30-87, in the order of the file *)
Local Open Scope string_scope.
Record abuild := mk_abuild { COULOMB : bool; STIWEB : bool; TERSOFF : bool; TERSOFFMOD : bool; ntypes : nat }.
Definition entry := (string * nat * afun)%type.
Definition function_list (b : abuild) : list entry :=
  [("lj", 2, Lj); ("eopp", 6, Eopp); ("morse", 3, Morse);
   ("ms", 3, if COULOMB b then MsEs else Ms); ("buck", 3, if COULOMB b then BuckEs else Buck)]%nat ++
  (if COULOMB b then [("ms_non_es", 3, Ms); ("buck_non_es", 3, Buck)]%nat else []) ++
  [("born", 5, Born); ("softshell", 2, Softshell); ("eopp_exp", 6, EoppExp); ("meopp", 7, Meopp); ("power", 2, Power);
   ("power_decay", 2, PowerDecay); ("exp_decay", 2, ExpDecay); ("bjs", 3, Bjs); ("parabola", 3, Parabola);
   ("harmonic", 2, Harmonic); ("acosharmonic", 2, Acosharmonic); ("csw", 4, Csw); ("universal", 4, Universal);
   ("const", 1, Const); ("sqrt", 2, Sqrt); ("mexp_decay", 3, MexpDecay); ("strmm", 5, Strmm); ("double_morse", 7, DoubleMorse);
   ("double_exp", 5, DoubleExp); ("poly_5", 5, Poly5); ("kawamura", 9, Kawamura); ("kawamura_mix", 12, KawamuraMix);
   ("exp_plus", 3, ExpPlus); ("mishin", 6, Mishin); ("gen_lj", 5, GenLj); ("gljm", 12, Gljm); ("vas", 2, Vas);
   ("vpair", 7, Vpair); ("csw2", 4, Csw2); ("sheng_phi1", 5, ShengPhi1); ("sheng_phi2", 4, ShengPhi2);
   ("sheng_rho", 5, ShengRho); ("sheng_F", 4, ShengF)]%nat ++
  (if STIWEB b then [("stiweb_2", 6, Stiweb2); ("stiweb_3", 2, Stiweb3); ("lambda", ntypes b * ntypes b * (ntypes b + 1) / 2, Lambda)]%nat else []) ++
  (if TERSOFF b then if TERSOFFMOD b then [("tersoff_mod_pot", 16, TersoffModPot)]%nat
                     else [("tersoff_pot", 11, TersoffPot); ("tersoff_mix", 2, TersoffMix)]%nat else []).

(** add_potential, functions.c:76-101: [None] is the error for a name in use *)
Definition add_potential (t : list entry) (e : entry) : option (list entry) :=
  if existsb (fun x => String.eqb (fst (fst x)) (fst (fst e))) t then None else Some (t ++ [e])%list.
(** initialize_analytic_potentials, functions.c:58-70 *)
Fixpoint add_all (l t : list entry) : option (list entry) :=
  match l with
  | [] => Some t
  | e :: l => match add_potential t e with None => None | Some t => add_all l t end
  end.
Definition initialize_analytic_potentials (b : abuild) : option (list entry) := add_all (function_list b) [].
(** apot_get_num_parameters, functions.c:108-117 *)
Fixpoint apot_get_num_parameters (t : list entry) (name : string) : Z :=
  match t with
  | [] => (-1)%Z
  | (n, k, _) :: t => if String.eqb n name then Z.of_nat k else apot_get_num_parameters t name
  end.
(** inner loop of apot_assign_function_pointers, functions.c:124-137 *)
Fixpoint function_pointer (t : list entry) (name : string) : option afun :=
  match t with
  | [] => None
  | (n, _, f) :: t => if String.eqb n name then Some f else function_pointer t name
  end.
(** apot_assign_punish_functions, functions.c:145-162, strncmp with 4 and 9 characters: the
    potentials with a punishment for eopp and those with one for universal *)
Definition starts (s name : string) : bool := String.eqb (substring 0 (String.length s) name) s.
Fixpoint punish_indices (names : list string) (i : nat) (eopp univ : list nat) : list nat * list nat :=
  match names with
  | [] => (eopp, univ)
  | n :: names =>
      if starts "eopp" n then punish_indices names (S i) (eopp ++ [i])%list univ
      else if starts "universal" n then punish_indices names (S i) eopp (univ ++ [i])%list
      else punish_indices names (S i) eopp univ
  end.
(** apot_assign_function_pointers, functions.c:123-138; [None]: returns -1 *)
Fixpoint assign_pointers (t : list entry) (names : list string) : option (list afun) :=
  match names with
  | [] => Some []
  | n :: names =>
      match function_pointer t n with
      | None => None
      | Some f => match assign_pointers t names with None => None | Some l => Some (f :: l) end
      end
  end.
