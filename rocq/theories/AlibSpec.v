(** Names of the analytic functions, and the numbers of their parameters, as in the
    documentation of potfit. *)
From Coq Require Import String Arith.
From Verif Require Import AlibModel.
Local Open Scope string_scope.

Definition documented (n : nat) (f : afun) : string * nat :=
  match f with
  | Lj => ("lj", 2) | Eopp => ("eopp", 6) | Morse => ("morse", 3) | Ms => ("ms", 3) | Buck => ("buck", 3)
  | MsEs => ("ms", 3) | BuckEs => ("buck", 3) | Born => ("born", 5) | Softshell => ("softshell", 2)
  | EoppExp => ("eopp_exp", 6) | Meopp => ("meopp", 7) | Power => ("power", 2) | PowerDecay => ("power_decay", 2)
  | ExpDecay => ("exp_decay", 2) | Bjs => ("bjs", 3) | Parabola => ("parabola", 3) | Harmonic => ("harmonic", 2)
  | Acosharmonic => ("acosharmonic", 2) | Csw => ("csw", 4) | Universal => ("universal", 4) | Const => ("const", 1)
  | Sqrt => ("sqrt", 2) | MexpDecay => ("mexp_decay", 3) | Strmm => ("strmm", 5) | DoubleMorse => ("double_morse", 7)
  | DoubleExp => ("double_exp", 5) | Poly5 => ("poly_5", 5) | Kawamura => ("kawamura", 9)
  | KawamuraMix => ("kawamura_mix", 12) | ExpPlus => ("exp_plus", 3) | Mishin => ("mishin", 6) | GenLj => ("gen_lj", 5)
  | Gljm => ("gljm", 12) | Vas => ("vas", 2) | Vpair => ("vpair", 7) | Csw2 => ("csw2", 4)
  | ShengPhi1 => ("sheng_phi1", 5) | ShengPhi2 => ("sheng_phi2", 4) | ShengRho => ("sheng_rho", 5) | ShengF => ("sheng_F", 4)
  | Stiweb2 => ("stiweb_2", 6) | Stiweb3 => ("stiweb_3", 2) | Lambda => ("lambda", n * (n * (n + 1) / 2))
  | TersoffPot => ("tersoff_pot", 11) | TersoffMix => ("tersoff_mix", 2) | TersoffModPot => ("tersoff_mod_pot", 16)
  end%nat.
(** the two functions with a name of their own in builds with charges *)
Definition without_charges (f : afun) : option string :=
  match f with Ms => Some "ms_non_es" | Buck => Some "buck_non_es" | _ => None end.
