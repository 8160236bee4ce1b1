(** The run of the program from the optimisation to the end potential: potfit.c:117-140 (main),
    optimize.c:39-58 (run_optimization), and in the optimisers every statement that changes
    opt_pot.table as a whole or apot_table.values.

    What the optimisers find is arbitrary: the vectors of improvements and the result are
    arguments.  calc_forces gives the error sum and the vector it leaves (apot_check_params
    normalises it).  Copying of table entries inside differential evolution with tabulated
    potentials (diff_evo.c:441) is left out; xi is overwritten at the end (506). *)
From Coq Require Import Reals ZArith List Bool.
From Verif Require Import ApotModel.
Import ListNotations.
Local Open Scope R_scope.

Definition vec := Z -> R.
Definition values := nat -> nat -> R.
Inductive method := SA | EVO.          (* EVO defined or not *)
Inductive pot_kind := KApot | KTab.
(** what a global search does: [None]: temperature or threshold zero; otherwise the vector at
    each improvement and the best one *)
Definition search := option (list vec * vec).
Record inputs := mk_in {
  i_opt : bool;                        (* opt = 1 and ndim > 0 *)
  i_method : method;
  i_tempfile : bool;                   (* a temp file is configured *)
  i_search : search;
  i_steps : list vec;                  (* least squares: vector at the end of each loop ... *)
  i_final : vec }.                     (* ... and of the last *)
Record state := mk_st { s_tab : vec; s_vals : values }.

Section Run.
Variable kind : pot_kind.
Variable a : apot.
Variable l : layout.
Variable cf : vec -> R * vec.
Definition upd (x : vec) (v : values) : values := match kind with KApot => update_apot_table a l x v | KTab => v end.
(** diff_evo.c:434-439: only the free parameters *)
Definition upd_free (x : vec) (v : values) : values :=
  match kind with
  | KApot => fold_left (fun (v : values) (t : nat * nat * nat) => fun i' j' =>
      if (Nat.eqb i' (snd (fst t)) && Nat.eqb j' (snd t))%bool then x (Z.of_nat (fst (fst t))) else v i' j') (l_idx l) v
  | KTab => v
  end.
Definition when (b : bool) (f : values -> values) (v : values) : values := if b then f v else v.

(** simann.c:269-483: first evaluation 309, T == 0 317, improvements 363-369, end 466-482 *)
Definition simulated_annealing (i : inputs) (s : state) : state :=
  let x := snd (cf (s_tab s)) in
  match i_search i with
  | None => mk_st x (s_vals s)
  | Some (evs, best) =>
      mk_st best (when (i_tempfile i) (fun v => upd best (fold_left (fun v e => upd e v) evs v)) (s_vals s))
  end.
(** diff_evo.c:276-508: evo_threshold == 0 294, improvements 431-446, end 506 *)
Definition differential_evolution (i : inputs) (s : state) : state :=
  match i_search i with
  | None => s
  | Some (evs, best) => mk_st best (when (i_tempfile i) (fun v => fold_left (fun v e => upd_free e v) evs v) (s_vals s))
  end.
(** powell_lsq.c:79-380: first evaluation 131, too small 133-136, temp file 349-356, end 375 *)
Definition VERY_SMALL : R := / 1000000000000.
Definition powell (i : inputs) (s : state) : state :=
  let '(F1, x) := cf (s_tab s) in
  if Rlt_dec F1 VERY_SMALL then mk_st x (s_vals s)
  else mk_st (i_final i) (upd (i_final i) (when (i_tempfile i) (fun v => fold_left (fun v e => upd e v) (i_steps i) v) (s_vals s))).
Definition run_optimization (i : inputs) (s : state) : state :=
  powell i (match i_method i with SA => simulated_annealing i s | EVO => differential_evolution i s end).
(** main, 117-140: error sum reported, table and values written to the end potential *)
Definition main_run (i : inputs) (s : state) : R * vec * values :=
  let s1 := if i_opt i then run_optimization i s else s in
  let '(tot, x) := cf (s_tab s1) in
  (tot, x, s_vals s1).
End Run.
