(** Model of the least squares optimiser, src/powell_lsq.c.

    Doubles are exact rationals.  [calc_forces] is an arbitrary function of the parameter
    vector (cost and deviation vector); the square root and the LAPACK solver dsysvx are
    arbitrary functions ([rt], [solve]), as is the answer to "does the flag file exist".
    Matrices are functions of row and column, deviation vectors functions of the index.
    Left out: printing, temp file, the last-resort rescaling at 156-168 (builds with
    RESCALE only; without it the code breaks out of the outer loop, as here). *)
From Coq Require Import List Arith QArith Qabs Bool.
From Verif Require Import ListUtil DiffEvoModel LineMinModel.
Import ListNotations.
Local Open Scope Q_scope.

(** powell_lsq.c:61-65 *)
Definition EPS : Q := 1 # 1000.
Definition PRECISION : Q := 1 # 10000000.
Definition VERY_SMALL : Q := 1 # 1000000000000.
Definition INNERLOOPS : nat := 801.
Definition TOOBIG : Q := 10000.

Definition vec := nat -> Q.
Definition mat := nat -> nat -> Q.
Definition setv (v : vec) (i : nat) (x : Q) : vec := fun k => if (k =? i)%nat then x else v k.
Definition setm (a : mat) (i j : nat) (x : Q) : mat :=
  fun r c => if (r =? i)%nat && (c =? j)%nat then x else a r c.

(** for (i = lo; i < hi; i++) s = body(i, s) *)
Definition loop {S : Type} (lo hi : nat) (body : nat -> S -> S) (s : S) : S :=
  fold_left (fun s i => body i s) (seq lo (hi - lo)) s.

(** ** lineqsys_init, powell_lsq.c:491-515 *)
Definition lineqsys_init (gamma : mat) (f : vec) (n m : nat) (A : mat) (p : vec) : mat * vec :=
  let p' := loop 0 n (fun i p =>
              loop 0 m (fun j p => setv p i (p i - gamma j i * f j)) (setv p i 0)) p in
  let A' := loop 0 n (fun i A =>
              let A1 := setm A i i 0 in
              let A2 := loop 0 m (fun j A => setm A i i (A i i + gamma j i * gamma j i)) A1 in
              loop (S i) n (fun k A =>
                let A3 := setm A i k 0 in
                let A4 := loop 0 m (fun j A => setm A i k (A i k + gamma j i * gamma j k)) A3 in
                setm A4 k i (A4 i k)) A2) A in
  (A', p').

(** ** lineqsys_update, powell_lsq.c:524-538 *)
Definition lineqsys_update (gamma : mat) (f : vec) (i n m : nat) (A : mat) (p : vec) : mat * vec :=
  loop 0 n (fun k '(A, p) =>
    let p1 := setv p k 0 in
    let A1 := setm A i k 0 in
    let '(A2, p2) := loop 0 m (fun j '(A, p) =>
        (setm A i k (A i k + gamma j i * gamma j k), setv p k (p k - gamma j k * f j))) (A1, p1) in
    (setm A2 k i (A2 i k), p2)) (A, p).

Section Powell.
Variable rt : Q -> Q.                         (* sqrt *)
Variable mdim : nat.
Variable idx : list nat.                      (* g_pot.opt_pot.idx *)
Variable bounded : bool.                      (* APOT or KIM *)
Variables pmin pmax : nat -> Q.               (* bounds of the i-th free parameter *)
Variable maxchange : nat -> option Q.         (* limit when usemaxch is set, by parameter index *)
Variable costf : list Q -> Q.
Variable devf : list Q -> vec.

Definition ndim : nat := length idx.
Definition ix (i : nat) : nat := nth i idx O.

(** ** gamma_init, powell_lsq.c:390-440.  Returns gamma, d, xi and 0 or 1 + the column that
    vanished.  The loop stops there. *)
Definition scale (i : nat) : Q := if bounded then pmax i - pmin i else 1.
Definition gi_column (force force_xi : vec) (i : nat) (gamma : mat) : mat * Q :=
  loop 0 mdim (fun j '(g, sum) =>
    let temp := (force j - force_xi j) / (EPS * scale i) in
    (setm g j i temp, sum + temp * temp)) (gamma, 0).
Fixpoint gamma_init_loop (cols : list nat) (gamma d : mat) (xi : list Q) (force_xi : vec)
  : mat * mat * list Q * nat :=
  match cols with
  | [] => (gamma, d, xi, O)
  | i :: rest =>
      let store := nth (ix i) xi 0 in
      let xi1 := upd xi (ix i) (store + EPS * scale i) in
      let force := devf xi1 in
      let '(g1, sum) := gi_column force force_xi i gamma in
      let temp := rt sum in
      let xi2 := upd xi1 (ix i) store in
      if qltb VERY_SMALL temp then
        let g2 := loop 0 mdim (fun j g => setm g j i (g j i / temp)) g1 in
        gamma_init_loop rest g2 (setm d i i (d i i / temp)) xi2 force_xi
      else (g1, d, xi2, S i)
  end.
Definition unit_mat : mat := fun i j => if (i =? j)%nat then 1 else 0.
Definition gamma_init (gamma : mat) (xi : list Q) (force_xi : vec) : mat * mat * list Q * nat :=
  gamma_init_loop (seq 0 ndim) gamma unit_mat xi force_xi.

(** ** gamma_update, powell_lsq.c:450-482; [None]: the column vanishes.  For a = b or
    fmin = 0 the C code computes with NaN, the comparison at 473 is false and the result is
    the same as for a vanishing column. *)
Definition gamma_update (gamma : mat) (a b : Q) (fa fb : vec) (delta : list Q) (j : nat) (fmin : Q)
  : option (mat * list Q) :=
  if Qeq_bool a b || Qeq_bool fmin 0 then None else
  let '(g1, mu0) := loop 0 mdim (fun i '(g, mu) =>
      let temp := (fa i - fb i) / (a - b) in (setm g i j temp, mu + temp * fa i)) (gamma, 0) in
  let mu := mu0 / fmin in
  let '(g2, sum) := loop 0 mdim (fun i '(g, sum) =>
      let temp := g i j - mu * fa i in (setm g i j temp, sum + temp * temp)) (g1, 0) in
  let temp := rt sum in
  if qltb VERY_SMALL temp then
    Some (loop 0 mdim (fun i g => setm g i j (g i j / temp)) g2, map (fun x => x / temp) delta)
  else None.

(** ** (b) powell_lsq.c:226-249: the step; the flag is set when a component is out of range *)
Definition step_dir (d : mat) (q : vec) (xi delta : list Q) : list Q * bool :=
  loop 0 ndim (fun i '(delta, flag) =>
    let v := loop 0 ndim (fun j acc => acc + d i j * q j) 0 in
    let x := nth (ix i) xi 0 in
    if bounded then
      let v1 := if qltb (x + v) (pmin i) then pmin i - x else v in
      let v2 := if qltb (pmax i) (x + v1) then pmax i - x else v1 in
      (upd delta (ix i) v2, flag)
    else
      (upd delta (ix i) v,
       flag || match maxchange (ix i) with
               | Some c => qltb 0 c && qltb c (Qabs v)
               | None => false
               end)) (delta, false).

(** (e) powell_lsq.c:272-281 *)
Definition best_dir (p q : vec) : nat :=
  fst (loop 0 ndim (fun i '(j, t2) =>
    let t := Qabs (p i * q i) in if qltb t2 t then (i, t) else (j, t2)) (O, 0)).

(** Answers of dsysvx: info, solution, error estimates. *)
Record answer := mk_answer { info : nat; sol : vec; ferror : Q; berror : Q }.
Variable solve : mat -> vec -> answer.

(** Variables of run_powell_lsq that live across iterations. *)
Record state := mk_state {
  xi : list Q; f1 : Q; buf : mem vec;        (* buffers forces_1 (B1) and forces_2 (B2) *)
  gam : mat; dir : mat; les : mat; rhs : vec; delta : list Q; steps : nat }.

(** One pass of the inner loop, powell_lsq.c:204-306. [Abort]: error exit in the line
    search; [Broken]: left by break; [Ended]: left by the condition at 305-306. *)
Inductive pass := Broken (s : state) | Ended (s : state) | Abort | Again (s : state).
Definition inner_pass (s : state) : pass :=
    let ans := solve (les s) (rhs s) in
    let q := sol ans in
    if (0 <? info ans)%nat && (info ans <=? ndim)%nat then Broken s else
    let '(del, flag) := step_dir (dir s) q (xi s) (delta s) in
    if flag then Broken (mk_state (xi s) (f1 s) (buf s) (gam s) (dir s) (les s) (rhs s) del (steps s)) else
    let delta_norm := del in
    let F2 := f1 s in
    match linmin vec costf devf (xi s) del (f1 s) (buf s) with
    | None => Abort
    | Some (xi', del', F1, x1, x2, b') =>
      let s1 := mk_state xi' F1 b' (gam s) (dir s) (les s) (rhs s) del' (steps s) in
      if qltb 1 (ferror ans + berror ans) && (5 <? steps s)%nat then Broken s1 else
      let j := best_dir (rhs s) q in
      match gamma_update (gam s) x1 x2 (b' B1) (b' B2) delta_norm j F1 with
      | None => Broken s1
      | Some (g', dn') =>
        let d' := loop 0 ndim (fun i d => setm d i j (nth (ix i) dn' 0)) (dir s) in
        let '(A', p') := lineqsys_update g' (b' B1) j ndim mdim (les s) (rhs s) in
        let s2 := mk_state xi' F1 b' g' d' A' p' del' (S (steps s)) in
        let df := F2 - F1 in
        if ((S (steps s) <? ndim)%nat || ((S (steps s) <=? INNERLOOPS)%nat && qltb PRECISION df))
           && qltb df TOOBIG
        then Again s2 else Ended s2
      end
    end.
Inductive inner_end := Left (s : state) | InnerAbort | OutOfFuel.
Fixpoint inner (fuel : nat) (s : state) : inner_end :=
  match fuel with
  | O => OutOfFuel
  | S fuel' =>
    match inner_pass s with
    | Broken s' | Ended s' => Left s'
    | Abort => InnerAbort
    | Again s' => inner fuel' s'
    end
  end.

(** Begin of an outer iteration, powell_lsq.c:151-201; inr: cost does not depend on a
    parameter, the loop is left. *)
Definition outer_begin (s : state) : state + state :=
    let '(g, d, x, i) := gamma_init (gam s) (xi s) (buf s B2) in
    if (0 <? i)%nat then
      inr (mk_state x (f1 s) (buf s) g d (les s) (rhs s) (delta s) O)
    else
      let '(A, p) := lineqsys_init g (buf s B1) ndim mdim (les s) (rhs s) in
      inl (mk_state x (f1 s) (buf s) g d A p (delta s) O).

Variable flagfile : nat -> bool.              (* exists after the n-th outer iteration *)
Variable d_eps : Q.                           (* g_calc.d_eps *)

(** Result of the optimiser, with the cost at the start of the outer iterations that were
    followed by another one (newest first). *)
Inductive outcome := Final (s : state) (log : list (Q * Q)) | ErrorExit | NoEnd.

(** Outer loop, powell_lsq.c:149-361.  Inner loop: at most max(ndim, INNERLOOPS + 1) passes. *)
Definition inner_fuel : nat := S (max ndim (S INNERLOOPS)).
Definition outer_again (F3 F1 : Q) : bool :=
  (qltb (PRECISION / 10) (F3 - F1) || qltb (F3 - F1) 0) && qltb d_eps (F3 - F1).
Fixpoint outer (fuel n : nat) (s : state) (log : list (Q * Q)) : outcome :=
  match fuel with
  | O => NoEnd
  | S fuel' =>
    match outer_begin s with
    | inr s' => Final s' log
    | inl s0 =>
      match inner inner_fuel s0 with
      | InnerAbort => ErrorExit
      | OutOfFuel => NoEnd
      | Left s' =>
        if flagfile n then Final s' log else
        if outer_again (f1 s) (f1 s')
        then outer fuel' (S n) s' ((f1 s, f1 s') :: log)
        else Final s' log
      end
    end
  end.

(** powell_lsq.c:80-138 *)
Definition zero_vec : vec := fun _ => 0.
Definition zero_mat : mat := fun _ _ => 0.
Definition start (x : list Q) : state :=
  mk_state x (costf x) (fun _ => devf x) zero_mat zero_mat zero_mat zero_vec
           (map (fun _ => 0) x) O.
Definition run_powell_lsq (fuel : nat) (x : list Q) : outcome :=
  if qltb (costf x) VERY_SMALL then Final (start x) []
  else outer fuel O (start x) [].
End Powell.
