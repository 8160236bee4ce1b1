(** Model of simulated annealing, src/simann.c.

    Doubles are exact rationals.  The cost function is arbitrary; it may depend on the
    table geometry [G] (sampling points of the embedding functions), which only rescaling
    changes.  Random numbers are an arbitrary source: the uniform/normal deviates of each
    move are arguments, and the Metropolis test eqdist() < exp((F-F_new)/T) is represented
    by its outcome.  Printing and the temp file are left out. *)
From Coq Require Import List Arith QArith Qabs Bool.
From Verif Require Import ListUtil DiffEvoModel.
Import ListNotations.
Local Open Scope nat_scope.

(** Which build: analytic/KIM, tabulated EAM/ADP-like, tabulated MEAM. *)
Inductive build := BApot | BTab | BMeam.

(** simann.c:44-51 *)
Definition NEPS := 4.
Definition NSTEP := 20.
Definition KMAX := 1000.

(** simann.c:78-95, bounded builds.  [us] are the uniform random numbers; the loop makes at
    most 10 attempts and keeps the last one. *)
Fixpoint try_move (x lo hi v : Q) (us : list Q) (last : Q) : Q :=
  match us with
  | [] => last
  | u :: us' =>
      let t := (x + (2 * u - 1) * v)%Q in
      if Qle_bool lo t && Qle_bool t hi then t else try_move x lo hi v us' t
  end.

(** simann.c:82-83 *)
Definition cap_step (v lo hi : Q) : Q := if qltb (hi - lo) v then (hi - lo)%Q else v.

(** simann.c:77-95 as a whole: the new value of the parameter. *)
Definition apot_move (x lo hi v : Q) (us : list Q) : Q :=
  try_move x lo hi (cap_step v lo hi) (firstn 10 us) 0%Q.

(** simann.c:105-114, tabulated potentials, one value of i.  The index array has a fixed
    allocation [idx]; only the first [ndim] entries are meaningful, the rest is zero
    (Malloc).  [None] is an access outside an array. *)
Definition tab_step (idx : list nat) (ndim first last n : nat) (amount : nat -> Q)
    (xi : option (list Q)) (i : nat) : option (list Q) :=
  match xi with
  | None => None
  | Some xi =>
    let up := if n + i <=? ndim then
        match nth_error idx (n + i) with
        | None => None
        | Some p => if p <=? last then
            match nth_error xi p with Some x => Some (upd xi p (x + amount i)%Q) | None => None end
            else Some xi
        end
      else Some xi in
    match up with
    | None => None
    | Some xi =>
      if i <=? n then
        match nth_error idx (n - i) with
        | None => None
        | Some p => if first <=? p then
            match nth_error xi p with Some x => Some (upd xi p (x + amount i)%Q) | None => None end
            else Some xi
        end
      else Some xi
    end
  end.

(** simann.c:105-114: [m] is the largest i with i <= 4*width; [amount i] is
    GAUSS(i/width)*height. *)
Definition tab_move (idx : list nat) (ndim first last n m : nat) (amount : nat -> Q)
    (xi : list Q) : option (list Q) :=
  fold_left (tab_step idx ndim first last n amount) (seq 0 (S m)) (Some xi).

Section Anneal.
Variable G : Type.
Variable bld : build.
Variable costf : G -> list Q -> Q.
Variable resc : option (G -> list Q -> option (G * list Q)).  (* RESCALE: rescale() *)
Variable ndim : nat.
Variable idxp : nat -> nat.        (* g_pot.opt_pot.idx *)
(** randomize_parameter(h, xi_new, v): new vector and new displacement vector, for the
    [k]-th move of the run *)
Variable move : nat -> nat -> list Q -> list Q -> list Q * list Q.
Variable accept : nat -> bool.     (* Metropolis test of the k-th move *)
Variable flag : nat -> nat -> bool. (* break flag file present after (loop, m) *)

Record sa := mk_sa {
  xi : list Q; fcur : Q; xi_opt : list Q; f_opt : Q; geo : G; geo_opt : G;
  disp : list Q; nacc : list nat; moves : nat;
  seen : list Q;              (* costs of all evaluations, newest first *)
  do_resc : bool }.

(** simann.c:329-374, one parameter. *)
Definition sa_param (s : sa) (h : nat) : sa :=
  let '(xn, v') := move (moves s) h (xi s) (disp s) in
  let fn := costf (geo s) xn in
  let na := upd (nacc s) h (S (nth h (nacc s) 0)) in
  if Qle_bool fn (fcur s) then
    let x' := match bld with BApot => upd (xi s) (idxp h) (nth (idxp h) xn 0%Q) | _ => xn end in
    if qltb fn (f_opt s) then
      mk_sa x' fn xn fn (geo s) (match bld with BMeam => geo s | _ => geo_opt s end)
            v' na (S (moves s)) (fn :: seen s) (do_resc s)
    else mk_sa x' fn (xi_opt s) (f_opt s) (geo s) (geo_opt s) v' na (S (moves s)) (fn :: seen s) (do_resc s)
  else if accept (moves s) then
    mk_sa xn fn (xi_opt s) (f_opt s) (geo s) (geo_opt s) v' na (S (moves s)) (fn :: seen s) (do_resc s)
  else mk_sa (xi s) (fcur s) (xi_opt s) (f_opt s) (geo s) (geo_opt s) v' (nacc s) (S (moves s))
             (fn :: seen s) (do_resc s).

(** simann.c:378-384 *)
Definition adjust1 (na : nat) (v : Q) : Q :=
  let r := (inject_Z (Z.of_nat na) / 20)%Q in
  if 12 <? na then (v * (1 + 2 * (r - (3#5)) / (2#5)))%Q
  else if na <? 8 then (v / (1 + 2 * ((2#5) - r) / (2#5)))%Q else v.
Definition adjust (s : sa) : sa :=
  mk_sa (xi s) (fcur s) (xi_opt s) (f_opt s) (geo s) (geo_opt s)
        (map (fun '(na, v) => adjust1 na v) (combine (nacc s) (disp s)))
        (map (fun _ => 0) (nacc s)) (moves s) (seen s) (do_resc s).

(** simann.c:410-421 *)
Definition rescale_step (m : nat) (s : sa) : sa :=
  match resc with
  | Some r => if ((m + 1) mod 10 =? 0) && do_resc s then
      match r (geo s) (xi s) with
      | Some (g', x') => mk_sa x' (costf g' x') (xi_opt s) (f_opt s) g' (geo_opt s) (disp s)
                               (nacc s) (moves s) (costf g' x' :: seen s) (do_resc s)
      | None => s
      end else s
  | None => s
  end.

(** simann.c:326-424: steps m, m+1, ... of one temperature; the flag tells whether the
    break file was found. *)
Fixpoint sa_temp (lc : nat) (todo m : nat) (s : sa) : sa * bool :=
  match todo with
  | 0 => (s, false)
  | S todo' =>
      let s1 := fold_left (fun s _ => fold_left sa_param (seq 0 ndim) s) (seq 0 NSTEP) s in
      let s2 := adjust s1 in
      if flag lc m then
        (mk_sa (xi_opt s2) (f_opt s2) (xi_opt s2) (f_opt s2) (geo s2) (geo_opt s2) (disp s2)
               (nacc s2) (moves s2) (seen s2) (do_resc s2), true)
      else sa_temp lc todo' (S m) (rescale_step m s2)
  end.

(** simann.c:427-463: backlog, decision to go on. *)
Definition sa_check (fold : list Q) (s : sa) : sa * list Q * bool :=
  let fold' := tl fold ++ [fcur s] in
  let eps := ((1#10) * fcur s * (1#100))%Q in
  let again := existsb (fun f => qltb eps (Qabs (fcur s - f))) (firstn (NEPS - 1) fold') in
  if negb again && qltb eps (fcur s - f_opt s) then
    let g' := match bld with BMeam => geo_opt s | _ => geo s end in
    let f' := match bld with BMeam => costf g' (xi_opt s) | _ => f_opt s end in
    (mk_sa (xi_opt s) f' (xi_opt s) (f_opt s) g' (geo_opt s) (disp s) (nacc s) (moves s)
           (match bld with BMeam => f' :: seen s | _ => seen s end)
           (match bld with BMeam => false | _ => do_resc s end), fold', true)
  else (s, fold', again).

(** simann.c:325-464: the do-while loop; [todo] bounds the number of temperatures, the
    result is [None] if the bound is reached with the loop still running. *)
Fixpoint sa_loop (todo lc : nat) (fold : list Q) (s : sa) : option sa :=
  match todo with
  | 0 => None
  | S todo' =>
      let '(s1, broken) := sa_temp lc (3 * ndim) 0 s in
      let lc' := S (if broken then S KMAX else lc) in
      let '(s2, fold', again) := sa_check fold s1 in
      if (lc' <? KMAX) && again then sa_loop todo' lc' fold' s2 else Some s2
  end.

(** simann.c:269-483 without the temperature determination: start geometry, start vector,
    result: geometry and vector left behind, last state. *)
Definition sa_init (g : G) (x : list Q) : sa :=
  mk_sa x (costf g x) x (costf g x) g g (repeat (1#10)%Q ndim) (repeat 0 ndim) 0 [costf g x] true.

Definition sa_run (g : G) (x : list Q) (todo : nat) : option (G * list Q * sa) :=
  match sa_loop todo 0 (repeat (costf g x) NEPS) (sa_init g x) with
  | None => None
  | Some s => Some (match bld with BMeam => geo_opt s | _ => geo s end, xi_opt s, s)
  end.

(** simann.c:148-161: the trial moves for the automatic start temperature; only the costs
    are used, the vector is not. *)
Definition auto_seen (n : nat) (which : nat -> nat) (g : G) (x v : list Q) : list Q :=
  map (fun e => costf g (fst (move e (which e) x v))) (seq 0 n).
End Anneal.
