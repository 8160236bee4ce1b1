(** Model of the line search: src/bracket.c, src/brent.c, src/linmin.c.

    Doubles are exact rationals (no rounding, no NaN); Qred only keeps fractions in lowest
    terms.  [cost x] and [dev x] are the cost
    and the deviation vector at position x on the line, i.e. the two results of
    calc_forces(xicom + x*delcom, p, 0).  The deviation vector buffers and the pointers
    that are exchanged between them are modelled explicitly.  [None]/[Fail] is the
    program end through error(1, ...). *)
From Coq Require Import List Arith QArith Qabs Bool.
From Verif Require Import ListUtil DiffEvoModel.
Import ListNotations.
Local Open Scope Q_scope.

(** bracket.h:27-33 *)
Definition CGOLD : Q := 3819660 # 10000000.
Definition MAX_IT : nat := 100.
Definition ITMAX : nat := 100.
Definition ZEPS : Q := 1 # 1000000000.
(** linmin.c:43 *)
Definition TOL : Q := 1 # 10.

(** The three buffers a pointer can point to: the first and second one handed over by the
    caller, and the static one of the function. *)
Inductive buf := B1 | B2 | B3.
Definition buf_eqb (a b : buf) : bool :=
  match a, b with B1, B1 | B2, B2 | B3, B3 => true | _, _ => false end.

Section Line.
Variable V : Type.
Variable cost : Q -> Q.
Variable dev : Q -> V.

Definition mem := buf -> V.
Definition store (m : mem) (p : buf) (v : V) : mem := fun q => if buf_eqb q p then v else m q.

(** ** bracket.c *)
Record br := mk_br {
  xl : Q; xc : Q; xr : Q; fl : Q; fc : Q; fr : Q;
  pl : buf; pc : buf; pr : buf; bmem : mem; lastdir : nat; neval : nat }.

(** bracket.c:67-89 *)
Definition br_start (x1 x2 f1 f2 : Q) (m : mem) : br :=
  if Qle_bool f1 f2 then          (* f_right >= f_left *)
    let x := Qred (- (x2 - x1) / CGOLD + x2) in
    mk_br x x1 x2 (cost x) f1 f2 B3 B1 B2 (store m B3 (dev x)) 0 1
  else
    let x := Qred ((x2 - x1) / CGOLD + x1) in
    mk_br x1 x2 x f1 f2 (cost x) B1 B2 B3 (store m B3 (dev x)) 0 1.

(** bracket.c:106-116 and 162-172: center becomes left, right becomes center. *)
Definition go_right (s : br) : br :=
  let x := Qred ((xr s - xc s) / CGOLD + xc s) in
  (* SWAP(p_left,p_center); SWAP(p_center,p_right): right points to the old left buffer *)
  mk_br (xc s) (xr s) x (fc s) (fr s) (cost x) (pc s) (pr s) (pl s)
        (store (bmem s) (pl s) (dev x)) (lastdir s) (S (neval s)).

(** bracket.c:135-145 *)
Definition go_left (s : br) : br :=
  let x := Qred (- (xc s - xl s) / CGOLD + xc s) in
  mk_br x (xl s) (xc s) (cost x) (fl s) (fc s) (pr s) (pl s) (pc s)
        (store (bmem s) (pr s) (dev x)) (lastdir s) (S (neval s)).

(** bracket.c:125-130, 194-199: only the right point is moved. *)
Definition move_right (x : Q) (last : nat) (s : br) : br :=
  mk_br (xl s) (xc s) x (fl s) (fc s) (cost x) (pl s) (pc s) (pr s)
        (store (bmem s) (pr s) (dev x)) last (S (neval s)).

(** bracket.c:154-159, 182-187 *)
Definition move_left (x : Q) (last : nat) (s : br) : br :=
  mk_br x (xc s) (xr s) (cost x) (fc s) (fr s) (pl s) (pc s) (pr s)
        (store (bmem s) (pl s) (dev x)) last (S (neval s)).

(** bracket.c:92-202: one pass; [inl] = success. *)
Definition br_step (s : br) : br + br :=
  if qltb (fc s) (fl s) then
    if qltb (fc s) (fr s) then inl s
    else if qltb (fr s) (fc s) then inr (go_right s)
    else inr (move_right ((xr s - xl s) * CGOLD + xr s) 1 s)
  else if qltb (fl s) (fc s) then inr (go_left s)
  else if qltb (fc s) (fr s) then inr (move_left (- (xr s - xl s) * CGOLD + xl s) 2 s)
  else if qltb (fr s) (fc s) then inr (go_right s)
  else if (lastdir s =? 2)%nat then inr (move_left (- (xr s - xl s) / CGOLD + xl s) 1 s)
  else inr (move_right ((xr s - xl s) / CGOLD + xr s) 2 s).

(** bracket.c:91-203: the do-while loop ends when nb_eval reaches MAX_IT. *)
Fixpoint br_loop (fuel : nat) (s : br) : option br :=
  match fuel with
  | 0%nat => None
  | S fuel' =>
      match br_step s with
      | inl s' => Some s'
      | inr s' => if (neval s' <? MAX_IT)%nat then br_loop fuel' s' else None
      end
  end.

(** bracket.c:38-211; the memory returned has the center vector copied to the first buffer
    (101-102). *)
Definition bracket (x1 x2 f1 f2 : Q) (m : mem) : option (br * mem) :=
  match br_loop MAX_IT (br_start x1 x2 f1 f2 m) with
  | None => None
  | Some s => Some (s, store (bmem s) B1 (bmem s (pc s)))
  end.

(** ** brent.c *)
Record bt := mk_bt {
  lo : Q; hi : Q; z : Q; w : Q; v : Q; fz : Q; fw : Q; fv : Q; ed : Q; dd : Q;
  pz : buf; pw : buf; pu : buf; tmem : mem; pts : list Q  (* points evaluated *) }.

(** brent.c:72-84 *)
Definition bt_start (a b c fb : Q) (m : mem) : bt :=
  let l := if qltb a c then a else c in
  let r := if qltb c a then a else c in
  let x := Qred (l + CGOLD * (r - l)) in
  mk_bt l r b x x fb (cost x) (cost x) 0 0 B1 B2 B3 (store m B2 (dev x)) [x].

Definition mid (s : bt) : Q := (1#2) * (lo s + hi s).
Definition tolr (tol : Q) (s : bt) : Q := tol * Qabs (z s) + ZEPS.

(** brent.c:87-91 *)
Definition bt_done (tol : Q) (s : bt) : bool :=
  Qle_bool (Qabs (z s - mid s)) (2 * tolr tol s - (1#2) * (hi s - lo s)).

(** brent.c:127-128, 131-132: (d, e) of a golden section step *)
Definition golden (s : bt) : Q * Q :=
  let e := if qltb (z s) (mid s) then hi s - z s else - (z s - lo s) in
  (CGOLD * e, e).

(** Outcome of the choice of the step; [DivZero] would be the division by zero at 120. *)
Inductive step := Step (d e : Q) | DivZero.

(** brent.c:102-133 *)
Definition choose (tol : Q) (s : bt) : step :=
  let t := tolr tol s in
  let '(dg, eg) := golden s in
  if qltb t (Qabs (ed s)) then
    let r := (z s - w s) * (fz s - fv s) in
    let q := (z s - v s) * (fz s - fw s) in
    let p := (z s - v s) * q - (z s - w s) * r in
    let q := 2 * (q - r) in
    let '(p, q) := if qltb 0 q then (- p, q) else (p, - q) in
    let r := ed s in
    let e := dd s in
    if qltb (Qabs p) (Qabs ((1#2) * q * r)) && qltb (q * (lo s - z s)) p && qltb p (q * (hi s - z s)) then
      if Qeq_bool q 0 then DivZero else
      let d := p / q in
      let u := z s + d in
      if qltb (u - lo s) (2 * t) || qltb (hi s - u) (2 * t)
      then Step (if qltb (z s) (mid s) then t else - t) e
      else Step d e
    else Step dg eg
  else Step dg eg.

(** brent.c:135-139 *)
Definition next_u (tol : Q) (s : bt) (d : Q) : Q :=
  let t := tolr tol s in
  if Qle_bool t (Qabs d) then z s + d else z s + (if qltb 0 d then t else - t).

(** brent.c:141-179 *)
Definition bt_update (s : bt) (u d e : Q) : bt :=
  let fu := cost u in
  let m := store (tmem s) (pu s) (dev u) in
  if qltb (fz s) fu then
    let l := if qltb u (z s) then u else lo s in
    let r := if qltb u (z s) then hi s else u in
    if Qle_bool fu (fw s) || Qeq_bool (w s) (z s) then
      mk_bt l r (z s) u (w s) (fz s) fu (fw s) e d (pz s) (pu s) (pw s) m (u :: pts s)
    else if Qle_bool fu (fv s) || Qeq_bool (v s) (z s) || Qeq_bool (v s) (w s) then
      mk_bt l r (z s) (w s) u (fz s) (fw s) fu e d (pz s) (pw s) (pu s) m (u :: pts s)
    else mk_bt l r (z s) (w s) (v s) (fz s) (fw s) (fv s) e d (pz s) (pw s) (pu s) m (u :: pts s)
  else
    let l := if qltb u (z s) then lo s else z s in
    let r := if qltb u (z s) then z s else hi s in
    (* SHIFT(v,w,z,u); SWAP(p_w,p_z); SWAP(p_z,p_u) *)
    mk_bt l r u (z s) (w s) fu (fz s) (fw s) e d (pu s) (pz s) (pw s) m (u :: pts s).

(** brent.c:95-99: the element-wise exchange at the end. *)
Definition bt_finish (s : bt) : mem :=
  let m := tmem s in
  let tmp := m (pz s) in
  let m1 := store m B2 (m (pw s)) in
  store m1 B1 tmp.

Inductive result := Done (x x2 f : Q) (m : mem) (s : bt) | TooMany | DivisionByZero.

(** brent.c:86-183 *)
Fixpoint bt_loop (tol : Q) (n : nat) (s : bt) : result :=
  match n with
  | 0%nat => TooMany
  | S n' =>
      if bt_done tol s then Done (z s) (w s) (fz s) (bt_finish s) s
      else match choose tol s with
           | DivZero => DivisionByZero
           | Step d e => bt_loop tol n' (bt_update s (Qred (next_u tol s d)) (Qred d) (Qred e))
           end
  end.

Definition brent (a b c fb tol : Q) (m : mem) : result :=
  bt_loop tol ITMAX (bt_start a b c fb m).
End Line.

(** ** linmin.c:55-91 on parameter vectors *)
Section LinMin.
Variable V : Type.
Variable costf : list Q -> Q.      (* cost of a parameter vector *)
Variable devf : list Q -> V.       (* its deviation vector *)

(** vecu[j] = xicom[j] + x * delcom[j] *)
Definition along (xi del : list Q) (x : Q) : list Q :=
  map (fun '(a, d) => a + x * d) (combine xi del).

(** new xi, new del, returned cost, x1, x2, buffers fret1/fret2; [None]: error exit *)
Definition linmin (xi del : list Q) (fxi1 : Q) (m : mem V)
  : option (list Q * list Q * Q * Q * Q * mem V) :=
  let cf := fun x => costf (along xi del x) in
  let df := fun x => devf (along xi del x) in
  let ax := 0 in
  let bx := 1 # 10 in
  let fb := cf bx in
  let m0 := store V m B2 (df bx) in
  match bracket V cf df ax bx fxi1 fb m0 with
  | None => None
  | Some (s, m1) =>
      match brent V cf df (xl _ s) (xc _ s) (xr _ s) (fc _ s) TOL m1 with
      | Done _ x x2 f m2 _ =>
          let del' := map (fun d => d * x) del in
          let xi' := map (fun '(a, d) => a + d) (combine xi del') in
          Some (xi', del', f, x, x2, m2)
      | _ => None
      end
  end.
End LinMin.
