(** Model of differential evolution, src/diff_evo.c.  The switch [bounded] selects between
    builds with parameter bounds (APOT or KIM) and tabulated potentials.

    Doubles are exact rationals.  [calc_forces] is an arbitrary function of the parameter
    vector (that it can normalise the vector in place is the subject of C34 and left out
    here).  Random numbers are arbitrary values delivered by choice records, one record per
    individual and generation; the rejection loops at 346-352 are represented by their
    outcome.  Printing and the temp file are left out. *)
From Coq Require Import List Arith QArith Qabs Bool.
From Verif Require Import ListUtil.
Import ListNotations.

Definition qltb (a b : Q) : bool := negb (Qle_bool b a).

(** ** Sorting: diff_evo.c:211-268.  An array of costs and the array of candidates are
    always exchanged together, hence one list of records with a key. *)
Section Sort.
Context {A : Type} (key : A -> Q) (d : A).

(** diff_evo.c:237-243, one pass of the loop body. *)
Definition part_step (v : Q) (s : list A * nat) (i : nat) : list A * nat :=
  let '(l, cur) := s in
  if Qle_bool (key (nth i l d)) v && negb (i =? cur) then (swap l i cur, S cur) else (l, cur).

(** diff_evo.c:227-249 *)
Definition partition (l : list A) (low high index : nat) : list A * nat :=
  let v := key (nth index l d) in
  let l1 := swap l index high in
  let '(l2, cur) := fold_left (part_step v) (seq low (high - low)) (l1, low) in
  (swap l2 cur high, cur).

(** diff_evo.c:211-219.  Recursion depth bounded by fuel, [None] when used up.  For
    newIndex = 0 the C code passes high = -1, here 0; both calls do nothing. *)
Fixpoint quicksort (fuel : nat) (l : list A) (low high : nat) : option (list A) :=
  if low <? high then
    match fuel with
    | 0%nat => None
    | S fuel' =>
        let '(l1, ni) := partition l low high ((low + high) / 2) in
        match quicksort fuel' l1 low (ni - 1) with
        | None => None
        | Some l2 => quicksort fuel' l2 (ni + 1) high
        end
    end
  else Some l.
End Sort.

(** One candidate: D = ndimtot + 2 numbers, the last two are F and CR (diff_evo.c:73-74). *)
Record ind := mk_ind { vec : list Q; fpar : Q; cpar : Q }.
Definition dummy : ind := mk_ind [] 0 0.

(** Random choices for one trial (diff_evo.c:346-383). *)
Record choice := mk_choice {
  ch_a : nat; ch_b : nat;       (* partners *)
  ch_j : nat;                   (* first free parameter *)
  ch_f : option Q;              (* new F if eqdist() < TAU_1: the second random number *)
  ch_cr : option Q;             (* new CR if eqdist() < TAU_2 *)
  ch_cross : nat -> Q           (* eqdist() in the loop over k *)
}.

(** State of a generation. [evals] logs the vectors handed to calc_forces, newest first. *)
Record gstate := mk_g {
  trial : list Q; best : ind; min_cost : Q; max_cost : Q;
  pop2 : list (Q * ind); evals : list (list Q) }.

Section DE.
Variable bounded : bool.             (* APOT or KIM defined *)
Variable costf : list Q -> Q.
Variable idx : list nat.             (* g_pot.opt_pot.idx *)
Variables pmin pmax : nat -> Q.      (* bounds of the j-th free parameter *)
Variable xi0 : list Q.               (* start vector, ndimtot entries *)

Definition ndim := length idx.
(** diff_evo.c:36-39: D, NP *)
Definition NP : nat := 15 * (length xi0 + 2).
Definition get (v : list Q) (j : nat) : Q := nth (nth j idx O) v 0.
Definition put (v : list Q) (j : nat) (x : Q) : list Q := upd v (nth j idx O) x.

(** diff_evo.c:80-97; [nd] is normdist() or eqdist() *)
Definition init_value (val lo hi nd : Q) : Q :=
  if bounded then
  let t := nd / 3 in
  let t := if qltb 1 (Qabs t) then t / Qabs t else t in
  if qltb 0 t then val + t * (hi - val) else val + t * (val - lo)
  else 10 * val * (2 * nd - 1).

(** diff_evo.c:79-98 *)
Definition init_vec (nd : nat -> Q) : list Q :=
  fold_left (fun v j => put v j (init_value (get xi0 j) (pmin j) (pmax j) (nd j)))
            (seq 0 ndim) xi0.

(** diff_evo.c:70-104: [nd i j] is the normal deviate used for parameter j of candidate i. *)
Definition start_pop (nd : nat -> nat -> Q) (uf uc : nat -> Q) : list ind :=
  map (fun i => mk_ind (if (i =? 0)%nat then xi0 else init_vec (nd i))
                       ((1#10) + uf i * (9#10)) (uc i)) (seq 0 NP).

Definition with_cost (p : ind) : Q * ind := (costf (vec p), p).

(** diff_evo.c:143-157: smallest/largest value of parameter j, starting at 10e30/-10e30. *)
Definition big : Q := inject_Z (10 * 10 ^ 30).
Definition pop_min (pop : list ind) (j : nat) : Q :=
  fold_left (fun m p => if qltb (get (vec p) j) m then get (vec p) j else m) pop big.
Definition pop_max (pop : list ind) (j : nat) : Q :=
  fold_left (fun m p => if qltb m (get (vec p) j) then get (vec p) j else m) pop (- big).

(** diff_evo.c:160-183 *)
Definition opposite (lo hi : nat -> Q) (p : ind) : ind :=
  mk_ind (fold_left (fun w j => put w j (lo j + hi j - get (vec p) j)) (seq 0 ndim) (vec p))
         (fpar p) (cpar p).

(** diff_evo.c:121-203: result population with costs and the vectors evaluated. *)
Definition opposite_check (do_init : bool) (pop : list (Q * ind))
  : option (list (Q * ind) * list (list Q)) :=
  let inds := map snd pop in
  let lo := if do_init then pmin else pop_min inds in
  let hi := if do_init then pmax else pop_max inds in
  let opp := map (opposite lo hi) inds in
  let tot := pop ++ map with_cost opp in
  match quicksort fst (0, dummy) (2 * NP) tot 0 (2 * NP - 1) with
  | None => None
  | Some s => Some (firstn NP s, map vec opp)
  end.

(** diff_evo.c:318 with 67-111 *)
Definition init_population nd uf uc : option (list (Q * ind) * list (list Q)) :=
  let pop := start_pop nd uf uc in
  if bounded then
  match opposite_check true (map with_cost pop) with
  | None => None
  | Some (p, ev) => Some (p, ev ++ map vec pop)
  end
  else Some (map with_cost pop, map vec pop).

(** diff_evo.c:287-288, 307 (best is allocated zeroed), 320-326 *)
Definition ten10 : Q := inject_Z (10 * 10 ^ 10).
Definition scan_best (pop : list (Q * ind)) : ind * Q * Q :=
  fold_left (fun '(b, mn, mx) cp =>
     let '(b, mn) := if qltb (fst cp) mn then (snd cp, fst cp) else (b, mn) in
     (b, mn, if qltb mx (fst cp) then fst cp else mx))
    pop (mk_ind (map (fun _ => 0) xi0) 0 0, ten10, 0).

(** diff_evo.c:408-422 *)
Definition clamp (j : nat) (t : Q) : Q :=
  if negb bounded then t else
  if qltb (pmax j) t then pmax j else if qltb t (pmin j) then pmin j else t.

(** diff_evo.c:382-428: loop over k with the running index j. *)
Definition cross (c : choice) (pop1 : list (Q * ind)) (i : nat) (bst : list Q) (f cr : Q)
    (t : list Q) : list Q :=
  fst (fold_left (fun '(t, j) k =>
    let x := if qltb (ch_cross c k) cr || (k =? j)%nat
             then clamp j (get bst j + f * (get (vec (snd (nth (ch_a c) pop1 (0, dummy)))) j
                                          - get (vec (snd (nth (ch_b c) pop1 (0, dummy)))) j))
             else get (vec (snd (nth i pop1 (0, dummy)))) j in
    (put t j x, ((j + 1) mod ndim)%nat)) (seq 1 ndim) (t, ch_j c)).

(** diff_evo.c:344-462, one individual. *)
Definition gen_step (pop1 : list (Q * ind)) (chs : nat -> choice) (g : gstate) (i : nat) : gstate :=
  let c := chs i in
  let '(ci, pi) := nth i pop1 (0, dummy) in
  let f := match ch_f c with Some u => (1#10) + u * (9#10) | None => fpar pi end in
  let cr := match ch_cr c with Some u => u | None => cpar pi end in
  let t := cross c pop1 i (vec (best g)) f cr (trial g) in
  let force := costf t in
  let '(b, mn) := if qltb force (min_cost g) then (mk_ind t f cr, force)
                  else (best g, min_cost g) in
  let cp := if Qle_bool force ci then (force, mk_ind t f cr) else (ci, pi) in
  mk_g t b mn (if qltb (max_cost g) (fst cp) then fst cp else max_cost g)
       (pop2 g ++ [cp]) (t :: evals g).

(** State between generations; [d_evals] logs all evaluated vectors. *)
Record dstate := mk_d {
  d_pop : list (Q * ind); d_best : ind; d_min : Q; d_max : Q; d_trial : list Q;
  d_evals : list (list Q); d_stopped : bool }.

(** diff_evo.c:341-503, one generation; [jump] is the outcome of eqdist() < jump_rate,
    [flag] tells whether the break flag file exists. *)
Definition generation (chs : nat -> choice) (jump flag : bool) (s : dstate) : option dstate :=
  let g := fold_left (gen_step (d_pop s) chs) (seq 0 NP)
             (mk_g (d_trial s) (d_best s) (d_min s) 0 [] (d_evals s)) in
  match (if bounded && jump then opposite_check false (pop2 g) else Some (pop2 g, [])) with
  | None => None
  | Some (p, ev) => Some (mk_d p (best g) (min_cost g) (max_cost g) (trial g) (ev ++ evals g) flag)
  end.

(** diff_evo.c:318-333 *)
Definition de_start nd uf uc : option dstate :=
  match init_population nd uf uc with
  | None => None
  | Some (p, ev) => let '(b, mn, mx) := scan_best p in Some (mk_d p b mn mx xi0 ev false)
  end.

(** diff_evo.c:340: condition of the main loop. *)
Definition goes_on (thr : Q) (s : dstate) : bool :=
  negb (d_stopped s) && Qle_bool thr (d_max s - d_min s) && Qle_bool thr (d_min s).

(** diff_evo.c:340-504: at most [n] generations. *)
Fixpoint loop (thr : Q) (ch : nat -> nat -> choice) (jump flag : nat -> bool) (n : nat)
    (count : nat) (s : dstate) : option dstate :=
  match n with
  | 0%nat => Some s
  | S n' => if goes_on thr s then
              match generation (ch count) (jump count) (flag count) s with
              | None => None
              | Some s' => loop thr ch jump flag n' (S count) s'
              end
            else Some s
  end.

(** diff_evo.c:278-510: the parameter vector left in [xi], if the run has ended after at
    most [n] generations. *)
Definition run_de (thr : Q) nd uf uc ch jump flag (n : nat) : option (list Q) :=
  if Qeq_bool thr 0 then Some xi0 else
  match de_start nd uf uc with
  | None => None
  | Some s => match loop thr ch jump flag n 0 s with
              | Some s' => if goes_on thr s' then None else Some (vec (d_best s'))
              | None => None
              end
  end.
End DE.
