(** Model of update_stiweb_pointers (src/force_stiweb.c:391-510) and update_tersoff_pointers
    (src/force_tersoff.c:793-990): where the force routines look for the parameters in the
    array xi of all parameters.

    An address is a number of doubles; &tersoff->one is [One].  The arrays of pointers of one
    potential column are one function of the column and the number of the parameter:
    Stillinger-Weber columns 0 .. paircol-1 hold A B p q delta a1, the next paircol ones gamma
    a2; Tersoff columns A B lambda mu gamma n c d h S R (TERSOFFMOD: A B lambda mu eta delta
    alpha beta c1..c5 h R1 R2).  Malloc returns zeroed memory (src/memory.c), so that all
    pointers are 0 before the first call.  Not modelled: failure of Malloc, c2 and d2
    (squares of c and d, taken in every call).  Integers do not overflow. *)
From Coq Require Import ZArith List Bool Arith.
From Verif Require Import LoopUtil PairIndexModel.
Import ListNotations.
Local Open Scope Z_scope.

Definition upd {A} (f : nat -> A) (i : nat) (x : A) : nat -> A := fun k => if Nat.eqb k i then x else f k.
Definition pairs (n : nat) : nat := Z.to_nat (paircol (Z.of_nat n)).

(** global_idx[j][k] = (column, parameter), visited for j, for k *)
Definition entry := (nat * (nat * nat))%type.
Fixpoint entries_from (j : nat) (g : list (list (nat * nat))) : list entry :=
  match g with [] => [] | l :: g => map (fun cp => (j, cp)) l ++ entries_from (S j) g end.
Definition entries (g : list (list (nat * nat))) : list entry := entries_from 0 g.

Section Columns.
Variables (xi gidx : Z) (es : list entry).
Definition global (j : nat) : Z := xi + gidx + Z.of_nat j.
(** force_stiweb.c:431-459, 465-483; force_tersoff.c:862-934: None is error(1) *)
Definition put (col np : nat) (o : option (nat -> Z)) (e : entry) : option (nat -> Z) :=
  match o with
  | None => None
  | Some row => let '(j, (c, p)) := e in
      if Nat.eqb c col then if Nat.ltb p np then Some (upd row p (global j)) else None else Some row
  end.
(** one column: np parameters and two more entries *)
Definition column (np col : nat) (o : option (Z * (nat -> nat -> Z))) : option (Z * (nat -> nat -> Z)) :=
  match o with
  | None => None
  | Some (index, P) =>
      match fold_left (put col np) es (Some (fun p => if Nat.ltb p np then index + Z.of_nat p else P col p)) with
      | None => None
      | Some row => Some (index + Z.of_nat np + 2, upd P col row)
      end
  end.
End Columns.

Record sw_ptr := mk_swp { sp : nat -> nat -> Z; sl : nat -> nat -> nat -> Z }.
Inductive out (S : Type) := Done (s : S) | Invalid (* error(1) *) | Outside (* write outside of an array *) | Forever.
Arguments Done {S}. Arguments Invalid {S}. Arguments Outside {S}. Arguments Forever {S}.

Section Sw.
Variable n : nat.
Notation pc := (pairs n).
Definition set3 (l : nat -> nat -> nat -> Z) (i j k : nat) (v : Z) : nat -> nat -> nat -> Z :=
  upd l i (upd (l i) j (upd (l i j) k v)).
(** force_stiweb.c:485-492 *)
Definition lambdas (index : Z) (l : nat -> nat -> nat -> Z) : Z * (nat -> nat -> nat -> Z) :=
  for_up 0 n (fun i => for_up 0 n (fun j => for_up j n (fun k (s : Z * (nat -> nat -> nat -> Z)) =>
    let '(index, l) := s in (index + 1, set3 (set3 l i j k index) i k j index)))) (index, l).
(** 500-507: for (k = ntypes - 1; k >= 0; ++k); [fuel] iterations *)
Definition row_start (k : Z) : Z := k * Z.of_nat n - Z.quot (k * (k - 1)) 2.
Fixpoint search (fuel : nat) (k temp : Z) : option Z :=
  match fuel with
  | O => None
  | S f => if k >=? 0 then if temp >=? row_start k then Some k else search f (k + 1) temp else Some (-1)
  end.
(** 493-513 *)
Definition lambda_global (xi gidx : Z) (o : out (nat -> nat -> nat -> Z)) (e : entry) : out (nat -> nat -> nat -> Z) :=
  match o with
  | Done l => let '(j, (c, p)) := e in
      if Nat.eqb c (2 * pc) then
        let n1 := Z.of_nat (p / pc) in
        let temp := Z.of_nat (p mod pc) in
        match search (n + 3) (Z.of_nat n - 1) temp with
        | None => Forever
        | Some n2 =>
            let n3 := temp - row_start n2 + n2 in
            if (n1 <? Z.of_nat n) && (0 <=? n2) && (n2 <? Z.of_nat n) && (0 <=? n3) && (n3 <? Z.of_nat n)
            then let v := global xi gidx j in
                 Done (set3 (set3 l (Z.to_nat n1) (Z.to_nat n2) (Z.to_nat n3) v) (Z.to_nat n1) (Z.to_nat n3) (Z.to_nat n2) v)
            else Outside
        end
      else Done l
  | x => x
  end.
(** 391-514 *)
Definition update_sw (gidx : Z) (es : list entry) (xi : Z) (s : sw_ptr) : out sw_ptr :=
  if sp s 0%nat 0%nat =? xi + 2 then Done s
  else
    match for_up pc (2 * pc) (column xi gidx es 2) (for_up 0 pc (column xi gidx es 6) (Some (xi + 2, sp s))) with
    | None => Invalid
    | Some (index, P) =>
        match fold_left (lambda_global xi gidx) es (Done (snd (lambdas index (sl s)))) with
        | Done l => Done (mk_swp P l)
        | Invalid => Invalid | Outside => Outside | Forever => Forever
        end
    end.
(** the calls of a run *)
Definition sw_start : sw_ptr := mk_swp (fun _ _ => 0) (fun _ _ _ => 0).
Definition sw_calls (gidx : Z) (es : list entry) (xs : list Z) : out sw_ptr :=
  fold_left (fun o xi => match o with Done s => update_sw gidx es xi s | x => x end) xs (Done sw_start).
End Sw.

Inductive ptr := At (a : Z) | One.
(** [tp]: pair columns; [tm i]: chi and omega of pair i *)
Record ter_ptr := mk_tp { tp : nat -> nat -> Z; tm : nat -> nat -> ptr }.
Section Ter.
Variables (n np : nat).               (* number of parameters of a pair: 11, TERSOFFMOD: 16 *)
Notation pc := (pairs n).
(** force_tersoff.c:955-965: other parameter numbers are ignored *)
Definition put_mix (xi gidx : Z) (i : nat) (row : nat -> ptr) (e : entry) : nat -> ptr :=
  let '(j, (c, p)) := e in if Nat.eqb c (pc + i) && Nat.ltb p 2 then upd row p (At (global xi gidx j)) else row.
(** 942-971 *)
Definition mix_body (xi gidx : Z) (es : list entry) (i : nat) (s : Z * (nat -> nat -> ptr)) : Z * (nat -> nat -> ptr) :=
  let '(index, M) := s in
  let '(index, row) := if Nat.eqb (i mod n) 0 then (index, fun _ : nat => One)
                       else (index + 4, fun p => At (index + Z.of_nat p)) in
  (index, upd M i (fold_left (put_mix xi gidx i) es row)).
(** 793-983; [modified]: TERSOFFMOD, where chi and omega do not exist *)
Definition update_ter (modified : bool) (gidx : Z) (es : list entry) (xi : Z) (s : ter_ptr) : out ter_ptr :=
  if tp s 0%nat 0%nat =? xi + 2 then Done s
  else
    match for_up 0 pc (column xi gidx es np) (Some (xi + 2, tp s)) with
    | None => Invalid
    | Some (index, P) => Done (mk_tp P (if modified then tm s else snd (for_up 0 pc (mix_body xi gidx es) (index, tm s))))
    end.
Definition ter_start : ter_ptr := mk_tp (fun _ _ => 0) (fun _ _ => At 0).
Definition ter_calls (modified : bool) (gidx : Z) (es : list entry) (xs : list Z) : out ter_ptr :=
  fold_left (fun o xi => match o with Done s => update_ter modified gidx es xi s | x => x end) xs (Done ter_start).
End Ter.
