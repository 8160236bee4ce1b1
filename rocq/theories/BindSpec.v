(** Where the parameters are: independent of the binding code. *)
From Coq Require Import List Arith.
Import ListNotations.

(** The optimised table: two entries before the parameters of each potential; [ns]: numbers
    of parameters in file order. *)
Definition home (ns : list nat) (f p : nat) : nat :=
  2 + list_sum (map (fun n => n + 2) (firstn f ns)) + p.

(** The file binds parameter [p] of potential [f] to global [j]. *)
Definition bound (uses : list (list (nat * nat))) (f p j : nat) : Prop :=
  In (f, p) (nth j uses []).

(** Global references are to existing parameters, each of them to one global. *)
Definition valid_uses (ns : list nat) (uses : list (list (nat * nat))) : Prop :=
  (forall f p j, bound uses f p j -> f < List.length ns /\ p < nth f ns 0) /\
  (forall f p j j', bound uses f p j -> bound uses f p j' -> j = j').

(** The offset that belongs to parameter [p] of potential [f]. *)
Definition address (ns : list nat) (gidx : nat) (uses : list (list (nat * nat)))
    (f p a : nat) : Prop :=
  (forall j, bound uses f p j -> a = gidx + j) /\
  ((forall j, ~ bound uses f p j) -> a = home ns f p).

(** The pairs of types (j <= k), and the triples of the lambda potential, in file order *)
Definition row (n : nat) : list (nat * nat) :=
  flat_map (fun j => map (fun k => (j, k)) (seq j (n - j))) (seq 0 n).
Definition triples (n : nat) : list (nat * (nat * nat)) :=
  flat_map (fun i => map (fun q => (i, q)) (row n)) (seq 0 n).

(** Numbers of parameters for [n] types *)
Definition sw_pars (n : nat) : list nat :=
  let c := List.length (row n) in repeat 6 c ++ repeat 2 c ++ [List.length (triples n)].
(** the mixed pairs in file order *)
Definition mixed (n : nat) : list (nat * nat) :=
  filter (fun q => negb (fst q =? snd q)) (row n).
Definition tersoff_pars (n : nat) : list nat :=
  repeat 11 (List.length (row n)) ++ repeat 2 (List.length (mixed n)).
Definition tersoffmod_pars (n : nat) : list nat := repeat 16 (List.length (row n)).

(** chi and omega of the pair in column [c]: the constant one ([None]) for like types, the
    parameter of its mixing table for mixed types *)
Definition mix_right (n gidx : nat) (uses : list (list (nat * nat)))
    (t : nat -> nat -> option nat) : Prop :=
  forall c j k p, nth_error (row n) c = Some (j, k) -> p < 2 ->
    if j =? k then t c p = None
    else exists x a, nth_error (mixed n) x = Some (j, k) /\ t c p = Some a /\
           address (tersoff_pars n) gidx uses (List.length (row n) + x) p a.
