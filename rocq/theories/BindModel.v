(** Binding of the Stillinger-Weber and Tersoff parameters to the optimised table.
    Pointers into the table are modelled as offsets from [xi]; integers are unbounded.
    The guard "update only if the address has changed" (force_stiweb.c:417,
    force_tersoff.c:835) is not modelled: the binding is described for a call with a new
    address.  The squares c2, d2 (force_tersoff.c:980-984) are not modelled. *)
From Coq Require Import List Arith Bool.
From Verif Require Import LoopUtil.
Import ListNotations.

(** Result of the routine: finished, stopped by error(1, ...), or an array subscript out
    of range (undefined behaviour). *)
Inductive outcome (A : Type) := Done (a : A) | Fail | Undefined.
Arguments Done {A} a.
Arguments Fail {A}.
Arguments Undefined {A}.
Definition bind {A B : Type} (o : outcome A) (f : A -> outcome B) : outcome B :=
  match o with Done a => f a | Fail => Fail | Undefined => Undefined end.

(** pointer tables: column, parameter number -> offset *)
Definition ptrs := nat -> nat -> nat.
Definition set2 (t : ptrs) (i p a : nat) : ptrs :=
  fun i' p' => if (i' =? i) && (p' =? p) then a else t i' p'.

Section Bind.
(** g_pot.global_idx *)
Variable gidx : nat.
(** apot_table.global_idx[j][k] = (potential, parameter); [] if !have_globals *)
Variable uses : list (list (nat * nat)).

(** The loops over j < globals and k < n_glob[j], flattened: (j, (potential, parameter)) *)
Definition all_uses : list (nat * (nat * nat)) :=
  flat_map (fun j => map (fun u => (j, u)) (nth j uses [])) (seq 0 (List.length uses)).

(** force_stiweb.c:420-425, 460-461, force_tersoff.c:838-862: X[i] = index++ for the [np]
    parameters in file order *)
Definition take_params (np i : nat) (s : ptrs * nat) : ptrs * nat :=
  for_up 0 np (fun p s => (set2 (fst s) i p (snd s), S (snd s))) s.

(** force_stiweb.c:427-456, 463-480, force_tersoff.c:865-948; [f]: number of the potential
    in the file; the switch has the cases 0..np-1, default: error(1, ...) *)
Definition use_globals (np f i : nat) (t : ptrs) : outcome ptrs :=
  fold_left (fun o g =>
    bind o (fun t =>
      if fst (snd g) =? f
      then if snd (snd g) <? np then Done (set2 t i (snd (snd g)) (gidx + fst g)) else Fail
      else Done t)) all_uses (Done t).

(** force_stiweb.c:419-457, 459-481, force_tersoff.c:837-949: the loop over the columns *)
Definition bind_columns (np fbase ncol : nat) (s : ptrs * nat) : outcome (ptrs * nat) :=
  for_up 0 ncol (fun i o =>
    bind o (fun s =>
      let s1 := take_params np i s in
      bind (use_globals np (fbase + i) i (fst s1)) (fun t => Done (t, snd s1 + 2))))
    (Done s).

(** ** Stillinger-Weber *)
(** potential_input.c:78 *)
Definition pairs (n : nat) : nat := n * (n + 1) / 2.

Definition lams := nat -> nat -> nat -> nat.
Definition set3 (t : lams) (i j k a : nat) : lams :=
  fun i' j' k' => if (i' =? i) && (j' =? j) && (k' =? k) then a else t i' j' k'.

(** force_stiweb.c:483-490 *)
Definition bind_lambda (n : nat) (s : lams * nat) : lams * nat :=
  for_up 0 n (fun i => for_up 0 n (fun j => for_up j n (fun k s =>
    (set3 (set3 (fst s) i j k (snd s)) i k j (snd s), S (snd s))))) s.

(** force_stiweb.c:499-506: for (k = ntypes - 1; k >= 0; ++k); the result is (n2, n3).
    [None]: not finished within [fuel] steps. *)
Fixpoint search (fuel n k temp : nat) : option (nat * nat) :=
  match fuel with
  | O => None
  | S fuel' =>
      let min_val := k * n - k * (k - 1) / 2 in
      if min_val <=? temp then Some (k, temp - min_val + k) else search fuel' n (S k) temp
  end.

(** force_stiweb.c:491-512; lambda[n1][n2][n3] has [n] entries in each direction *)
Definition lambda_globals (n f : nat) (t : lams) : outcome lams :=
  fold_left (fun o g =>
    bind o (fun t =>
      if fst (snd g) =? f then
        let n1 := snd (snd g) / pairs n in
        match search (2 * n + 2) n (n - 1) (snd (snd g) mod pairs n) with
        | None => Undefined
        | Some (n2, n3) =>
            if (n1 <? n) && (n2 <? n) && (n3 <? n)
            then Done (set3 (set3 t n1 n2 n3 (gidx + fst g)) n1 n3 n2 (gidx + fst g))
            else Undefined
        end
      else Done t)) all_uses (Done t).

(** force_stiweb.c:391-514: A B p q delta a1; gamma a2; lambda *)
Definition update_stiweb (n : nat) (t2 t3 : ptrs) (tl : lams) : outcome (ptrs * ptrs * lams) :=
  bind (bind_columns 6 0 (pairs n) (t2, 2)) (fun s2 =>
  bind (bind_columns 2 (pairs n) (pairs n) (t3, snd s2)) (fun s3 =>
  let sl := bind_lambda n (tl, snd s3) in
  bind (lambda_globals n (2 * pairs n) (fst sl)) (fun l =>
  Done (fst s2, fst s3, l)))).

(** ** Tersoff *)
(** chi (0) and omega (1) of a column: [None] is the address of the constant one *)
Definition mixes := nat -> nat -> option nat.
Definition mset (t : mixes) (i p : nat) (a : option nat) : mixes :=
  fun i' p' => if (i' =? i) && (p' =? p) then a else t i' p'.

(** force_tersoff.c:960-975; no default case *)
Definition mix_globals (f i : nat) (t : mixes) : mixes :=
  fold_left (fun t g =>
    if (fst (snd g) =? f) && (snd (snd g) <? 2)
    then mset t i (snd (snd g)) (Some (gidx + fst g)) else t) all_uses t.

(** force_tersoff.c:951-976 *)
Definition bind_mix (n : nat) (s : mixes * nat) : mixes * nat :=
  for_up 0 (pairs n) (fun i s =>
    let s1 := if i mod n =? 0
              then (mset (mset (fst s) i 0 None) i 1 None, snd s)
              else (mset (mset (fst s) i 0 (Some (snd s))) i 1 (Some (snd s + 1)), snd s + 2 + 2) in
    (mix_globals (pairs n + i) i (fst s1), snd s1)) s.

(** force_tersoff.c:793-977 without TERSOFFMOD: A B lambda mu gamma n c d h S R, chi omega *)
Definition update_tersoff (n : nat) (t : ptrs) (tm : mixes) : outcome (ptrs * mixes) :=
  bind (bind_columns 11 0 (pairs n) (t, 2)) (fun s =>
  Done (fst s, fst (bind_mix n (tm, snd s)))).

(** force_tersoff.c:793-949 with TERSOFFMOD: 16 parameters *)
Definition update_tersoffmod (n : nat) (t : ptrs) : outcome ptrs :=
  bind (bind_columns 16 0 (pairs n) (t, 2)) (fun s => Done (fst s)).
End Bind.
