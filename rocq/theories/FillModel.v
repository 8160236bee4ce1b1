(** Model of the parts of the random number generator that give numbers in
    other ranges and whole arrays: /repo/src/random_dsfmt.h 288-304, 315-412
    (the functions dsfmt_genrand), /repo/src/random_dsfmt.c 192-260 (the
    functions convert), 270-428 (the functions gen_rand_array), 580-643 (the
    functions dsfmt_fill_array) and 655-677 (dsfmt_chk_init_gen_rand).  State,
    recursion and words are those of RngModel (standard C version, little
    endian, 64-bit unsigned long).

    The array given by the caller consists of entries of 128 bits.  An entry
    is [Junk] before the first write, [Bits] after do_recursion and [Nums]
    after a function convert has put two doubles into it.  Reading an entry as
    bits is [None] unless it is [Bits]: the functions must not use memory that
    was not written, and must not feed a converted number back into the
    recursion.  Simplification: converting an entry twice also is [None].

    An assertion that fails (the program stops) is [None] as well. *)
From Coq Require Import ZArith List Bool.
From Coq.Floats Require Import SpecFloat.
From Verif Require Import RngModel.
Import ListNotations.
Local Open Scope Z_scope.

(** The four ranges: [1,2), [0,1), (0,1], (0,1). *)
Inductive kind : Type := C1O2 | C0O1 | O0C1 | O0O1.

Definition two : spec_float := S754_finite false 4503599627370496 (-51).

(** One half of an entry as a number of the range: random_dsfmt.c 231-259
    (w->d -= 1.0, w->d = 2.0 - w->d, w->u |= 1 and w->d -= 1.0), and for single
    numbers random_dsfmt.h 325, 362, 386, 408-411. *)
Definition convert1 (k : kind) (w : Z) : spec_float :=
  match k with
  | C1O2 => decode w
  | C0O1 => SFsub 53 1024 (decode w) one
  | O0C1 => SFsub 53 1024 two (decode w)
  | O0O1 => SFsub 53 1024 (decode (Z.lor w 1)) one
  end.

(** The next word of the state, random_dsfmt.h 296-302, 317-324, 399-407. *)
Definition next_word (g : dsfmt) : option (Z * dsfmt) :=
  do g' <-
    (if (N64 <=? idx g)%nat then
       do s <- gen_rand_all (status g);
       Some {| status := s; idx := 0 |}
     else Some g);
  do w <- word (status g') (idx g');
  Some (w, {| status := status g'; idx := S (idx g') |}).

(** dsfmt_genrand_close1_open2, _close_open, _open_close and _open_open,
    random_dsfmt.h 315-412. *)
Definition genrand (k : kind) (g : dsfmt) : option (spec_float * dsfmt) :=
  do (w, g') <- next_word g;
  Some (convert1 k w, g').

(** dsfmt_genrand_uint32, random_dsfmt.h 291-304. *)
Definition genrand_uint32 (g : dsfmt) : option (Z * dsfmt) :=
  do (w, g') <- next_word g;
  Some (Z.land w 0xffffffff, g').

(** [n] calls of one of them. *)
Fixpoint calls {A} (f : dsfmt -> option (A * dsfmt)) (n : nat) (g : dsfmt) :
    option (list A * dsfmt) :=
  match n with
  | O => Some ([], g)
  | S n' =>
      do (x, g') <- f g;
      do (xs, g'') <- calls f n' g';
      Some (x :: xs, g'')
  end.

(** An entry of the array of the caller. *)
Inductive cell : Type :=
| Junk | Bits (w : w128) | Nums (d0 d1 : spec_float).
Definition bits (c : cell) : option w128 :=
  match c with Bits w => Some w | _ => None end.

(** convert_c0o1, convert_o0c1, convert_o0o1; gen_rand_array_c1o2 converts
    nothing, the entry stays as it is. *)
Definition convert (k : kind) (c : cell) : option cell :=
  do w <- bits c;
  match k with
  | C1O2 => Some (Bits w)
  | _ => Some (Nums (convert1 k (fst w)) (convert1 k (snd w)))
  end.

(** The variables of gen_rand_array: array, status, lung. *)
Record fill : Type := { arr : list cell; sts : list w128; lung : w128 }.

Definition at_status (i : nat) (x : fill) : option w128 := get (sts x) i.
Definition at_array (i : nat) (x : fill) : option w128 :=
  do c <- get (arr x) i; bits c.

(** do_recursion(&array[i], a, b, &lung). *)
Definition rec_to (i : nat) (a b : fill -> option w128) (x : fill) : option fill :=
  do va <- a x;
  do vb <- b x;
  let '(r, l) := do_recursion va vb (lung x) in
  do t <- put (arr x) i (Bits r);
  Some {| arr := t; sts := sts x; lung := l |}.
(** convert(&array[i]). *)
Definition convert_at (k : kind) (i : nat) (x : fill) : option fill :=
  do c <- get (arr x) i;
  do c' <- convert k c;
  do t <- put (arr x) i c';
  Some {| arr := t; sts := sts x; lung := lung x |}.
(** dsfmt->status[j] = array[i]. *)
Definition copy_to (j i : nat) (x : fill) : option fill :=
  do w <- at_array i x;
  do s <- put (sts x) j w;
  Some {| arr := arr x; sts := s; lung := lung x |}.

(** The body of the loops at 318-322 and, with the copy, 326-331 (lines of
    gen_rand_array_c0o1, the other three differ in convert only). *)
Definition step4 (k : kind) (i : nat) (x : fill) : option fill :=
  do y <- rec_to i (at_array (i - N)) (at_array (i + POS1 - N)) x;
  convert_at k (i - N) y.
Definition step6 (k : kind) (i j : nat) (x : fill) : option fill :=
  do y <- rec_to i (at_array (i - N)) (at_array (i + POS1 - N)) x;
  do z <- copy_to j i y;
  convert_at k (i - N) z.

(** gen_rand_array_c1o2, _c0o1, _o0o1, _o0c1: random_dsfmt.c 270-428.  [size]
    is the number of entries of 128 bits, at least N, so that size - N is not
    negative; 2 * N - size may be, the loop over j then is empty. *)
Definition gen_rand_array (k : kind) (s : list w128) (a : list cell)
    (size : nat) : option (list w128 * list cell) :=
  do l <- get s N;
  do x1 <- rec_to 0 (at_status 0) (at_status POS1)
             {| arr := a; sts := s; lung := l |};
  do x2 <- loop (fun i => rec_to i (at_status i) (at_status (i + POS1)))
             1 (N - POS1 - 1) x1;
  do x3 <- loop (fun i => rec_to i (at_status i) (at_array (i + POS1 - N)))
             (N - POS1) POS1 x2;
  do x4 <- loop (step4 k) N (size - N - N) x3;
  let i0 := Nat.max N (size - N) in
  let j0 := (2 * N - size)%nat in
  do x5 <- loop (fun j => copy_to j (j + size - N)) 0 j0 x4;
  do x6 <- loop (fun t => step6 k (i0 + t) (j0 + t)) 0 (size - i0) x5;
  do x7 <- loop (convert_at k) (size - N) N x6;
  do s' <- put (sts x7) N (lung x7);
  Some (s', arr x7).

(** dsfmt_fill_array_close1_open2, _open_close, _close_open, _open_open,
    random_dsfmt.c 580-643: [size] doubles. *)
Definition fill_array (k : kind) (g : dsfmt) (a : list cell) (size : nat) :
    option (dsfmt * list cell) :=
  if (size mod 2 =? 0)%nat && (N64 <=? size)%nat then
    do (s, a') <- gen_rand_array k (status g) a (Nat.div2 size);
    Some ({| status := s; idx := idx g |}, a')
  else None.

(** The doubles of the array as the caller sees them. *)
Fixpoint doubles_of (a : list cell) : option (list spec_float) :=
  match a with
  | [] => Some []
  | Junk :: _ => None
  | Bits w :: a' =>
      do r <- doubles_of a'; Some (decode (fst w) :: decode (snd w) :: r)
  | Nums d0 d1 :: a' => do r <- doubles_of a'; Some (d0 :: d1 :: r)
  end.

(** dsfmt_chk_init_gen_rand, random_dsfmt.c 655-677 (mexp is the same
    constant).  1812433253UL has 64 bits; the sum is cut to 32. *)
Fixpoint seeds (n : nat) (i : Z) (x : Z) : list Z :=
  match n with
  | O => []
  | S n' =>
      x :: seeds n' (i + 1)
             (w32 (w64 (w64 (1812433253 * Z.lxor x (Z.shiftr x 30)) + i)))
  end.
Definition init_gen_rand (seed : Z) : option dsfmt :=
  do s <- initial_mask (entries (seeds size 1 seed));
  do s' <- period_certification s;
  Some {| status := s'; idx := N64 |}.
