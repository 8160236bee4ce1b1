(** Model of the random number generator: /repo/src/random.c 36-107 and the
    parts of /repo/src/random_dsfmt.c and /repo/src/random_dsfmt.h it calls
    (the standard C version: HAVE_SSE2 and HAVE_ALTIVEC are not defined, the
    machine is little endian, so idxof is the identity, random_dsfmt.c 89).

    Unsigned words are numbers of type Z; every operation that may leave the
    range of uint32_t or uint64_t is written with its reduction.  The array
    status is a list; a read or a write outside it is [None] (undefined
    behaviour), never a default value.  A double is a [spec_float] of the
    standard library with the binary64 parameters.

    Not modelled: the result of malloc in init_rng; the values of rand() are
    an arbitrary list of 624 words; the fill_array functions, the other
    ranges of dsfmt_genrand and dsfmt_gv are not called by potfit. *)
From Coq Require Import ZArith List Bool Lia.
From Coq.Floats Require Import SpecFloat.
Import ListNotations.
Local Open Scope Z_scope.

(** random_dsfmt.h 102-118: DSFMT_N = (19937 - 128) / 104 + 1. *)
Definition MEXP : Z := 19937.
Definition N : nat := Z.to_nat ((MEXP - 128) / 104 + 1).
Definition N64 : nat := (N * 2)%nat.
(** random_dsfmt.h 735-737, 772-783. *)
Definition LOW_MASK : Z := 0x000FFFFFFFFFFFFF.
Definition HIGH_CONST : Z := 0x3FF0000000000000.
Definition SR : Z := 12.
Definition POS1 : nat := 117.
Definition SL1 : Z := 19.
Definition MSK1 : Z := 0x000ffafffffffb3f.
Definition MSK2 : Z := 0x000ffdfffc90fffd.
Definition FIX1 : Z := 0x90014964b32f4329.
Definition FIX2 : Z := 0x3b8d12ac548a7c7a.
Definition PCV1 : Z := 0x3d84e1ac0dc82880.
Definition PCV2 : Z := 0x0000000000000001.

(** Reductions of the unsigned types. *)
Definition w32 (x : Z) : Z := x mod 2 ^ 32.
Definition w64 (x : Z) : Z := x mod 2 ^ 64.

(** One 128-bit entry: u[0] and u[1] (random_dsfmt.h 212-216). *)
Notation w128 := (Z * Z)%type.

(** Reads and writes of an array; [None] outside of it. *)
Definition get {A} (l : list A) (i : nat) : option A := nth_error l i.
Fixpoint put {A} (l : list A) (i : nat) (v : A) : option (list A) :=
  match l, i with
  | [], _ => None
  | _ :: l', O => Some (v :: l')
  | x :: l', S i' =>
      match put l' i' v with None => None | Some l'' => Some (x :: l'') end
  end.

Definition bind {A B} (x : option A) (f : A -> option B) : option B :=
  match x with None => None | Some a => f a end.
Notation "'do' p <- x ; f" := (bind x (fun p => f))
  (at level 200, p pattern, x at level 100, f at level 200).

(** do_recursion, random_dsfmt.c 178-190: the new entry and the new lung. *)
Definition do_recursion (a b lung : w128) : w128 * w128 :=
  let '(t0, t1) := a in
  let '(l0, l1) := lung in
  let n0 :=
    Z.lxor (Z.lxor (Z.lxor (w64 (Z.shiftl t0 SL1)) (Z.shiftr l1 32))
                   (w64 (Z.shiftl l1 32))) (fst b) in
  let n1 :=
    Z.lxor (Z.lxor (Z.lxor (w64 (Z.shiftl t1 SL1)) (Z.shiftr l0 32))
                   (w64 (Z.shiftl l0 32))) (snd b) in
  ((Z.lxor (Z.lxor (Z.shiftr n0 SR) (Z.land n0 MSK1)) t0,
    Z.lxor (Z.lxor (Z.shiftr n1 SR) (Z.land n1 MSK2)) t1),
   (n0, n1)).

(** The body of both loops of dsfmt_gen_rand_all: entry [i] is replaced,
    entry [j] is the one picked up. *)
Definition rec_at (i j : nat) (sl : list w128 * w128) :
    option (list w128 * w128) :=
  let '(s, lung) := sl in
  do a <- get s i;
  do b <- get s j;
  let '(r, lung') := do_recursion a b lung in
  do s' <- put s i r;
  Some (s', lung').

(** A loop over [n] consecutive values of [i]. *)
Fixpoint loop {A} (body : nat -> A -> option A) (i n : nat) (x : A) : option A :=
  match n with
  | O => Some x
  | S n' => do y <- body i x; loop body (S i) n' y
  end.

(** dsfmt_gen_rand_all, random_dsfmt.c 534-551. *)
Definition gen_rand_all (s : list w128) : option (list w128) :=
  do lung <- get s N;
  do x0 <- rec_at 0 POS1 (s, lung);
  do x1 <- loop (fun i => rec_at i (i + POS1)%nat) 1 (N - POS1 - 1)%nat x0;
  do x2 <- loop (fun i => rec_at i (i + POS1 - N)%nat) (N - POS1)%nat POS1 x1;
  let '(s', lung') := x2 in
  put s' N lung'.

(** The generator: struct DSFMT_T, random_dsfmt.h 223-226. *)
Record dsfmt : Type := { status : list w128; idx : nat }.

(** psfmt64[i] for psfmt64 = &status[0]: word [i mod 2] of entry [i / 2]. *)
Definition word (s : list w128) (i : nat) : option Z :=
  do w <- get s (Nat.div2 i);
  Some (if Nat.even i then fst w else snd w).

(** The double of which [w] is the representation (binary64). *)
Definition decode (w : Z) : spec_float :=
  let s := Z.testbit w 63 in
  let e := Z.land (Z.shiftr w 52) 0x7ff in
  let m := Z.land w LOW_MASK in
  if e =? 0 then
    match m with Zpos p => S754_finite s p (-1074) | _ => S754_zero s end
  else if e =? 2047 then
    (if m =? 0 then S754_infinity s else S754_nan)
  else
    match m + 2 ^ 52 with
    | Zpos p => S754_finite s p (e - 1075)
    | _ => S754_nan
    end.

(** dsfmt_genrand_close1_open2, random_dsfmt.h 315-326. *)
Definition genrand_close1_open2 (g : dsfmt) : option (spec_float * dsfmt) :=
  do g' <-
    (if (N64 <=? idx g)%nat then
       do s <- gen_rand_all (status g);
       Some {| status := s; idx := 0 |}
     else Some g);
  do w <- word (status g') (idx g');
  Some (decode w, {| status := status g'; idx := S (idx g') |}).

Definition one : spec_float := S754_finite false 4503599627370496 (-52).

(** dsfmt_genrand_close_open, random_dsfmt.h 360-363, and eqdist,
    random.c 45. *)
Definition eqdist (g : dsfmt) : option (spec_float * dsfmt) :=
  do (r, g') <- genrand_close1_open2 g;
  Some (SFsub 53 1024 r one, g').

(** ini_func1 and ini_func2, random_dsfmt.c 436-450. *)
Definition ini_func1 (x : Z) : Z := w32 (Z.lxor x (Z.shiftr x 27) * 1664525).
Definition ini_func2 (x : Z) : Z := w32 (Z.lxor x (Z.shiftr x 27) * 1566083941).

(** psfmt32[i] op= v. *)
Definition modify (f : Z -> Z) (l : list Z) (i : nat) : option (list Z) :=
  do x <- get l i;
  put l i (f x).

(** random_dsfmt.c 695-711. *)
Definition size : nat := ((N + 1) * 4)%nat.
Definition lag : nat :=
  if (623 <=? size)%nat then 11
  else if (68 <=? size)%nat then 7
  else if (39 <=? size)%nat then 5 else 3.
Definition mid : nat := Nat.div (size - lag) 2.

(** One step of the loops at 727-735 ([add] = init_key[j] + i) and 736-744
    ([add] = i). *)
Definition fill1 (i : nat) (add : Z) (l : list Z) : option (list Z) :=
  do x <- get l i;
  do y <- get l ((i + mid) mod size)%nat;
  do z <- get l ((i + size - 1) mod size)%nat;
  let r := ini_func1 (Z.lxor (Z.lxor x y) z) in
  do l1 <- modify (fun v => w32 (v + r)) l ((i + mid) mod size)%nat;
  let r' := w32 (r + add) in
  do l2 <- modify (fun v => w32 (v + r')) l1 ((i + mid + lag) mod size)%nat;
  put l2 i r'.

(** One step of the loop at 745-753. *)
Definition fill2 (i : nat) (l : list Z) : option (list Z) :=
  do x <- get l i;
  do y <- get l ((i + mid) mod size)%nat;
  do z <- get l ((i + size - 1) mod size)%nat;
  let r := ini_func2 (w32 (x + y + z)) in
  do l1 <- modify (fun v => Z.lxor v r) l ((i + mid) mod size)%nat;
  let r' := w32 (r - Z.of_nat i) in
  do l2 <- modify (fun v => Z.lxor v r') l1 ((i + mid + lag) mod size)%nat;
  put l2 i r'.

(** The first loop, 727-735: [key] is the rest of init_key, [n] the number of
    rounds j still has below count; the rest of [n] and [i] are returned. *)
Fixpoint keys (key : list Z) (n i : nat) (l : list Z) :
    option (nat * nat * list Z) :=
  match n, key with
  | O, _ => Some (O, i, l)
  | _, [] => Some (n, i, l)
  | S n', k :: key' =>
      do l' <- fill1 i (k + Z.of_nat i) l;
      keys key' n' ((i + 1) mod size)%nat l'
  end.

(** The second loop, 736-744. *)
Fixpoint rest (n i : nat) (l : list Z) : option (nat * list Z) :=
  match n with
  | O => Some (i, l)
  | S n' =>
      do l' <- fill1 i (Z.of_nat i) l;
      rest n' ((i + 1) mod size)%nat l'
  end.

(** The third loop, 745-753. *)
Fixpoint mix (n i : nat) (l : list Z) : option (list Z) :=
  match n with
  | O => Some l
  | S n' =>
      do l' <- fill2 i l;
      mix n' ((i + 1) mod size)%nat l'
  end.

(** Four 32-bit words seen as one entry of status (little endian). *)
Fixpoint entries (l : list Z) : list w128 :=
  match l with
  | a :: b :: c :: d :: l' => (a + 2 ^ 32 * b, c + 2 ^ 32 * d) :: entries l'
  | _ => []
  end.

(** initial_mask, random_dsfmt.c 457-466: the first 2 * N words. *)
Definition mask1 (x : Z) : Z := Z.lor (Z.land x LOW_MASK) HIGH_CONST.
Definition mask_at (i : nat) (s : list w128) : option (list w128) :=
  do w <- get s i;
  put s i (mask1 (fst w), mask1 (snd w)).
Definition initial_mask (s : list w128) : option (list w128) :=
  loop mask_at 0 N s.

(** period_certification, random_dsfmt.c 472-512: the loop at 488-490. *)
Definition folded (x : Z) : Z :=
  fold_left (fun x i => Z.lxor x (Z.shiftr x i)) [32; 16; 8; 4; 2; 1] x.
Definition period_certification (s : list w128) : option (list w128) :=
  do w <- get s N;
  let t0 := Z.lxor (fst w) FIX1 in
  let t1 := Z.lxor (snd w) FIX2 in
  let inner := Z.land (folded (Z.lxor (Z.land t0 PCV1) (Z.land t1 PCV2))) 1 in
  if inner =? 1 then Some s
  else put s N (fst w, Z.lxor (snd w) 1).

(** dsfmt_chk_init_by_array, random_dsfmt.c 687-760 (mexp is the same
    constant, random_dsfmt.h, so the test at 698 is not taken). *)
Definition init_by_array (key : list Z) : option dsfmt :=
  let key_length := length key in
  let l := repeat 0x8b8b8b8b size in
  let count := if (size <? key_length + 1)%nat then (key_length + 1)%nat
               else size in
  do x <- get l 0;
  do y <- get l (mid mod size)%nat;
  do z <- get l ((size - 1) mod size)%nat;
  let r := ini_func1 (Z.lxor (Z.lxor x y) z) in
  do l1 <- modify (fun v => w32 (v + r)) l (mid mod size)%nat;
  let r' := w32 (r + Z.of_nat key_length) in
  do l2 <- modify (fun v => w32 (v + r')) l1 ((mid + lag) mod size)%nat;
  do l3 <- put l2 0 r';
  do (n, i, l4) <- keys key (count - 1) 1 l3;
  do (i', l5) <- rest n i l4;
  do l6 <- mix size i' l5;
  do s <- initial_mask (entries l6);
  do s' <- period_certification s;
  Some {| status := s'; idx := N64 |}.

(** [n] calls of eqdist: the values and the generator after them. *)
Fixpoint draws (n : nat) (g : dsfmt) : option (list spec_float * dsfmt) :=
  match n with
  | O => Some ([], g)
  | S n' =>
      do (x, g') <- eqdist g;
      do (xs, g'') <- draws n' g';
      Some (x :: xs, g'')
  end.

(** init_rng, random.c 55-70: [key] are the 624 values of rand(); then
    10e5 numbers are drawn and dropped. *)
Definition discarded : nat := Z.to_nat (10 * 10 ^ 5).
Definition init_rng (key : list Z) : option dsfmt :=
  do g <- init_by_array key;
  do (_, g') <- draws discarded g;
  Some g'.
