(** Properties C148 and C149: arrays of random numbers and the other ranges. *)
From Coq Require Import ZArith List Bool Lia QArith.
From Coq.Floats Require Import SpecFloat.
From Verif Require Import RngModel RngSpec FillModel FillSpec FillProof2.
Import ListNotations.
Local Open Scope nat_scope.

(** An array of [2 n] numbers made by a generator that stands at the end of
    its block holds the numbers of [2 n] single calls, and the calls behind it
    go on where those would. The generator can fill arrays again. *)
Theorem C148_same : forall k g a n, length (status g) = 192 -> idx g = 382 ->
  length a = n -> 191 <= n ->
  exists g' a' xs,
    fill_array k g a (2 * n) = Some (g', a') /\ length a' = n /\
    doubles_of a' = Some xs /\ length xs = 2 * n /\
    length (status g') = 192 /\ idx g' = 382 /\
    (exists g1, calls (genrand k) (2 * n) g = Some (xs, g1)) /\
    forall k' m, exists xs' ys g1 g2,
      length xs' = 2 * n /\
      calls (genrand k') (2 * n + m) g = Some (xs' ++ ys, g1) /\
      calls (genrand k') m g' = Some (ys, g2).
Proof. exact fill_same. Qed.

(** No access outside of the arrays and no use of entries that were not
    written or were converted, exactly for the sizes that pass the assertions. *)
Theorem C148_sizes : forall k g a size, length (status g) = 192 -> idx g <= 382 ->
  length a = Nat.div2 size ->
  ((exists r, fill_array k g a size = Some r) <->
   size mod 2 = 0 /\ 382 <= size).
Proof. exact fill_when. Qed.

(** In the middle of a block (which the comment of the function forbids) the
    rest of the block is left out, and the calls behind the array give its last
    numbers a second time. *)
Theorem C148_middle : forall k g a n i, length (status g) = 192 -> idx g = i ->
  i <= 382 -> length a = n -> 191 <= n ->
  exists g' a' xs,
    fill_array k g a (2 * n) = Some (g', a') /\ doubles_of a' = Some xs /\
    (exists skipped g1, length skipped = 382 - i /\
       calls (genrand k) (382 - i + 2 * n) g = Some (skipped ++ xs, g1)) /\
    exists kept ys g2, length ys = 382 - i /\ xs = kept ++ ys /\
      calls (genrand k) (382 - i) g' = Some (ys, g2).
Proof. exact fill_again. Qed.

Definition g_ex : dsfmt :=
  {| status := repeat (0x3FF8000000000001, 0x3FF0000000000000)%Z 192; idx := 382 |}.
Example C148_ex :
  match fill_array C0O1 g_ex (repeat Junk 200) 400, calls (genrand C0O1) 400 g_ex with
  | Some (_, a), Some (xs, _) => doubles_of a = Some xs
  | _, _ => False
  end.
Proof. vm_compute. reflexivity. Qed.
(** The numbers are not all the same. *)
Example C148_numbers_ex :
  match calls (genrand C0O1) 2 g_ex with
  | Some ([x; y], _) => value x <> value y
  | _ => False
  end.
Proof. vm_compute. discriminate. Qed.

(** For both initialisations, every seed and every number of calls: the numbers
    lie in the range of the function. *)
Theorem C149_range : forall k n g, started g -> exists xs g',
  calls (genrand k) n g = Some (xs, g') /\ length xs = n /\
  Forall (fun x => exists q, value x = Some q /\ in_range k q) xs.
Proof. exact started_range. Qed.

(** The four functions and the one for integers make their numbers from the
    same 52 bits, without rounding. *)
Theorem C149_related : forall n g, started g -> exists us : list Z,
  length us = n /\ Forall (fun u => 0 <= u < 2 ^ 52)%Z us /\
  (forall k, exists xs g', calls (genrand k) n g = Some (xs, g') /\
    Forall2 (fun x u => exists q, value x = Some q /\
      (q == inject_Z (numerator k u) / inject_Z (2 ^ 52))%Q) xs us) /\
  exists g', calls genrand_uint32 n g = Some (map (fun u => u mod 2 ^ 32)%Z us, g').
Proof. exact started_related. Qed.

Theorem C149_array : forall k g a n, started g -> length a = n -> (191 <= n)%nat ->
  exists g' a' xs, fill_array k g a (2 * n) = Some (g', a') /\
    doubles_of a' = Some xs /\ length xs = (2 * n)%nat /\
    Forall (fun x => exists q, value x = Some q /\ in_range k q) xs.
Proof. exact started_array. Qed.

(** dsfmt_init_gen_rand leaves a certified state for every seed. *)
Theorem C149_seed : forall seed, (0 <= seed < 2 ^ 32)%Z -> exists g u0 u1,
  init_gen_rand seed = Some g /\ nth_error (status g) 191 = Some (u0, u1) /\
  dot128 (Z.lxor u0 0x90014964b32f4329) (Z.lxor u1 0x3b8d12ac548a7c7a)
    0x3d84e1ac0dc82880 0x0000000000000001 = true.
Proof. exact seed_certified. Qed.

Example C149_ex : exists g, started g.
Proof.
  destruct (C149_seed 1 ltac:(lia)) as [g [u0 [u1 [E _]]]].
  exists g. right. exists 1%Z. split; [lia | exact E].
Qed.
(** The ends of the ranges are reached, or just not. *)
Example C149_ends_ex :
  value (convert1 O0C1 0x3FF0000000000000) = value (convert1 C1O2 0x3FF0000000000000) /\
  convert1 C0O1 0x3FF0000000000000 = S754_zero false /\
  value (convert1 O0O1 0x3FF0000000000000) =
  value (convert1 C0O1 0x3FF0000000000001).
Proof. vm_compute. repeat split; reflexivity. Qed.

Print Assumptions C148_same.
Print Assumptions C148_sizes.
Print Assumptions C148_middle.
Print Assumptions C149_range.
Print Assumptions C149_related.
Print Assumptions C149_array.
Print Assumptions C149_seed.
