(** Properties C107, C108 and C109: the random numbers. *)
From Coq Require Import ZArith List Bool Lia QArith.
From Coq.Floats Require Import SpecFloat.
From Verif Require Import RngModel RngSpec RngProof RngProof2 RngProof3 RngProof4
  RngProof5 RngProof6.
Import ListNotations.
Local Open Scope Z_scope.

(** For every key and every number of draws: no access outside of the state,
    and every number is a multiple of 2^-52 in [0, 1). *)
Theorem C107_range : forall key n, exists g xs g',
  init_rng key = Some g /\ draws n g = Some (xs, g') /\ length xs = n /\
  Forall (fun x => in_unit x /\ exists k, on_grid x k) xs.
Proof. exact rng_range. Qed.

Theorem C107_array : forall key n, exists g xs g',
  init_by_array key = Some g /\ draws n g = Some (xs, g') /\ length xs = n /\
  Forall (fun x => in_unit x /\ exists k, on_grid x k) xs.
Proof. exact init_range. Qed.

(** Number [382 q + r] after the initialisation is the lower 52 bits of word
    [r] of block [q + 1]: every word of every block is used once, in order. *)
Theorem C107_stream : forall key g n xs g' q r x,
  init_by_array key = Some g -> draws n g = Some (xs, g') -> (r < 382)%nat ->
  nth_error xs (382 * q + r) = Some x ->
  exists s e, Nat.iter (S q) (fun o => bind o gen_rand_all) (Some (status g)) = Some s /\
    nth_error s (r / 2) = Some e /\
    on_grid x ((if (r mod 2 =? 0)%nat then fst e else snd e) mod 2 ^ 52).
Proof. exact init_stream. Qed.

(** A block is made from the one before it by the recursion of the generator
    (dSFMT2-19937:117-19:ffafffffffb3f-ffdfffc90fffd, random_dsfmt.h 783). *)
Theorem C107_recursion : forall s s', state_ok s -> gen_rand_all s = Some s' ->
  block_spec s s'.
Proof. exact gen_spec. Qed.

(** Different states have different successors. *)
Theorem C108_injective : forall s s' z, state_ok s -> state_ok s' ->
  gen_rand_all s = Some z -> gen_rand_all s' = Some z -> s = s'.
Proof. exact gen_inj. Qed.

(** Every state comes back, and so do the numbers, from the first one on. *)
Theorem C108_returns : forall s, state_ok s ->
  exists p, (0 < p)%nat /\
    Nat.iter p (fun o => bind o gen_rand_all) (Some s) = Some s.
Proof. exact blocks_return. Qed.

Theorem C108_periodic : forall key g, init_by_array key = Some g ->
  exists p, (0 < p)%nat /\
    forall n xs g' m x y, draws n g = Some (xs, g') ->
      nth_error xs m = Some x -> nth_error xs (m + p) = Some y ->
      exists k, on_grid x k /\ on_grid y k.
Proof. exact init_periodic. Qed.

(** The condition on the initial state for the long period. *)
Theorem C109_certified : forall key g, init_by_array key = Some g ->
  exists u0 u1, nth_error (status g) 191 = Some (u0, u1) /\
    dot128 (Z.lxor u0 0x90014964b32f4329) (Z.lxor u1 0x3b8d12ac548a7c7a)
      0x3d84e1ac0dc82880 0x0000000000000001 = true.
Proof. exact init_certified. Qed.

Theorem C109_only : forall s s' u0 u1, state_ok s ->
  period_certification s = Some s' -> nth_error s 191 = Some (u0, u1) ->
  (dot128 (Z.lxor u0 0x90014964b32f4329) (Z.lxor u1 0x3b8d12ac548a7c7a)
     0x3d84e1ac0dc82880 0x0000000000000001 = true -> s' = s) /\
  (forall i, i <> 191%nat -> nth_error s' i = nth_error s i).
Proof. exact certification_only. Qed.

(** The word 0x3FF8000000000000 is 1.5 and gives the number 1/2. *)
Example number_ex :
  SFsub 53 1024 (decode 0x3FF8000000000000) one =
  S754_finite false 4503599627370496 (-53).
Proof. vm_compute. reflexivity. Qed.
Example number_ex_in : on_grid (S754_finite false 4503599627370496 (-53)) (2 ^ 51).
Proof.
  split; [lia|]. eexists. split; [reflexivity|]. vm_compute. reflexivity.
Qed.
(** The recursion on a small entry. *)
Example recursion_ex :
  do_recursion (1, 2) (3, 4) (5, 6) =
  ((25776619650, 21479031046), (25770328067, 21475885060)).
Proof. vm_compute. reflexivity. Qed.
(** The state for the key 1, 2, 3, 4, by an independent program. *)
Example init_ex :
  match init_by_array [1; 2; 3; 4] with
  | Some g => map (word (status g)) [0; 1; 381; 382; 383]%nat
  | None => []
  end =
  [Some 4609370778515404404; Some 4608525866181349446; Some 4608683201952722364;
   Some 157821613970622918; Some 13641359206622408549].
Proof. vm_compute. reflexivity. Qed.
(** A state, for C107 and C108. *)
Example state_ex : state_ok (repeat (1, 2) 192) /\
  exists s, gen_rand_all (repeat (1, 2) 192) = Some s /\
    nth_error s 0 <> Some (1, 2).
Proof.
  split.
  - split; [reflexivity|]. apply Forall_forall. intros x Hx.
    apply repeat_spec in Hx. subst x. unfold word64. cbn [fst snd]. lia.
  - destruct (gen_rand_all (repeat (1, 2) 192)) as [s|] eqn:E;
      [|vm_compute in E; discriminate].
    exists s. split; [reflexivity|].
    apply (f_equal (fun o => match o with Some s => nth_error s 0 | None => None end)) in E.
    cbn beta iota in E. rewrite <- E. vm_compute. discriminate.
Qed.
(** A last entry that the certification leaves, and one that it changes. *)
Example certification_ex :
  dot128 (Z.lxor 0 0x90014964b32f4329) (Z.lxor 0 0x3b8d12ac548a7c7a)
    0x3d84e1ac0dc82880 1 = true /\
  dot128 (Z.lxor 0 0x90014964b32f4329) (Z.lxor 1 0x3b8d12ac548a7c7a)
    0x3d84e1ac0dc82880 1 = false.
Proof. split; vm_compute; reflexivity. Qed.

Print Assumptions C107_range.
Print Assumptions C107_array.
Print Assumptions C107_stream.
Print Assumptions C107_recursion.
Print Assumptions C108_injective.
Print Assumptions C108_returns.
Print Assumptions C108_periodic.
Print Assumptions C109_certified.
Print Assumptions C109_only.
