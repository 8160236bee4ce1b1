(** What is demanded of random numbers in the four ranges. *)
From Coq Require Import ZArith QArith.
From Verif Require Import RngModel FillModel.
Local Open Scope Z_scope.

Definition in_range (k : kind) (q : Q) : Prop :=
  match k with
  | C1O2 => (1 <= q)%Q /\ (q < 2)%Q
  | C0O1 => (0 <= q)%Q /\ (q < 1)%Q
  | O0C1 => (0 < q)%Q /\ (q <= 1)%Q
  | O0O1 => (0 < q)%Q /\ (q < 1)%Q
  end.

(** The number made from [u], 0 <= u < 2^52, times 2^52: 1 + u, u, 1 - u, and
    the odd one of the two neighbours. *)
Definition numerator (k : kind) (u : Z) : Z :=
  match k with
  | C1O2 => 2 ^ 52 + u
  | C0O1 => u
  | O0C1 => 2 ^ 52 - u
  | O0O1 => 2 * (u / 2) + 1
  end.

(** A generator after one of its initialisations. *)
Definition started (g : dsfmt) : Prop :=
  (exists key, init_by_array key = Some g) \/
  (exists seed, 0 <= seed < 2 ^ 32 /\ init_gen_rand seed = Some g).
