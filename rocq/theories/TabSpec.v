(** Decimal output and input of double precision numbers, over the rationals. *)
From Coq Require Import ZArith QArith Qabs.
Open Scope Q_scope.

(** binary64 numbers (no bound on the exponent is needed) *)
Definition binary64 (x : Q) : Prop :=
  exists m e : Z, (Z.abs m < 2 ^ 53)%Z /\ x == inject_Z m * Qpower 2 e.
(** printf("%.<p>e"): [d] has 1+p significant digits and is as near to [x] as these allow *)
Definition prints_e (p : Z) (x d : Q) : Prop :=
  (x == 0 /\ d == 0) \/
  exists E m : Z, Qpower 10 E <= Qabs x /\ Qabs x < Qpower 10 (E + 1) /\
    d == inject_Z m * Qpower 10 (E - p) /\ Qabs (x - d) <= Qpower 10 (E - p) * (1 # 2).
(** printf("%.<p>f"): p digits after the point *)
Definition prints_f (p : Z) (x d : Q) : Prop :=
  exists m : Z, d == inject_Z m * Qpower 10 (- p) /\ Qabs (x - d) <= Qpower 10 (- p) * (1 # 2).
(** scanf("%lf"): the nearest binary64 number *)
Definition reads (d y : Q) : Prop :=
  binary64 y /\ forall z, binary64 z -> Qabs (d - y) <= Qabs (d - z).
