(** C17-C19: line search. *)
From Coq Require Import List Arith QArith.
From Verif Require Import ListUtil DiffEvoModel LineMinModel LineMinProof.
Import ListNotations.
Local Open Scope Q_scope.

(** C17.  For every cost function on the line: a successful bracketing delivers a middle
    point strictly between the outer points and strictly cheaper than both, not above
    either start value, with the matching deviation vector in the first buffer, after fewer
    than MAX_IT = 100 evaluations. *)
Theorem C17_bracket : forall V cost (dev : Q -> V) x1 x2 m s m',
  x1 < x2 -> m B1 = dev x1 -> m B2 = dev x2 ->
  bracket V cost dev x1 x2 (cost x1) (cost x2) m = Some (s, m') ->
  xl V s < xc V s /\ xc V s < xr V s /\
  fl V s = cost (xl V s) /\ fc V s = cost (xc V s) /\ fr V s = cost (xr V s) /\
  cost (xc V s) < cost (xl V s) /\ cost (xc V s) < cost (xr V s) /\
  cost (xc V s) <= cost x1 /\ cost (xc V s) <= cost x2 /\
  m' B1 = dev (xc V s) /\ (neval V s < MAX_IT)%nat.
Proof. exact bracket_spec. Qed.
Print Assumptions C17_bracket.

(** The loop ends by success or by the bound on evaluations: more passes change nothing. *)
Theorem C17_bracket_bounded : forall V cost (dev : Q -> V) x1 x2 m k,
  x1 < x2 -> m B1 = dev x1 -> m B2 = dev x2 ->
  br_loop V cost dev (MAX_IT + k) (br_start V cost dev x1 x2 (cost x1) (cost x2) m) =
  br_loop V cost dev MAX_IT (br_start V cost dev x1 x2 (cost x1) (cost x2) m).
Proof. exact bracket_bounded. Qed.
Print Assumptions C17_bracket_bounded.

Example C17_ex : exists s m', bracket Q pcost pdev 0 (1 # 10) (pcost 0) (pcost (1 # 10))
  (fun b => match b with B1 => 0 | _ => 1 # 10 end) = Some (s, m').
Proof. exact bracket_ex. Qed.

(** C18.  For every bracket a < b < c and every cost function: no division by zero; if the
    tolerance is met within 100 iterations the point returned lies inside, is not worse
    than b, comes with its own cost and deviation vector (and the second point with its
    vector), and every evaluated point lies strictly inside the bracket. *)
Theorem C18_brent : forall V cost (dev : Q -> V) a b c tol m,
  0 <= tol -> a < b < c -> m B1 = dev b ->
  match brent V cost dev a b c (cost b) tol m with
  | Done _ x x2 f m' s' => a < x < c /\ f = cost x /\ f <= cost b /\ m' B1 = dev x /\ m' B2 = dev x2 /\
                          (forall y, In y (pts V s') -> a < y < c) /\ (length (pts V s') <= 1 + ITMAX)%nat
  | TooMany _ => True
  | DivisionByZero _ => False
  end.
Proof. exact brent_spec. Qed.
Print Assumptions C18_brent.

Example C18_ex : match brent Q pcost pdev 0 2 5 (pcost 2) (1#2) (fun _ => 2) with
  | Done _ x _ f _ _ => Qle_bool 2 x && Qle_bool f 1 | _ => false end = true.
Proof. vm_compute. reflexivity. Qed.

(** C19.  A line search that does not abort moves the parameters to a point on the line,
    rescales the direction by the same factor, returns the cost and deviation vector of the
    new position, not above the start cost. *)
Theorem C19_linmin : forall V costf (devf : list Q -> V) xi del f0 m xi' del' f x1 x2 m',
  f0 = costf (along xi del 0) -> m B1 = devf (along xi del 0) ->
  linmin V costf devf xi del f0 m = Some (xi', del', f, x1, x2, m') ->
  xi' = along xi del x1 /\ del' = map (fun d => d * x1) del /\
  f = costf xi' /\ f <= f0 /\ m' B1 = devf xi' /\ m' B2 = devf (along xi del x2).
Proof. exact linmin_spec. Qed.
Print Assumptions C19_linmin.

Example C19_ex : exists r, linmin Q (fun l => scost (nth 0 l 0)) (fun l => nth 0 l 0) [0] [1] (scost 0) (fun _ => 0) = Some r.
Proof. exact linmin_ex. Qed.
