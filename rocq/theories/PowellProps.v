(** C20, C21, C66: least squares optimiser. *)
From Coq Require Import List Arith QArith.
From Verif Require Import ListUtil DiffEvoModel LineMinModel PowellModel PowellProof PowellProof2 PowellProof3.
Import ListNotations.
Local Open Scope Q_scope.

(** C20.  At every call of the linear solver, after any number of direction replacements
    and restarts, its matrix is gamma^t gamma and its right-hand side - gamma^t f for the
    current derivative matrix gamma and the deviation vector f of the current parameters. *)
Theorem C20_normal_equations : forall rt mdim idx bounded pmin pmax maxchange costf devf solve,
  (forall a b, Forall2 Qeq a b -> costf a = costf b) ->
  (forall a b, Forall2 Qeq a b -> devf a = devf b) ->
  forall s, head rt mdim idx bounded pmin pmax maxchange costf devf solve s ->
  normal_matrix (gam s) (length idx) mdim (les s) /\
  normal_rhs (gam s) (devf (xi s)) (length idx) mdim (rhs s).
Proof. exact normal_equations. Qed.
Print Assumptions C20_normal_equations.

(** The single steps, for every matrix and vector. *)
Theorem C20_init : forall gamma f n m A p A' p',
  lineqsys_init gamma f n m A p = (A', p') -> normal_matrix gamma n m A' /\ normal_rhs gamma f n m p'.
Proof. exact lineqsys_init_spec. Qed.
Print Assumptions C20_init.
Theorem C20_update : forall gamma gamma' f i n m A p A' p',
  (i < n)%nat -> normal_matrix gamma n m A ->
  (forall r c, c <> i -> gamma' r c = gamma r c) ->
  lineqsys_update gamma' f i n m A p = (A', p') -> normal_matrix gamma' n m A' /\ normal_rhs gamma' f n m p'.
Proof. exact lineqsys_update_spec. Qed.
Print Assumptions C20_update.

Example C20_ex : exists s, head wrt 1 [0%nat] false (fun _ => 0) (fun _ => 0) (fun _ => None) wcost wdev wsolve s.
Proof. destruct restart_refuted as (s & H & _). exists s. exact H. Qed.

(** C21.  The optimiser ends with the cost and deviation vector of its final parameters,
    not above the start cost, with the fixed parameters unchanged; every outer iteration
    that was followed by another one gained more than 1e-8 and more than d_eps. *)
Theorem C21_never_worse : forall rt mdim idx bounded pmin pmax maxchange costf devf solve flagfile d_eps,
  (forall a b, Forall2 Qeq a b -> costf a = costf b) ->
  (forall a b, Forall2 Qeq a b -> devf a = devf b) ->
  forall fuel x s log,
  run_powell_lsq rt mdim idx bounded pmin pmax maxchange costf devf solve flagfile d_eps fuel x = Final s log ->
  length (xi s) = length x /\ costf (xi s) <= costf x /\
  f1 s = costf (xi s) /\ buf s B1 = devf (xi s) /\
  (forall k, ~ In k idx -> nth k (xi s) 0 == nth k x 0) /\
  Forall (fun e => PRECISION / 10 < fst e - snd e /\ d_eps < fst e - snd e) log.
Proof. exact powell_never_worse. Qed.
Print Assumptions C21_never_worse.

(** For costs that are not negative it ends (by itself or by an error exit in the line search). *)
Theorem C21_terminates : forall rt mdim idx bounded pmin pmax maxchange costf devf solve flagfile d_eps,
  (forall a b, Forall2 Qeq a b -> costf a = costf b) ->
  (forall a b, Forall2 Qeq a b -> devf a = devf b) ->
  forall x, (forall x, 0 <= costf x) -> exists fuel,
  run_powell_lsq rt mdim idx bounded pmin pmax maxchange costf devf solve flagfile d_eps fuel x <> NoEnd.
Proof. exact powell_terminates. Qed.
Print Assumptions C21_terminates.

Example C21_ex : 
  ((forall a b, Forall2 Qeq a b -> wcost a = wcost b) /\ (forall a b, Forall2 Qeq a b -> wdev a = wdev b)) /\
  exists s log, run_powell_lsq wrt 1 [0%nat] false (fun _ => 0) (fun _ => 0) (fun _ => None) wcost wdev wsolve
    (fun n => (n =? 0)%nat) (1#10) 2 [0] = Final s log /\ wcost (xi s) < 1.
Proof. split; [exact w_ext|exact powell_ex]. Qed.

(** C66.  What gamma_init builds from the reference vector r it is given: columns that are
    normalised difference quotients against r, directions along the coordinate axes. *)
Theorem C66_gradient : forall rt mdim idx bounded pmin pmax devf g x r g' d' x',
  gamma_init rt mdim idx bounded pmin pmax devf g x r = (g', d', x', O) ->
  forall i, (i < length idx)%nat -> 0 < d' i i /\
    (forall k, k <> i -> d' i k = 0) /\
    (forall j, (j < mdim)%nat -> g' j i == d' i i * quot idx bounded pmin pmax devf x r i j) /\
    ((forall s, s == sumf mdim (fun j => quot idx bounded pmin pmax devf x r i j * quot idx bounded pmin pmax devf x r i j) ->
       rt s * rt s == s) ->
      sumf mdim (fun j => g' j i * g' j i) == 1).
Proof. exact gamma_init_spec. Qed.
Print Assumptions C66_gradient.

Theorem C66_exact_if_affine : forall idx bounded pmin pmax a c devf x i j,
  affine a c devf -> (nth i idx O < length x)%nat -> ~ scale bounded pmin pmax i == 0 ->
  quot idx bounded pmin pmax devf x (devf x) i j == a j (nth i idx O).
Proof. exact quot_affine. Qed.
Print Assumptions C66_exact_if_affine.

Example C66_ex : exists g d x, 
  gamma_init wrt 1 [0%nat] false (fun _ => 0) (fun _ => 0) wdev zero_mat [0] (wdev [0]) = (g, d, x, O).
Proof. repeat eexists. Qed.

(** REFUTED: in later outer iterations run_powell_lsq passes forces_2 (powell_lsq.c:154),
    which then holds the deviation vector of the second best point of the last line search.
    In this run (one parameter, deviation x - 3) the second derivative matrix is not built
    from difference quotients at the current parameters. *)
Theorem C66_restart_refuted : exists s,
  head wrt 1 [0%nat] false (fun _ => 0) (fun _ => 0) (fun _ => None) wcost wdev wsolve s /\
  gam s O O * gam s O O == 1 /\
  ~ gam s O O == dir s O O * quot [0%nat] false (fun _ => 0) (fun _ => 0) wdev (xi s) (wdev (xi s)) O O.
Proof. exact restart_refuted. Qed.
Print Assumptions C66_restart_refuted.

(** C20: the replaced column is the derivative along the line minus mu times the deviation
    vector, normalised together with the direction; if the cost is the squared norm of the
    deviation vector it is orthogonal to that vector. *)
Theorem C20_replaced_column : forall rt mdim g a b fa fb dl j fm g' d',
  gamma_update rt mdim g a b fa fb dl j fm = Some (g', d') ->
  ~ a == b /\ ~ fm == 0 /\
  exists mu t, mu == sumf mdim (fun i => slope a b fa fb i * fa i) / fm /\ 0 < t /\
    (forall i, (i < mdim)%nat -> g' i j == (slope a b fa fb i - mu * fa i) / t) /\
    d' = map (fun x => x / t) dl /\
    ((forall s, s == sumf mdim (fun i => (slope a b fa fb i - mu * fa i) * (slope a b fa fb i - mu * fa i)) -> rt s * rt s == s) ->
      sumf mdim (fun i => g' i j * g' i j) == 1) /\
    (fm == sumf mdim (fun i => fa i * fa i) -> sumf mdim (fun i => g' i j * fa i) == 0).
Proof. exact gamma_update_spec. Qed.
Print Assumptions C20_replaced_column.
Theorem C20_direction : forall idx p q i, (i < length idx)%nat ->
  let j := best_dir idx p q in Qabs.Qabs (p i * q i) <= Qabs.Qabs (p j * q j).
Proof. exact best_dir_max. Qed.
Print Assumptions C20_direction.
(** The step is the solution expressed in the directions; in bounded builds it ends inside of
    the bounds and is unchanged if it did before, in the others a component above its limit
    is noticed. *)
Theorem C66_step : forall idx bounded pmin pmax maxchange d q x del del' fl,
  NoDup idx -> (forall k, In k idx -> (k < length del)%nat) ->
  step_dir idx bounded pmin pmax maxchange d q x del = (del', fl) ->
  forall i, (i < length idx)%nat -> let k := nth i idx O in
  exists v, v == sumf (length idx) (fun j => d i j * q j) /\
  (if bounded then (pmin i <= pmax i -> pmin i <= nth k x 0 + nth k del' 0 <= pmax i) /\
     (pmin i <= nth k x 0 + v <= pmax i -> nth k del' 0 = v)
   else nth k del' 0 = v /\ (fl = false -> forall c, maxchange k = Some c -> 0 < c -> Qabs.Qabs v <= c)).
Proof. exact step_spec. Qed.
Print Assumptions C66_step.
Example C66_ex2 : NoDup [0%nat; 2%nat] /\ (forall k, In k [0%nat; 2%nat] -> (k < length [0; 0; 0])%nat).
Proof. split; [repeat constructor; simpl; intuition discriminate|]. intros i [<-|[<-|[]]]; repeat constructor. Qed.
