(** Property C110: normdist. *)
From Coq Require Import Reals Lra Lia.
From Verif Require Import NormModel NormSpec NormProof.
Local Open Scope R_scope.

(** Point [m] of the plane is (2 u(p+2m) - 1, 2 u(p+2m+1) - 1).  A call that has
    no number in stock uses the first point inside the unit circle and away
    from its centre; log and sqrt are taken in their domain; the next call
    gives the partner and draws nothing; the squares add up to -2 log r^2. *)
Theorem C110_pair : forall u fuel fuel' st y1 st1, have_number st = false ->
  normdist u fuel st = Some (y1, st1) ->
  exists m y2 st2, (m < fuel)%nat /\
    normdist u fuel' st1 = Some (y2, st2) /\ have_number st2 = false /\
    inside u (pos st) m /\ (forall k, (k < m)%nat -> ~ inside u (pos st) k) /\
    pos st1 = (pos st + 2 * m + 2)%nat /\ pos st2 = pos st1 /\
    0 < -2 * ln (rad2 u (pos st) m) / rad2 u (pos st) m /\
    y1 = px u (pos st) m * sqrt (-2 * ln (rad2 u (pos st) m) / rad2 u (pos st) m) /\
    y2 = py u (pos st) m * sqrt (-2 * ln (rad2 u (pos st) m) / rad2 u (pos st) m) /\
    y1 ^ 2 + y2 ^ 2 = -2 * ln (rad2 u (pos st) m).
Proof. exact normdist_pair. Qed.

Theorem C110_returns : forall u st m, have_number st = false ->
  inside u (pos st) m -> exists fuel r, normdist u fuel st = Some r.
Proof. exact normdist_ends. Qed.

(** The numbers 0, 0, 3/4, 1/2, ...: the first point is a corner of the square,
    the second one is inside. *)
Definition u_ex (n : nat) : R := match n with 2%nat => 3 / 4 | 3%nat => 1 / 2 | _ => 0 end.
Example pair_ex : ~ inside u_ex 0 0 /\ inside u_ex 0 1.
Proof.
  unfold inside, rad2, px, py, u_ex. cbn [Nat.add Nat.mul]. split; lra.
Qed.

Print Assumptions C110_pair.
Print Assumptions C110_returns.
