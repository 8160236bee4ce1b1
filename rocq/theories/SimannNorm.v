(** Annealing with a cost function that also normalises its argument (apot_check_params,
    functions.c:297-307, called by calc_forces on xi_new): outer and inner cutoff radius of a
    Tersoff potential are exchanged if they are in the wrong order. *)
From Coq Require Import List Arith QArith Qabs Bool.
From Verif Require Import ListUtil DiffEvoModel SimannModel.
Import ListNotations.
Local Open Scope nat_scope.

(** entries 0, 1: S and R *)
Definition swap_cut (x : list Q) : list Q :=
  match x with s :: r :: l => if qltb s r then r :: s :: l else x | _ => x end.
(** xi_new after the random change of parameter h and calc_forces *)
Definition norm_move (change : nat -> nat -> Q -> Q) (k h : nat) (x v : list Q) : list Q * list Q :=
  (swap_cut (upd x h (change k h (nth h x 0%Q))), v).

(** S = 3, R = 29/10; first S becomes 28/10, later nothing changes *)
Definition wn_change (k h : nat) (x : Q) : Q := if k =? 0 then (28#10)%Q else x.
Definition wn_cost (_ : unit) (y : list Q) : Q :=
  let x := swap_cut y in
  if Qeq_bool (nth 0 x 0%Q) 3 then 3%Q else if Qeq_bool (nth 1 x 0%Q) (28#10) then 1%Q else 2%Q.
Notation wn_loop := (sa_loop unit BApot wn_cost None 2 (fun h => h) (norm_move wn_change) (fun _ => false)
  (fun _ _ => false) 6 0 (repeat (wn_cost tt [3; 29#10]%Q) NEPS) (sa_init unit wn_cost 2 tt [3; 29#10]%Q)).
Lemma wn_end : option_map (fun s => (fcur unit s, xi unit s)) wn_loop = Some (1, [29#10; 29#10])%Q.
Proof. vm_compute. reflexivity. Qed.
Lemma swap_idem : forall y, swap_cut (swap_cut y) = swap_cut y.
Proof.
  intros [|s [|r l]]; auto. cbn [swap_cut]. destruct (qltb s r) eqn:E; cbn [swap_cut]; [|rewrite E; auto].
  destruct (qltb r s) eqn:E'; auto. exfalso. unfold qltb in *.
  apply negb_true_iff in E, E'. assert (~ (r <= s)%Q) by (rewrite <- Qle_bool_iff; congruence). assert (~ (s <= r)%Q) by (rewrite <- Qle_bool_iff; congruence).
  apply Qnot_le_lt, Qlt_le_weak in H. contradiction.
Qed.
Lemma current_cost_normalised_refuted : exists (costf : unit -> list Q -> Q) change x s,
  (forall g y, costf g (swap_cut y) == costf g y)%Q /\
  sa_loop unit BApot costf None 2 (fun h => h) (norm_move change) (fun _ => false) (fun _ _ => false) 6 0
    (repeat (costf tt x) NEPS) (sa_init unit costf 2 tt x) = Some s /\
  (fcur unit s < costf tt (xi unit s))%Q.
Proof.
  pose proof wn_end as W. destruct wn_loop as [s|] eqn:E; [|discriminate]. cbn [option_map] in W. 
  assert (W1 : fcur unit s = 1%Q) by congruence. assert (W2 : xi unit s = [29#10; 29#10]%Q) by congruence.
  exists wn_cost, wn_change, [3; 29#10]%Q, s. split; [|split; [exact E|rewrite W1, W2; reflexivity]].
  intros g y. unfold wn_cost. rewrite swap_idem. reflexivity.
Qed.
