(** Proofs about the chemical potential. *)
From Coq Require Import Reals List Bool Arith Lia Lra.
From Verif Require Import FuncModel FuncSpec FuncProof FuncProof3 ChemModel.
Import ListNotations.
Local Open Scope R_scope.

(** Sum over the types *)
Fixpoint sum_types (n : nat) (f : nat -> R) : R := match n with O => 0 | S n => sum_types n f + f n end.
Lemma sum_types_front : forall n f, sum_types (S n) f = f 0%nat + sum_types n (fun i => f (S i)).
Proof. induction n as [|n IH]; intros f; [cbn; lra|]. change (sum_types (S (S n)) f) with (sum_types (S n) f + f (S n)). rewrite IH. cbn. lra. Qed.
Lemma multidim_sum : forall rem i na values t, multidim_from rem i na values t =
  t + sum_types rem (fun k => INR (na (i + k)%nat) * values (i + k)%nat).
Proof.
  induction rem as [|rem IH]; intros i na values t; [cbn; lra|].
  cbn [multidim_from]. rewrite IH, sum_types_front, Nat.add_0_r.
  assert (E : forall n f g, (forall k, f k = g k) -> sum_types n f = sum_types n g).
  { clear. induction n as [|n IH]; intros f g H; [reflexivity|]. cbn. rewrite (IH f g H), H. reflexivity. }
  rewrite (E rem (fun k => INR (na (S i + k)%nat) * values (S i + k)%nat) (fun k => INR (na (i + S k)%nat) * values (i + S k)%nat)).
  - lra.
  - intros k. replace (i + S k)%nat with (S i + k)%nat by lia. reflexivity.
Qed.
Theorem chempot_linear : forall dim na values,
  chemical_potential [] dim na values = sum_types dim (fun i => INR (na i) * values i).
Proof.
  intros dim na values. unfold chemical_potential.
  destruct (Nat.eqb_spec dim 1) as [->|A]; [unfold chemical_potential_1d; cbn; lra|].
  destruct (Nat.eqb_spec dim 2) as [->|B]; [rewrite chempot_no_nodes; cbn; lra|].
  destruct (Nat.leb_spec 3 dim) as [C|C].
  - unfold chemical_potential_multidim. rewrite multidim_sum. cbn. lra.
  - assert (dim = 0)%nat by lia. subst. reflexivity.
Qed.

Lemma find_between : forall x pre a b post i, (forall c, In c pre -> c < x) -> a < x -> x <= b ->
  find_node x (pre ++ a :: b :: post) i = (i + length pre + 1)%nat.
Proof.
  intros x pre a b post; induction pre as [|c pre IH]; intros i P A B; cbn.
  - destruct (Rlt_dec a x); [|lra]. destruct (Rlt_dec b x); [lra|]. lia.
  - destruct (Rlt_dec c x) as [_|N]; [|exfalso; apply N, P; left; reflexivity].
    rewrite IH by (try assumption; intros d D; apply P; right; exact D). lia.
Qed.
Theorem chempot_between : forall pre a b post values n0 n1, (0 < n0)%nat -> (0 < n1)%nat ->
  let x := INR n1 / INR (n0 + n1) in (forall c, In c pre -> c < x) -> a < x -> x <= b ->
  chemical_potential_2d (pre ++ a :: b :: post) values n0 n1 =
    line a (values (1 + length pre)%nat) b (values (2 + length pre)%nat) x * INR (n0 + n1).
Proof.
  intros pre a b post values n0 n1 A B x P Ha Hb.
  destruct (frac_range n0 n1 ltac:(lia)) as (R1 & R2 & R3 & _). fold x in R1, R2, R3.
  unfold chemical_potential_2d. fold x.
  destruct (Req_EM_T x 0) as [Z|_]; [apply (proj1 R2) in Z; lia|]. destruct (Req_EM_T x 1) as [Z|_]; [apply (proj1 R3) in Z; lia|].
  rewrite (find_between x pre a b post 0 P Ha Hb). rewrite app_length. cbn [length plus].
  replace (Nat.eqb (length pre + S (S (length post))) 0) with false by (symmetry; apply Nat.eqb_neq; lia).
  replace (Nat.eqb (length pre + 1) 0) with false by (symmetry; apply Nat.eqb_neq; lia).
  replace (Nat.eqb (length pre + 1) (length pre + S (S (length post)))) with false by (symmetry; apply Nat.eqb_neq; lia).
  rewrite (app_nth2 pre (a :: b :: post)) by lia. rewrite (app_nth2 pre (a :: b :: post)) by lia.
  replace (length pre + 1 - 1 - length pre)%nat with 0%nat by lia.
  replace (length pre + 1 - length pre)%nat with 1%nat by lia.
  replace (S (S (length pre + 1)) - 2)%nat with (1 + length pre)%nat by lia.
  replace (S (S (length pre + 1)) - 1)%nat with (2 + length pre)%nat by lia.
  reflexivity.
Qed.
Theorem chempot_one_node : forall c values n0 n1, (0 < n0)%nat -> (0 < n1)%nat -> 0 < c ->
  let x := INR n1 / INR (n0 + n1) in
  (x <= c -> chemical_potential_2d [c] values n0 n1 = line 0 (values 0%nat) c (values 2%nat) x * INR (n0 + n1)) /\
  (c < x -> chemical_potential_2d [c] values n0 n1 = line c (values 2%nat) 1 (values 1%nat) x * INR (n0 + n1)).
Proof.
  intros c values n0 n1 A B C x. split; intros H.
  - exact (chempot_first c [] values n0 n1 A B C H).
  - exact (chempot_last c [] values n0 n1 A B (fun a I => match I with or_introl E => eq_ind c (fun a => a < x) H a E | or_intror F => match F with end end)).
Qed.
