(** C157: chemical potentials in builds without composition nodes; more on C40. *)
From Coq Require Import Reals List Lra.
From Verif Require Import FuncModel FuncSpec ChemModel ChemProof.
Import ListNotations.
Local Open Scope R_scope.

(** C157.  For every number of types the energy is the sum of the numbers of atoms times the
    chemical potentials. *)
Theorem C157_linear : forall dim na values,
  chemical_potential [] dim na values = sum_types dim (fun i => INR (na i) * values i).
Proof. exact chempot_linear. Qed.
Print Assumptions C157_linear.
Example C157_ex : chemical_potential [] 3 (fun i => i) (fun i => INR (2 + i)) = 11.
Proof. rewrite chempot_linear. simpl. lra. Qed.

(** C40.  Between two neighbouring nodes a and b the interpolation uses the values of the
    node before a and of a itself (of the second pure type, if a is the first node). *)
Theorem C40_between : forall pre a b post values n0 n1, (0 < n0)%nat -> (0 < n1)%nat ->
  let x := INR n1 / INR (n0 + n1) in (forall c, In c pre -> c < x) -> a < x -> x <= b ->
  chemical_potential_2d (pre ++ a :: b :: post) values n0 n1 =
    line a (values (1 + length pre)%nat) b (values (2 + length pre)%nat) x * INR (n0 + n1).
Proof. exact chempot_between. Qed.
Print Assumptions C40_between.
(** With one node the energy is the interpolation for all compositions. *)
Theorem C40_one_node : forall c values n0 n1, (0 < n0)%nat -> (0 < n1)%nat -> 0 < c ->
  let x := INR n1 / INR (n0 + n1) in
  (x <= c -> chemical_potential_2d [c] values n0 n1 = line 0 (values 0%nat) c (values 2%nat) x * INR (n0 + n1)) /\
  (c < x -> chemical_potential_2d [c] values n0 n1 = line c (values 2%nat) 1 (values 1%nat) x * INR (n0 + n1)).
Proof. exact chempot_one_node. Qed.
Print Assumptions C40_one_node.
Example C40_between_ex : INR 1 / INR (1 + 1) <= 2 / 3 /\ 1 / 3 < INR 1 / INR (1 + 1).
Proof. simpl. lra. Qed.
