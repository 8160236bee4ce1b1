(** Where the force routines find their parameters: C89 (Stillinger-Weber), C90 (Tersoff). *)
From Coq Require Import ZArith List Bool Arith Lia.
From Verif Require Import PairIndexModel PtrModel PtrSpec PtrProof PtrProof2 PtrProof3.
Import ListNotations.
Local Open Scope Z_scope.

(** C89: after any sequence of calls, every pointer of the Stillinger-Weber routine is at the
    place of its parameter in the array of the last call; lambda is global for the last type only. *)
Theorem C89_pointers_partial : forall n gidx g, (0 < n)%nat -> consistent (sw_size n) g ->
  (forall j p, instance g j (2 * npair n) p -> (p mod npair n = npair n - 1)%nat) ->
  forall len xs x, 2 < len -> 0 <= gidx -> gidx + Z.of_nat (length g) <= len -> apart len (xs ++ [x]) -> (forall y, In y (xs ++ [x]) -> 0 < y) ->
  exists s, sw_calls n gidx (entries g) (xs ++ [x]) = Done s /\
    (forall c p, (c < 2 * npair n)%nat -> (p < sw_size n c)%nat -> place (sw_size n) gidx g c p (sp s c p - x)) /\
    (forall i j k, (i < n)%nat -> (j < n)%nat -> (k < n)%nat ->
       place (sw_size n) gidx g (2 * npair n) (lambda_par n i j k) (sl s i j k - x)).
Proof. exact sw_history. Qed.
Print Assumptions C89_pointers_partial.
(** Any other lambda as a global parameter makes the first call write outside of the arrays. *)
Theorem C89_lambda_global_refuted : forall n gidx g, (0 < n)%nat -> consistent (sw_size n) g ->
  forall j p, instance g j (2 * npair n) p -> (p mod npair n <> npair n - 1)%nat ->
  forall x xs, 0 < x -> sw_calls n gidx (entries g) (x :: xs) = Outside.
Proof. exact sw_lambda_outside. Qed.
Print Assumptions C89_lambda_global_refuted.
(** two types; global 0 stands for A of the first and the third pair, global 1 for lambda of the last type *)
Definition ex_globals : list (list (nat * nat)) := [[(0, 0); (2, 0)]; [(6, 5)]]%nat.
Example C89_ex : consistent (sw_size 2) ex_globals /\
  (forall j p, instance ex_globals j (2 * npair 2) p -> (p mod npair 2 = npair 2 - 1)%nat) /\ apart 100 ([1000; 2000] ++ [1000]).
Proof.
  assert (K : forall j c p, instance ex_globals j c p -> (j, c, p) = (0, 0, 0)%nat \/ (j, c, p) = (0, 2, 0)%nat \/ (j, c, p) = (1, 6, 5)%nat).
  { intros j c p (l & E & I). destruct j as [|[|[|]]]; try discriminate; injection E as <-; simpl in I;
      repeat (destruct I as [I|I]; [injection I as <- <-; auto|]); contradiction. }
  split; [split|split].
  - intros j c p I. destruct (K j c p I) as [E|[E|E]]; injection E as -> -> ->; vm_compute; lia.
  - intros j j' c p I I'. destruct (K j c p I) as [E|[E|E]]; destruct (K j' c p I') as [E'|[E'|E']]; congruence.
  - intros j p I. destruct (K j _ p I) as [E|[E|E]]; try discriminate. injection E as -> ->. auto.
  - intros a b A B. simpl in A, B. repeat (destruct A as [A|A]; [|]); try contradiction; repeat (destruct B as [B|B]; [|]); try contradiction; subst; auto; lia.
Qed.
Example C89_lambda_ex : sw_calls 2 46 (entries [[(6, 0)]]%nat) [1000] = Outside.
Proof. vm_compute. reflexivity. Qed.

(** C90: the same for the parameters of the pairs of a Tersoff potential (np = 11, modified: 16). *)
Theorem C90_pointers : forall n np gidx g, (0 < n)%nat -> (0 < np)%nat -> consistent (ter_size np n) g ->
  forall len xs x, 2 < len -> 0 <= gidx -> gidx + Z.of_nat (length g) <= len -> apart len (xs ++ [x]) -> (forall y, In y (xs ++ [x]) -> 0 < y) ->
  forall m, exists s, ter_calls n np m gidx (entries g) (xs ++ [x]) = Done s /\
    (forall c p, (c < npair n)%nat -> (p < np)%nat -> place (ter_size np n) gidx g c p (tp s c p - x)).
Proof. exact ter_history. Qed.
Print Assumptions C90_pointers.
(** chi and omega, for one or two types and without global ones ... *)
Theorem C90_mix_partial : forall n np gidx g, (0 < n)%nat -> (0 < np)%nat -> consistent (ter_size np n) g ->
  forall len xs x, 2 < len -> 0 <= gidx -> gidx + Z.of_nat (length g) <= len -> apart len (xs ++ [x]) -> (forall y, In y (xs ++ [x]) -> 0 < y) ->
  (n <= 2)%nat -> (forall j c p, instance g j c p -> (c < npair n)%nat) ->
  exists s, ter_calls n np false gidx (entries g) (xs ++ [x]) = Done s /\
    (forall a b p, (a < b)%nat -> (b < n)%nat -> (p < 2)%nat -> exists q, tm s (Z.to_nat (pair_index (Z.of_nat n) (Z.of_nat a) (Z.of_nat b))) p = At (x + q) /\
       place (ter_size np n) gidx g (mix_col n a b) p q) /\
    (forall a p, (a < n)%nat -> tm s (Z.to_nat (pair_index (Z.of_nat n) (Z.of_nat a) (Z.of_nat a))) p = One).
Proof. exact ter_mix. Qed.
Print Assumptions C90_mix_partial.
(** ... but with three types or more chi and omega of the last type with itself are never 1 ... *)
Theorem C90_diagonal_refuted : forall n np gidx g, (0 < n)%nat -> (0 < np)%nat -> consistent (ter_size np n) g ->
  forall len xs x, 2 < len -> 0 <= gidx -> gidx + Z.of_nat (length g) <= len -> apart len (xs ++ [x]) -> (forall y, In y (xs ++ [x]) -> 0 < y) ->
  (3 <= n)%nat -> exists s, ter_calls n np false gidx (entries g) (xs ++ [x]) = Done s /\
  forall p, tm s (Z.to_nat (pair_index (Z.of_nat n) (Z.of_nat (n - 1)) (Z.of_nat (n - 1)))) p <> One.
Proof. exact ter_diagonal. Qed.
Print Assumptions C90_diagonal_refuted.
(** ... and a global chi or omega of the types 0 and 1 is used for type 0 with itself instead. *)
Theorem C90_global_refuted : forall n np gidx g, (0 < n)%nat -> (0 < np)%nat -> consistent (ter_size np n) g ->
  forall len xs x, 2 < len -> 0 <= gidx -> gidx + Z.of_nat (length g) <= len -> apart len (xs ++ [x]) -> (forall y, In y (xs ++ [x]) -> 0 < y) ->
  (2 <= n)%nat -> forall j p, (p < 2)%nat -> instance g j (mix_col n 0 1) p -> (forall j', ~ instance g j' (S (mix_col n 0 1)) p) ->
  exists s, ter_calls n np false gidx (entries g) (xs ++ [x]) = Done s /\ tm s 0%nat p = At (x + gidx + Z.of_nat j) /\
    ((n <= 2)%nat -> tm s 1%nat p = At (x + first (ter_size np n) (mix_col n 0 1) + Z.of_nat p)).
Proof. exact ter_global. Qed.
Print Assumptions C90_global_refuted.
(** two types: A of all pairs is one global parameter *)
Definition ter_globals : list (list (nat * nat)) := [[(0, 0); (1, 0); (2, 0)]]%nat.
Example C90_ex : consistent (ter_size 11 2) ter_globals /\ (forall j c p, instance ter_globals j c p -> (c < npair 2)%nat) /\ apart 100 ([1000; 2000] ++ [1000]).
Proof.
  assert (K : forall j c p, instance ter_globals j c p -> j = 0%nat /\ (c < 3)%nat /\ p = 0%nat).
  { intros j c p (l & E & I). destruct j as [|[|]]; try discriminate; injection E as <-; simpl in I;
      repeat (destruct I as [I|I]; [injection I as <- <-; repeat split; auto; lia|]); contradiction. }
  split; [split|split].
  - intros j c p I. destruct (K j c p I) as (-> & C & ->). destruct c as [|[|[|]]]; [| | |lia]; vm_compute; lia.
  - intros j j' c p I I'. destruct (K j c p I) as (-> & _). destruct (K j' c p I') as (-> & _). auto.
  - intros j c p I. apply K in I. change (npair 2) with 3%nat. tauto.
  - intros a b A B. simpl in A, B. repeat (destruct A as [A|A]; [|]); try contradiction; repeat (destruct B as [B|B]; [|]); try contradiction; subst; auto; lia.
Qed.
(** two types, omega of the mixed pair (column 3, parameter 1) is global parameter 0 at offset 50 *)
Example C90_global_ex : match ter_calls 2 11 false 50 (entries [[(3, 1)]]%nat) [1000] with
  | Done s => tm s 0%nat 1%nat = At 1050 /\ tm s 1%nat 1%nat = At 1042 | _ => False end.
Proof. vm_compute. auto. Qed.
