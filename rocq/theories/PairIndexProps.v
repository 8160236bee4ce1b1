(** C01: numbering of pair potentials. *)
From Coq Require Import ZArith List.
From Verif Require Import PairIndexModel PairIndexProof.
Open Scope Z_scope.

(** [n] types are the integers 0..n-1. *)
Definition is_type (n t : Z) : Prop := 0 <= t < n.
(** Same unordered pair. *)
Definition same_pair (a b c d : Z) : Prop := (a = c /\ b = d) \/ (a = d /\ b = c).

Theorem C01_pair_columns_bijective : forall n, 0 <= n ->
  (forall a b, pair_index n a b = pair_index n b a) /\
  (forall a b, is_type n a -> is_type n b -> 0 <= pair_index n a b < paircol n) /\
  (forall a b c d, is_type n a -> is_type n b -> is_type n c -> is_type n d ->
     pair_index n a b = pair_index n c d -> same_pair a b c d) /\
  (forall c, 0 <= c < paircol n ->
     exists a b, is_type n a /\ is_type n b /\ pair_index n a b = c).
Proof.
  exact (fun n Hn => conj (pair_index_sym n) (conj (pair_index_range n)
    (conj (pair_index_inj n)
      (fun c Hc => match pair_index_surj n c Hn Hc with
        | ex_intro _ a (ex_intro _ b (conj (conj p q) (conj r s))) =>
            ex_intro _ a (ex_intro _ b (conj (conj p (Z.le_lt_trans _ _ _ q r))
              (conj (conj (Z.le_trans _ _ _ p q) r) s)))
        end)))).
Qed.
Print Assumptions C01_pair_columns_bijective.

(** The IMD writer's running sums select the same column for every ordered pair. *)
Theorem C01_imd_export_same_numbering : forall n i j, is_type n i -> is_type n j ->
  exists row, nth_error (imd_columns n) (Z.to_nat i) = Some row /\
              nth_error row (Z.to_nat j) = Some (pair_index n i j).
Proof. exact imd_columns_spec. Qed.
Print Assumptions C01_imd_export_same_numbering.

(** The number of columns is that of unordered pairs. *)
Theorem C01_number_of_columns : forall n, 0 <= n -> 2 * paircol n = n * (n + 1).
Proof. exact paircol_spec. Qed.
Print Assumptions C01_number_of_columns.

Example C01_ex : paircol 3 = 6 /\
  imd_columns 3 = ((0 :: 1 :: 2 :: nil) :: (1 :: 3 :: 4 :: nil) :: (2 :: 4 :: 5 :: nil) :: nil)
  /\ is_type 3 2 /\ pair_index 3 2 1 = 4.
Proof. vm_compute. repeat split; congruence. Qed.
