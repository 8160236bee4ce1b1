(** Uncertainty quantification and normal deviates: C59, C60, C61, C79, C80. *)
From Coq Require Import Reals List Arith Lra Lia Floats.SpecFloat.
From Verif Require Import LoopUtil UqModel UqSpec UqProof UqProof2 UqProof3 UqProof4.
Import ListNotations.
Open Scope R_scope.

(** C61.  For every stream of uniforms no operation is invalid. *)
Theorem C61_valid : forall u fuel s, normdist u fuel s <> Invalid.
Proof. exact normdist_valid. Qed.
Print Assumptions C61_valid.
(** A call without a stored number ends at the first accepted pair of uniforms (and not
    before); this and the next call deliver two deviates whose squares add to -2 ln q. *)
Theorem C61_two_deviates : forall u fuel s, have s = false ->
  (normdist u fuel s = NoEnd /\ forall m, (m < fuel)%nat -> ~ accepted u (used s + 2 * m)) \/
  exists a b m, (m < fuel)%nat /\ accepted u (used s + 2 * m) /\
    (forall m', (m' < m)%nat -> ~ accepted u (used s + 2 * m')) /\
    let k := (used s + 2 * m)%nat in
    let x1 := 2 * u k - 1 in let x2 := 2 * u (S k) - 1 in let q := x1 * x1 + x2 * x2 in
    a = x1 * sqrt (-2 * ln q / q) /\ b = x2 * sqrt (-2 * ln q / q) /\ a * a + b * b = -2 * ln q /\
    normdist u fuel s = Value a (NS true b (k + 2)) /\
    forall u' fuel', normdist u' fuel' (NS true b (k + 2)) = Value b (NS false b (k + 2)).
Proof. exact normdist_pair. Qed.
Print Assumptions C61_two_deviates.
Example C61_ex : accepted (fun _ => 3 / 4) 0.
Proof. unfold accepted. lra. Qed.

(** C59.  Symmetric; entries are the central differences of the cost. *)
Theorem C59_matrix : forall n cost pert x c0 h0 H x' c' flag,
  calc_hessian n cost pert x c0 h0 = (H, x', c', flag) ->
  let d := dist pert x in
  (forall i, (i < n)%nat -> H i i = dval cost c0 d x i) /\
  (forall i j, (i < j < n)%nat -> H i j = mix cost d x i j /\ H j i = mix cost d x i j) /\
  (flag = false -> x' = x /\ c' = c0 /\
     forall y, tested n d x y -> cost y < c0 -> very_large <= cost y) /\
  (flag = true -> c' = cost x' /\ c' < c0 /\ tested n d x x' /\
     forall y, tested n d x y -> c' <= cost y).
Proof. exact hessian_spec. Qed.
Print Assumptions C59_matrix.
(** Exact for every quadratic cost function *)
Theorem C59_quadratic : forall n c g A,
  (forall i j, (i < n)%nat -> (j < n)%nat -> A i j = A j i) ->
  forall pert x h0 H x' c' flag,
  (forall i, (i < n)%nat -> pert i <> 0) ->
  calc_hessian n (quadratic n c g A) pert x (quadratic n c g A x) h0 = (H, x', c', flag) ->
  forall i j, (i < n)%nat -> (j < n)%nat -> H i j = A i j.
Proof. exact hessian_quadratic. Qed.
Print Assumptions C59_quadratic.
Example C59_ex : quadratic 2 1 (fun _ => 0) (fun i j => if (i =? j)%nat then 2 else 1) (fun _ => 1) = 4.
Proof. unfold quadratic. simpl. lra. Qed.
(** A better fit seen with two parameters increased is thrown away. *)
Theorem C59_both_increased_refuted : forall h0, exists H,
  calc_hessian 2 valley (fun _ => 1) (fun _ => 1) (valley (fun _ => 1)) h0 = (H, (fun _ => 1), valley (fun _ => 1), false) /\
  equal_steps 2 (dist (fun _ => 1) (fun _ => 1)) (fun _ => 1) (fun k => if (k <? 2)%nat then 2 else 1) /\
  valley (fun k => if (k <? 2)%nat then 2 else 1) < valley (fun _ => 1).
Proof. exact valley_missed. Qed.
Print Assumptions C59_both_increased_refuted.
(** In double precision the parameters are not restored: 0.3 becomes smaller. *)
Theorem C59_rounding_refuted : exists p pert,
  SFeqb (restore64 p (SFmul 53 1024 pert p)) p = false /\ SFltb (restore64 p (SFmul 53 1024 pert p)) p = true.
Proof. exact (ex_intro _ p03 (ex_intro _ p01 not_restored)). Qed.
Print Assumptions C59_rounding_refuted.

(** C60.  Every recorded member carries its own cost; each is reached from the one before by
    one accepted move, and the rejected moves before leave no trace.  C79: every line but the
    last has the number of moves tried from it and the total so far (in [recorded]). *)
Theorem C60_members : forall n cost eig_max resc temp, 0 < eig_max ->
  forall v0 rs us fuel acc x w l,
  ensemble n cost eig_max resc temp v0 (cost x) rs us fuel acc x w = Some l ->
  exists K, recorded n cost resc temp v0 (cost x) rs us (clipped n eig_max w) 0 x (cost x) l K /\
  List.length l = S acc /\
  (forall y, In y l -> l_cost y = cost (l_x y)) /\
  (forall a, acc = S a -> l_weight (last l (Line x (cost x) 0 0)) = l_weight (nth a l (Line x (cost x) 0 0)) /\
     l_attempts (last l (Line x (cost x) 0 0)) = (K + l_weight (nth a l (Line x (cost x) 0 0)))%nat).
Proof. exact ensemble_spec. Qed.
Print Assumptions C60_members.
(** The eigenvalues used are not below eig_max, so square root and division are valid. *)
Theorem C60_eigenvalues : forall n eig_max, 0 < eig_max -> forall w i, (i < n)%nat ->
  eig_max <= clipped n eig_max w i.
Proof. exact clipped_ge. Qed.
Print Assumptions C60_eigenvalues.
(** An eigenvalue that is not negative is raised to eig_max; a negative one is replaced by the
    smallest of its absolute value and the positive ones, again raised to eig_max. *)
Theorem C60_raised : forall n e, 0 < e -> forall w i, (i < n)%nat -> 0 <= w i -> clipped n e w i = Rmax (w i) e.
Proof. exact clipped_pos. Qed.
Print Assumptions C60_raised.
Theorem C60_negative : forall n e, 0 < e -> forall w i, (i < n)%nat -> w i < 0 ->
  clipped n e w i <= Rmax (Rabs (w i)) e /\
  (forall j, (j < n)%nat -> 0 < w j \/ (j < i)%nat -> clipped n e w i <= clipped n e w j) /\
  (clipped n e w i = e \/ clipped n e w i = Rabs (w i) \/ clipped n e w i = very_large \/
   exists j, (j < n)%nat /\ (0 < w j \/ (j < i)%nat) /\ clipped n e w i = clipped n e w j).
Proof. exact clipped_neg. Qed.
Print Assumptions C60_negative.
Example C60_ex : exists l, ensemble 1 (fun _ => 1) 1 1 1 (fun _ _ => 1) 1 (fun _ _ => 1) (fun _ => 0) 1 1
  (fun _ => 0) (fun _ => 2) = Some l.
Proof. exact ex_ensemble. Qed.

(** C79 is false for the last line: no move was tried from it, but it repeats a positive
    weight, and its attempts exceed the [K] moves made. *)
Theorem C79_last_line_refuted : forall n cost eig_max resc temp, 0 < eig_max ->
  forall v0 rs us fuel a x w l,
  ensemble n cost eig_max resc temp v0 (cost x) rs us fuel (S a) x w = Some l ->
  exists K, recorded n cost resc temp v0 (cost x) rs us (clipped n eig_max w) 0 x (cost x) l K /\
    (0 < l_weight (last l (Line x (cost x) 0 0)))%nat /\
    (K < l_attempts (last l (Line x (cost x) 0 0)))%nat.
Proof. exact last_line_wrong. Qed.
Print Assumptions C79_last_line_refuted.

(** C80.  When the search for a first bracket ends, the cost aimed at is met or enclosed. *)
Theorem C80_bracket : forall cost x index aim neg fuel a b,
  first_bracket cost x index aim neg fuel = Some (a, b) ->
  (a = b /\ pert_cost cost x index a = aim) \/
  (b = 10 * a /\ pert_cost cost x index a < aim <= pert_cost cost x index b).
Proof. exact bracket_spec. Qed.
Print Assumptions C80_bracket.
Example C80_ex : exists a b, first_bracket (fun y => 1 + (y 0%nat - 1) * (y 0%nat - 1) * 10 ^ 10) (fun _ => 1) 0 (1 + 1 / 2) false 5 = Some (a, b).
Proof. exact ex_bracket. Qed.
(** It never ends for a parameter that is zero. *)
Theorem C80_zero_refuted : forall cost x index aim neg, x index = 0 -> cost x < aim ->
  forall fuel, first_bracket cost x index aim neg fuel = None.
Proof. exact zero_never. Qed.
Print Assumptions C80_zero_refuted.
