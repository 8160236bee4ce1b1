(** What the analytic input is meant to achieve. *)
From Coq Require Import Reals ZArith List Bool String Lia.
From Verif Require Import ApotModel.
Import ListNotations.

(** ** Parameters of the analytic table *)
(** row [i] of the table and whether the whole row is kept fixed (#I line) *)
Definition row_of (a : apot) (i : nat) : option (bool * list par) :=
  let n := List.length (a_pots a) in
  if (i <? n)%nat then
    match nth_error (a_pots a) i with
    | None => None
    | Some q => Some (q_inv q, map fst (q_pars q))
    end
  else match a_cp a, a_elstat a, a_dipole a with
  | Some c, _, _ =>
      if Nat.eqb i n then Some (false, c)
      else if (Nat.eqb i (n + 1) && have_globals a)%bool then Some (false, a_globals a) else None
  | None, Some (ch, ka), dip =>
      if Nat.eqb i n then Some (false, ch)
      else if Nat.eqb i (n + 1) then Some (false, [ka])
      else match dip with
      | Some (al, b, c) =>
          if Nat.eqb i (n + 2) then Some (false, al)
          else if Nat.eqb i (n + 3) then Some (false, b)
          else if Nat.eqb i (n + 4) then Some (false, c)
          else if (Nat.eqb i (n + 5) && have_globals a)%bool then Some (false, a_globals a) else None
      | None => if (Nat.eqb i (n + 5) && have_globals a)%bool then Some (false, a_globals a) else None
      end
  | None, None, _ =>
      if (Nat.eqb i n && have_globals a)%bool then Some (false, a_globals a) else None
  end.
(** parameter [j] of row [i] *)
Definition has_par (a : apot) (i j : nat) (inv : bool) (p : par) : Prop :=
  exists ps, row_of a i = Some (inv, ps) /\ nth_error ps j = Some p.
Definition free_par (a : apot) (i j : nat) : Prop :=
  exists p, has_par a i j false p /\ p_inv p = false.

(** where the force routines read parameter [j] of row [i] *)
Definition home (nt : nat) (a : apot) (l : layout) (i j : nat) : Z :=
  let n := List.length (a_pots a) in
  if (i <? n)%nat then Z.of_nat (pot_first a i + j)
  else if Nat.eqb i (global_pot a) then (l_global_idx l + Z.of_nat j)%Z
  else match a_cp a with
  | Some _ => (l_cp_start l + Z.of_nat j)%Z
  | None =>
      if Nat.eqb i n then (elstat_base a l + Z.of_nat j)%Z
      else if Nat.eqb i (n + 1) then (elstat_base a l + Z.of_nat nt - 1)%Z
      else if Nat.eqb i (n + 2) then (elstat_base a l + Z.of_nat nt + Z.of_nat j)%Z
      else if Nat.eqb i (n + 3) then (elstat_base a l + 2 * Z.of_nat nt + Z.of_nat j)%Z
      else (elstat_base a l + 2 * Z.of_nat nt + Z.of_nat (nt * (nt + 1) / 2) + Z.of_nat j)%Z
  end.

(** sizes follow from the number of types *)
Definition sizes_ok (nt : nat) (a : apot) : Prop :=
  (1 <= nt)%nat /\ (1 <= List.length (a_pots a))%nat /\
  match a_cp a with
  | None => True
  | Some c => List.length c = nt /\ List.length (a_pots a) = (nt * (nt + 1) / 2)%nat /\ a_elstat a = None
  end /\
  match a_elstat a with
  | None => a_dipole a = None
  | Some (ch, _) => S (List.length ch) = nt
  end /\
  match a_dipole a with
  | None => True
  | Some (al, b, c) => List.length al = nt /\ List.length b = (nt * (nt + 1) / 2)%nat /\ List.length c = (nt * (nt + 1) / 2)%nat
  end.

(** ** The optimiser's index is right: it lists, without repetition, exactly the free
    parameters, each with the place where the force routines read it and where the start
    value was put; fixed parameters sit where they are read, too. *)
Definition index_right (nt : nat) (a : apot) : Prop :=
  let l := read_pot_table0 nt a in
  NoDup (map (fun t : nat * nat * nat => fst (fst t)) (l_idx l)) /\
  NoDup (map (fun t : nat * nat * nat => (snd (fst t), snd t)) (l_idx l)) /\
  (forall p i j, In (p, i, j) (l_idx l) -> free_par a i j /\ Z.of_nat p = home nt a l i j) /\
  (forall i j, free_par a i j -> exists p, In (p, i, j) (l_idx l)) /\
  (forall i j inv q, has_par a i j inv q ->
     exists p, Z.of_nat p = home nt a l i j /\ nth_error (l_tab l) p = Some (Some (p_val q))) /\
  l_idxlen l = Z.of_nat (List.length (l_idx l)) /\
  (Z.of_nat (List.length (l_tab l)) <= l_len l)%Z /\
  (Z.of_nat (List.length (l_idx l)) <= l_total_par l)%Z.

(** ** The calculation table *)
(** position of the first parameter of column i, minus 2 *)
Fixpoint off (npar : nat -> nat) (i : nat) : nat :=
  match i with O => O | S i' => (off npar i' + 2 + npar i')%nat end.
(** parameters of column i found in the optimised table *)
Definition params (npar : nat -> nat) (xi : nat -> R) (i : nat) : nat -> R :=
  fun k => xi (off npar i + 2 + k)%nat.
(** column i of the table holds the analytic function at the parameters p *)
Definition col_at (npar : nat -> nat) (smooth : nat -> bool) (fval : nat -> R -> (nat -> R) -> option R)
    (cut : nat -> R -> R -> R) (xcoord : nat -> R) (steps i : nat) (p : nat -> R) (tab : nat -> R) : Prop :=
  forall j, (j < steps)%nat ->
    let k := (i * steps + (i + 1) * 2 + j)%nat in
    exists f, fval i (xcoord k) p = Some f /\
      tab k = (if smooth i then f * cut i (xcoord k) (p (npar i - 1)%nat) else f)%R.
(** [xi'] is [xi] with every use of a global parameter set to this global *)
Definition bound_to (npar : nat -> nat) (ncols : nat) (binds : list (nat * (nat * nat))) (global_idx : nat) (xi xi' : nat -> R) : Prop :=
  (forall l m n, In (l, (m, n)) binds -> params npar xi' m n = xi (global_idx + l)%nat) /\
  (forall m n, (m < ncols)%nat -> (n < npar m)%nat -> (forall l, ~ In (l, (m, n)) binds) -> params npar xi' m n = params npar xi m n) /\
  (forall k, (off npar ncols <= k)%nat -> xi' k = xi k).
