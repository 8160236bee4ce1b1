(** Numbering of pair potentials ("columns" of the potential table). *)
From Coq Require Import ZArith List.
Import ListNotations.
Open Scope Z_scope.

(** src/potential_input.c:78   g_calc.paircol = (ntypes * (ntypes + 1)) / 2.
    C integer division truncates: [Z.quot]. Integers unbounded (no overflow for
    realistic numbers of types). *)
Definition paircol (n : Z) : Z := Z.quot (n * (n + 1)) 2.

(** src/config.c:1227-1229 (init_neighbors), identical text at config.c:469, 579,
    1578, 1635, potential_input.c:522, potential_output.c:715,
    potential_output_lammps.c:140, 493, 531, 567, rescale_meam.c:154:
    [(t1 <= t2) ? t1*n + t2 - ((t1*(t1+1))/2) : t2*n + t1 - ((t2*(t2+1))/2)]. *)
Definition pair_index (n t1 t2 : Z) : Z :=
  if t1 <=? t2 then t1 * n + t2 - Z.quot (t1 * (t1 + 1)) 2
  else t2 * n + t1 - Z.quot (t2 * (t2 + 1)) 2.

(** src/potential_output_imd.c:197-201, 222-226 (inner loop):
    [m2 += j; col1 = i < j ? i*n + j - m : j*n + i - m2]. The loop state is [m2];
    [cnt] iterations starting at index [j]. *)
Fixpoint imd_inner (cnt : nat) (n i m j m2 : Z) : list Z :=
  match cnt with
  | O => []
  | S c =>
      let m2' := m2 + j in
      let col1 := if i <? j then i * n + j - m else j * n + i - m2' in
      col1 :: imd_inner c n i m (j + 1) m2'
  end.

(** src/potential_output_imd.c:193-196, 218-221 (outer loop): [m += i; m2 = 0]. *)
Fixpoint imd_outer (cnt : nat) (n i m : Z) : list (list Z) :=
  match cnt with
  | O => []
  | S c =>
      let m' := m + i in
      imd_inner (Z.to_nat n) n i m' 0 0 :: imd_outer c n (i + 1) m'
  end.

(** The table of columns written by the IMD export: entry [i],[j] is the column
    whose function is written for the ordered pair of types (i,j). *)
Definition imd_columns (n : Z) : list (list Z) := imd_outer (Z.to_nat n) n 0 0.
