(** Tables of analytic potentials and the slots of neighbours: the end of read_config
    (config.c:462-572), columns of init_neighbors (1226-1290), update_slots (597-634),
    update_neighbor_slots (687-701).  Slots of angles: AngleModel. *)
From Coq Require Import Reals ZArith List Bool.
From Verif Require Import PairIndexModel SplineModel ConfModel.
Import ListNotations.
Local Open Scope R_scope.

Inductive build_kind := BPair | BEam | BTbeam | BAdp | BMeam | BAng.

(** columns of the slots 0, 1, ... of a neighbour of type t2 of an atom of type t1, 1226-1290 *)
Definition slot_cols (k : build_kind) (n t1 t2 : Z) : list Z :=
  let col0 := pair_index n t1 t2 in
  let pc := paircol n in
  match k with
  | BPair => [col0]
  | BEam => [col0; pc + t2]
  | BTbeam => [col0; pc + t2; pc + 2 * n + t2]
  | BAdp => [col0; pc + t2; pc + 2 * n + col0; 2 * pc + 2 * n + col0]
  | BMeam => [col0; pc + t2; pc + 2 * n + col0]
  | BAng => [col0; pc + col0]
  end%Z.

(** the loops of 484-556: begin (and for g: end) of further columns, calc_pot *)
Definition range (lo cnt : Z) : list Z := map (fun i => (lo + Z.of_nat i)%Z) (seq 0 (Z.to_nat cnt)).
Definition put (a : Z -> R) (c : Z) (v : R) : Z -> R := fun x => if Z.eqb x c then v else a x.
Definition put_all (cols : list Z) (v : R) (a : Z -> R) : Z -> R := fold_left (fun a c => put a c v) cols a.
Definition table_ends (k : build_kind) (n : Z) (s : starts) (en : Z -> R) : (Z -> R) * (Z -> R) :=
  let pc := paircol n in
  let m := s_min s * (95 / 100) in
  let b := s_begin s in
  let transfer := put_all (range pc n) m in
  match k with
  | BPair => (b, en)
  | BEam => (transfer b, en)
  | BTbeam => (put_all (range (pc + 2 * n) n) m (transfer b), en)
  | BAdp => (put_all (flat_map (fun i => [pc + 2 * n + i; 2 * pc + 2 * n + i]%Z) (range 0 pc)) m (transfer b), en)
  | BMeam => (put_all (range (2 * pc + 2 * n) n) (- (11 / 10)) (put_all (range (pc + 2 * n) pc) m (transfer b)),
              put_all (range (2 * pc + 2 * n) n) (11 / 10) en)
  | BAng => (put_all (range (2 * pc) n) (-1) (put_all (range pc pc) m b), put_all (range (2 * pc) n) 1 en)
  end%Z.

(** 559-569; first, last: init_calc_table0 (potential_input_f0.c:968-977); d2: second derivatives *)
Definition STEPS : nat := 500.
Definition calc_column (be : (Z -> R) * (Z -> R)) (d2 : arr) (c : Z) : column :=
  let b := fst be c in
  let e := snd be c in
  let st := (e - b) / INR (STEPS - 1) in
  let i := Z.to_nat c in
  mk_col b e st (1 / st) (2 + i * (STEPS + 2)) (2 + i * (STEPS + 2) + (STEPS - 1))
    (fun idx => b + INR (idx - (i * STEPS + (i + 1) * 2)) * st) d2.

(** update_neighbor_slots; a neighbour has slot, shift and step for each slot number *)
Record nslot := mk_ns { ns_slot : nat; ns_shift : R; ns_step : R }.
Definition update_neighbor (calc : Z -> column) (cols : list Z) (r : R) (i : nat) (st : nat -> nslot) : nat -> nslot :=
  let c := calc (nth i cols 0%Z) in
  if Rlt_dec r (endr c) then
    let rr := r - begin c in
    let k := trunc (rr * invstep c) in
    fun x => if Nat.eqb x i then mk_ns (k + first c) ((rr - INR k * step c) * invstep c) (step c) else st x
  else st.
(** the calls of update_slots for one neighbour, 603-632 *)
Definition updated (k : build_kind) : list nat :=
  match k with
  | BPair => [0]
  | BEam => [0; 1]
  | BTbeam => [0; 1; 2]
  | BAdp => [0; 1; 2; 3]
  | BMeam => [0; 1; 2]
  | BAng => [0; 1]
  end%nat.
Definition update_slots (k : build_kind) (n : Z) (calc : Z -> column) (t1 t2 : Z) (r : R) (st : nat -> nslot) : nat -> nslot :=
  fold_left (fun st i => update_neighbor calc (slot_cols k n t1 t2) r i st) (updated k) st.
