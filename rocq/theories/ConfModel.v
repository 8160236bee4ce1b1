(** Parts of the reading of configurations (config.c): atoms that contribute
    (does_contribute, 1651-1686), pair distribution histogram
    (write_pair_distribution_file, 1546-1616), minimal distances (118-122, 1230) and start of
    the analytic tables (463-501).  Doubles are real numbers. *)
From Coq Require Import Reals ZArith List Bool.
From Verif Require Import Vec PairIndexModel.
Import ListNotations.
Local Open Scope R_scope.

(** (int) x: truncation towards zero; the range of int is not modelled *)
Definition ztrunc (x : R) : Z := if Rlt_dec x 0 then (- Int_part (- x))%Z else Int_part x.

(** ** does_contribute; [None]: division by zero *)
Record contrib := Contrib {
  have_box : bool; cbox_o : vec; cbox_a : vec; cbox_b : vec; cbox_c : vec;
  spheres : list (vec * R) }.
Definition cell_no (dist a : vec) : option Z :=
  if Req_EM_T (sprod a a) 0 then None else Some (ztrunc (sprod dist a / sprod a a)).
Definition zero_or_one (n : Z) : bool := ((0 <=? n) && (n <=? 1))%Z%bool.
Definition in_sphere (pos : vec) (s : vec * R) : bool :=
  let dist := vsub pos (fst s) in if Rlt_dec (sqrt (sprod dist dist)) (snd s) then true else false.
Definition does_contribute (pos : vec) (c : contrib) : option bool :=
  let sp := existsb (in_sphere pos) (spheres c) in
  if have_box c then
    let dist := vsub pos (cbox_o c) in
    match cell_no dist (cbox_a c), cell_no dist (cbox_b c), cell_no dist (cbox_c c) with
    | Some na, Some nb, Some nc =>
        if (zero_or_one na && zero_or_one nb && zero_or_one nc)%bool then Some true else Some sp
    | _, _, _ => None
    end
  else Some sp.

(** ** write_pair_distribution_file: counts; a neighbour is (column, distance); [None]: write
    behind the block *)
Definition bump (size : Z) (i : Z) (st : option (Z -> Z)) : option (Z -> Z) :=
  match st with
  | None => None
  | Some t => if ((i <? 0) || (size <=? i))%Z%bool then None
              else Some (fun m => if Z.eqb m i then (t m + 1)%Z else t m)
  end.
Definition histogram (paircol steps : Z) (rcut : Z -> R) (nbs : list (Z * R)) : option (Z -> Z) :=
  fold_left (fun st k =>
    fold_left (fun st (nb : Z * R) =>
      if Z.eqb (fst nb) k
      then bump (paircol * steps) (k * steps + ztrunc (snd nb / (rcut k / IZR steps))) st
      else st) nbs st)
    (map Z.of_nat (seq 0 (Z.to_nat paircol))) (Some (fun _ => 0%Z)).

(** ** Minimal distances *)
Section Mindist.
Variable DBL_MAX : R.
Definition rmin2 (a b : R) : R := if Rlt_dec a b then a else b.   (* MIN *)
Definition mindists (nbs : list (Z * R)) : Z -> R :=
  fold_left (fun (md : Z -> R) nb => fun c => if Z.eqb c (fst nb) then rmin2 (md c) (snd nb) else md c) nbs (fun _ => DBL_MAX).
(** 466-481: table begins, rmin and the smallest distance of all; [None]: error(1, "No atoms
    found in interaction range for potential %d!") *)
Record starts := Starts { s_begin : Z -> R; s_rmin : Z * Z -> R; s_min : R }.
Definition start_pair (n : Z) (md : Z -> R) (st : option starts) (ij : Z * Z) : option starts :=
  match st with
  | None => None
  | Some s =>
      let k := pair_index n (fst ij) (snd ij) in
      if Req_EM_T (md k) DBL_MAX then None
      else Some (Starts (fun c => if Z.eqb c k then md k * (95 / 100) else s_begin s c)
                        (fun q => if (Z.eqb (fst q) (fst ij) && Z.eqb (snd q) (snd ij))%bool then md k else s_rmin s q)
                        (rmin2 (s_min s) (md k)))
  end.
Definition all_pairs (n : Z) : list (Z * Z) :=
  let l := map Z.of_nat (seq 0 (Z.to_nat n)) in flat_map (fun i => map (pair i) l) l.
Definition start_tables (n : Z) (md : Z -> R) (old : Z -> R) (oldmin : Z * Z -> R) : option starts :=
  fold_left (start_pair n md) (all_pairs n) (Some (Starts old oldmin DBL_MAX)).
(** 485-490: transfer functions of EAM *)
Definition start_transfer (n : Z) (s : starts) : Z -> R :=
  fun c => if ((paircol n <=? c) && (c <? paircol n + n))%Z%bool then s_min s * (95 / 100) else s_begin s c.
End Mindist.
