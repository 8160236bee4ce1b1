(** Model of the periodic box and of the neighbour lists: make_box (config.c:1511-1540),
    init_box_vectors (config.c:898-956), init_neighbors (config.c:1081-1294).

    Doubles are real numbers.  Nested for-loops are one loop over the list of index tuples
    in the order in which they are visited. *)
From Coq Require Import Reals ZArith List Bool.
From Verif Require Import Vec.
Import ListNotations.
Local Open Scope R_scope.

(** ** make_box *)
Record box := mk_box { bx : vec; by_ : vec; bz : vec }.
Definition unscale (v : vec) (s : R) : vec := V3 (vx v / s) (vy v / s) (vz v / s).
(** [None]: error(1, "Box edges are parallel") *)
Definition make_box (b : box) : option (box * R) :=
  let tx := vec_prod (by_ b) (bz b) in
  let ty := vec_prod (bz b) (bx b) in
  let tz := vec_prod (bx b) (by_ b) in
  let volume := sprod (bx b) tx in
  if Req_EM_T 0 volume then None
  else Some (mk_box (unscale tx volume) (unscale ty volume) (unscale tz volume), volume).

(** ** init_box_vectors; the result is cell_scale, [None]: error(1, "Very bizarre...") *)
Definition image := (Z * Z * Z)%type.
Definition ceil (x : R) : Z := (- Int_part (- x))%Z.
Definition init_box_vectors (t : box) (rcutmax : R) : option image :=
  let ix := norm (bx t) in
  let iy := norm (by_ t) in
  let iz := norm (bz t) in
  if ((30000 <? ceil (rcutmax * ix)) || (30000 <? ceil (rcutmax * iy)) || (30000 <? ceil (rcutmax * iz)))%Z
  then None
  else Some (ceil (rcutmax * ix), ceil (rcutmax * iy), ceil (rcutmax * iz)).

(** ** init_neighbors *)
(** for (int i = -s; i <= s; i++) *)
Definition zrange (s : Z) : list Z := map (fun k => (Z.of_nat k - s)%Z) (seq 0 (Z.to_nat (2 * s + 1))).
Definition images (s : image) : list image :=
  let '(sx, sy, sz) := s in
  flat_map (fun ix => flat_map (fun iy => map (fun iz => (ix, iy, iz)) (zrange sz)) (zrange sy)) (zrange sx).
(** the (j, ix, iy, iz) visited for one atom i *)
Definition visits (j_start j_end : nat) (s : image) : list (nat * image) :=
  flat_map (fun j => map (pair j) (images s)) (seq j_start (j_end - j_start)).

Record neigh := mk_neigh {
  n_type : nat; n_nr : nat; n_r : R; n_r2 : R; n_inv_r : R; n_dist_r : vec; n_dist : vec;
  n_image : image (* not stored in C; only for stating properties *) }.

Section Config.
Variable natoms : nat.       (* atoms of earlier configurations *)
Variable atom_count : nat.   (* atoms of this configuration *)
Variable pos : nat -> vec.
Variable typ : nat -> nat.
Variable b : box.
Variable rcut : nat -> nat -> R.
Variable scale : image.      (* cell_scale *)
Variable full : bool.        (* THREEBODY or KIM: lists over all atoms *)

Definition shifted (d : vec) (n : image) : vec :=
  let '(ix, iy, iz) := n in
  V3 (vx d + IZR ix * vx (bx b) + IZR iy * vx (by_ b) + IZR iz * vx (bz b))
     (vy d + IZR ix * vy (bx b) + IZR iy * vy (by_ b) + IZR iz * vy (bz b))
     (vz d + IZR ix * vz (bx b) + IZR iy * vz (by_ b) + IZR iz * vz (bz b)).
Definition self (i j : nat) (n : image) : bool :=
  let '(ix, iy, iz) := n in (Nat.eqb i j && Z.eqb ix 0 && Z.eqb iy 0 && Z.eqb iz 0)%bool.
Definition j_start (i : nat) : nat := if full then natoms else i.

(** First pass, 1105-1143: counts; [None]: error(1), overlapping atoms *)
Definition count_one (i : nat) (st : option nat) (v : nat * image) : option nat :=
  match st with
  | None => None
  | Some num =>
      let '(j, n) := v in
      if self i j n then Some num
      else
        let r := norm (shifted (vsub (pos j) (pos i)) n) in
        if Req_EM_T r 0 then None
        else if Rle_dec r (rcut (typ i) (typ j)) then Some (S num) else Some num
  end.
Definition count_neighbors (i : nat) : option nat :=
  fold_left (count_one i) (visits (j_start i) (natoms + atom_count) scale) (Some O).

(** Second pass, 1155-1213: fills the [num] entries that were allocated;
    [None]: write behind the array *)
Definition entry (i j : nat) (n : image) : neigh :=
  let dd := shifted (vsub (pos j) (pos i)) n in
  let r := norm dd in
  let d := unscale dd r in
  mk_neigh (typ j) j r (r * r) (1 / r) d (V3 (vx d * r) (vy d * r) (vz d * r)) n.
Definition fill_one (i num : nat) (st : option (list neigh)) (v : nat * image) : option (list neigh) :=
  match st with
  | None => None
  | Some l =>
      let '(j, n) := v in
      if self i j n then Some l
      else
        if Rle_dec (norm (shifted (vsub (pos j) (pos i)) n)) (rcut (typ i) (typ j))
        then if Nat.ltb (length l) num then Some (l ++ [entry i j n]) else None
        else Some l
  end.

Inductive outcome := Overlap | Out_of_bounds | Count_mismatch | Neighbors (l : list neigh).
Definition init_neighbors (i : nat) : outcome :=
  match count_neighbors i with
  | None => Overlap
  | Some num =>
      match fold_left (fill_one i num) (visits (j_start i) (natoms + atom_count) scale) (Some []) with
      | None => Out_of_bounds
      | Some l => if (negb (Nat.eqb num 0) && negb (Nat.eqb num (length l)))%bool then Count_mismatch else Neighbors l
      end
  end.
End Config.
