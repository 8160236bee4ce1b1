(** Interface to KIM models: parameters (potential_input_f5.c), passing of parameters and
    scoring of forces (force_kim.c), padding atoms and neighbour lists (config.c).
    The KIM library is not modelled: what the model is told and what it returns are
    arguments and results. *)
From Coq Require Import Reals ZArith List Bool Ascii String.
From Verif Require Import Vec NbrModel ParamsModel.
Import ListNotations.
Local Open Scope R_scope.

(** ** Parameters of a KIM model in the potential file *)
(** strncmp(buffer, "default", 7) == 0 *)
Fixpoint starts (p s : text) : bool :=
  match p, s with
  | [], _ => true
  | a :: p', b :: s' => if ascii_dec a b then starts p' s' else false
  | _, _ => false
  end.
(** Entry of an integer parameter, potential_input_f5.c:461-473: [None] = error(1);
    [dflt]: value of the model.  sscanf("%d") is strtol with conversion to int. *)
Definition read_kim_int (dflt : Z) (buffer : text) : option Z :=
  if starts (txt "default") buffer then Some dflt
  else
    match buffer with
    | [] => None
    | c :: _ =>
        if (code c =? 33)%Z then None (* '!' *)
        else if ((47 <? code c) && (code c <? 57))%Z%bool
        then option_map to_int (strtol buffer)
        else None
    end.

(** A line of a double parameter after sscanf: '!...', "default min max", or three numbers;
    [None]: not enough numbers.  The third alternative is also used for the single number of
    a cutoff. *)
Inductive dline := DBang | DDefault (mm : option (R * R)) | DNums (v : option (R * R * R)).
Inductive kline :=
| LInt (buffer : text) (dflt : Z)
| LCut (v : option R)
| LDbl (l : dline) (dflt : R).
(** value, limits, invar_par; blocks from Malloc are zero *)
Record kpar := KPar { k_val : R; k_min : R; k_max : R; k_inv : bool }.

(** 514-531: order of the limits, fixed or not, range *)
Definition finish (val mn mx : R) : option kpar :=
  let lo := if Rlt_dec mx mn then mx else mn in
  let hi := if Rlt_dec mx mn then mn else mx in
  if Req_EM_T lo hi then Some (KPar val lo hi true)
  else if Rlt_dec val lo then None
  else if Rlt_dec hi val then None
  else Some (KPar val lo hi false).
(** potential_input_f5.c:455-536, one entry *)
Definition read_entry (l : kline) : option kpar :=
  match l with
  | LInt buf d => match read_kim_int d buf with None => None | Some _ => Some (KPar 0 0 0 true) end
  | LCut None => None
  | LCut (Some v) => Some (KPar v v v true)
  | LDbl DBang _ => Some (KPar 0 0 0 false)            (* 498-501 "TODO" *)
  | LDbl (DDefault None) _ => None
  | LDbl (DDefault (Some (mn, mx))) d => finish d mn mx
  | LDbl (DNums None) _ => None
  | LDbl (DNums (Some (v, mn, mx))) _ => finish v mn mx
  end.
Fixpoint read_entries (ls : list kline) : option (list kpar) :=
  match ls with
  | [] => Some []
  | l :: ls =>
      match read_entry l, read_entries ls with
      | Some p, Some ps => Some (p :: ps)
      | _, _ => None
      end
  end.
(** 615-625: table and index; k counts optimised, l all parameters *)
Definition kim_index (ps : list kpar) : list nat :=
  snd (fold_left (fun (s : nat * list nat) p =>
    (S (fst s), if k_inv p then snd s else snd s ++ [fst s])) ps (0%nat, [])).
(** 627: n_par - number of fixed ones *)
Definition kim_idxlen (ps : list kpar) : Z :=
  (Z.of_nat (List.length ps) - Z.of_nat (List.length (filter k_inv ps)))%Z.

(** ** update_kim_model, force_kim.c:53-71.
    [dbl e]: entry e (all entries of all parameters counted) is a double; [vals]: the
    defaults kept in g_kim.params (only rewritten before output); [m]: values inside of the
    KIM model. *)
Definition set_entry (m : nat -> R) (e : nat) (x : R) : nat -> R := fun k => if Nat.eqb k e then x else m k.
Fixpoint update_from (e pos : nat) (dbl : list bool) (vals xi m : nat -> R) : nat -> R :=
  match dbl with
  | [] => m
  | d :: dbl =>
      if d then update_from (S e) (S pos) dbl vals xi (if Req_EM_T (xi pos) (vals e) then m else set_entry m e (xi pos))
      else update_from (S e) pos dbl vals xi m
  end.
Definition update_kim_model (dbl : list bool) (vals xi m : nat -> R) : nat -> R := update_from 0 0 dbl vals xi m.
Definition evaluations (dbl : list bool) (vals : nat -> R) (xis : list (nat -> R)) (m : nat -> R) : nat -> R :=
  fold_left (fun m xi => update_kim_model dbl vals xi m) xis m.

(** ** Forces of one configuration, force_kim.c:204-233, one Cartesian component.
    [src]: source atoms of the particles; [kf]: forces of the KIM model on the particles;
    atoms lo..lo+cnt-1. *)
Definition add_at (f : nat -> R) (a : nat) (x : R) : nat -> R := fun k => if Nat.eqb k a then f k + x else f k.
Fixpoint gather_from (p : nat) (src : list nat) (kf f : nat -> R) : nat -> R :=
  match src with
  | [] => f
  | a :: src => gather_from (S p) src kf (add_at f a (kf p))
  end.
Definition kim_forces (w : R) (uf : bool) (src : list nat) (kf f0 : nat -> R) (lo cnt : nat) (forces : nat -> R) : nat -> R :=
  let f := gather_from 0 src kf forces in
  fun a => if ((lo <=? a) && (a <? lo + cnt))%nat%bool
           then (if uf then w * (f a - f0 a) else 0)
           else f a.

(** ** Padding atoms, init_neighbors_kim (config.c:989-1072) and their use in
    init_neighbors (1165-1180, 1233) *)
Section Padding.
Variable natoms : nat.
Variable atom_count : nat.
Variable pos : nat -> vec.
Variable typ : nat -> nat.
Variable b : box.
Variable rcut : nat -> nat -> R.
Variable scale : image.

Definition ncells : Z := let '(sx, sy, sz) := scale in ((2 * sx + 1) * (2 * sy + 1) * (2 * sz + 1))%Z.
Definition num_slots : Z := (Z.of_nat atom_count * ncells)%Z.
Definition zero_image (n : image) : bool := let '(ix, iy, iz) := n in (Z.eqb ix 0 && Z.eqb iy 0 && Z.eqb iz 0)%bool.
(** 1040-1044, 1169-1178 *)
Definition slot (j : nat) (n : image) : Z :=
  let '(sx, sy, sz) := scale in let '(ix, iy, iz) := n in
  if zero_image n then Z.of_nat (j - natoms)
  else
    let c := (((2 * sy + 1) * (ix + sx) + iy + sy) * (2 * sz + 1) + iz + sz)%Z in
    if (2 * c <? ncells)%Z then ((c + 1) * Z.of_nat atom_count + Z.of_nat (j - natoms))%Z
    else (c * Z.of_nat atom_count + Z.of_nat (j - natoms))%Z.
(** a particle: source atom and image; coordinates and species are those of the source *)
Definition particle := (nat * image)%type.
Definition coordinates (p : particle) : vec := shifted b (pos (fst p)) (snd p).
(** atom_pos (-1 = [None]) and the particles so far *)
Record pad := Pad { pd_pos : Z -> option nat; pd_list : list particle }.
(** [None]: index outside of the blocks *)
Definition pad_one (st : option pad) (v : nat * (nat * image)) : option pad :=
  match st with
  | None => None
  | Some s =>
      let '(i, (j, n)) := v in
      if zero_image n then st
      else
        let k := slot j n in
        if ((k <? 0) || (num_slots <=? k))%Z%bool then None
        else
          match pd_pos s k with
          | Some _ => st
          | None =>
              if Rlt_dec (rcut (typ i) (typ j)) (norm (shifted b (vsub (pos j) (pos i)) n)) then st
              else if (num_slots <=? Z.of_nat (List.length (pd_list s)))%Z then None
              else Some (Pad (fun m => if Z.eqb m k then Some (List.length (pd_list s)) else pd_pos s m) (pd_list s ++ [(j, n)]))
          end
  end.
(** 1011-1021 *)
Definition pad_start : pad :=
  Pad (fun m => if ((0 <=? m) && (m <? Z.of_nat atom_count))%Z%bool then Some (Z.to_nat m) else None)
      (map (fun i => (i, (0, 0, 0)%Z)) (seq natoms atom_count)).
Definition pad_visits : list (nat * (nat * image)) :=
  flat_map (fun i => map (pair i) (visits natoms (natoms + atom_count) scale)) (seq natoms atom_count).
Definition init_padding : option pad := fold_left pad_one pad_visits (Some pad_start).

(** second pass of init_neighbors in KIM builds for one atom: index of the particle of each
    neighbour; a neighbour without particle is left out (1178) *)
Definition kim_fill (st : pad) (i : nat) (l : list (nat * (nat * image))) (v : nat * image) : list (nat * (nat * image)) :=
  let '(j, n) := v in
  if self i j n then l
  else
    match pd_pos st (slot j n) with
    | None => l
    | Some p => if Rle_dec (norm (shifted b (vsub (pos j) (pos i)) n)) (rcut (typ i) (typ j)) then l ++ [(p, (j, n))] else l
    end.
Definition kim_neighbors (st : pad) (i : nat) : list (nat * (nat * image)) :=
  fold_left (kim_fill st i) (visits natoms (natoms + atom_count) scale) [].
End Padding.
