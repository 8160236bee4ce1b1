(** Reader of configuration files: read_config, src/config.c:89-457, with
    create_memory_for_configs (742-797), reset_cstate (710-737), read_box_vector (803-815)
    and read_chemical_elements (850-892); fgets_potfit is that of LinesModel.v.

    A file is its text.  %d is [scan_d]; %lf is the oracle [scan_f].  Doubles are numbers of
    type Qc.  int is not bounded.  Arrays are functions; [Oob] is a write behind the end of an
    array allocated by create_memory_for_configs.  Build without CONTRIB; [stressb]: build
    with STRESS; [min_at]: 3 for THREEBODY, 2 otherwise.  Neighbour lists, angles (NbrModel.v,
    AngleModel.v), absforce, the volume and the messages are left out; [boxes] holds what
    make_box and init_box_vectors are given.  A line with "#N" alone, without line end, at the
    end of the file leaves res + 3 behind the string; here it is an error, in C the reading
    of the header that follows is. *)
From Coq Require Import ZArith List Bool Ascii String QArith Qcanon Arith.
From Verif Require Import ParamsModel LinesModel.
Import ListNotations.
Local Open Scope nat_scope.

Inductive code_err :=
  ENoMem | ECount | EEof | ENum | EFew | EHeader | EBox | EEnergy | EWeight | ENegWeight | EElement | EStress
| ENoEnergy | ENoBox | EAtom | EType | ENtypes.
(** [Loop]: not enough steps granted *)
Inductive res (A : Type) := Ok (a : A) | Err (e : code_err) | Oob | Loop.
Arguments Ok {A} _. Arguments Err {A} _. Arguments Oob {A}. Arguments Loop {A}.
Definition bind {A B} (x : res A) (f : A -> res B) : res B :=
  match x with Ok a => f a | Err e => Err e | Oob => Oob | Loop => Loop end.
Notation "'do' p <- x ; y" := (bind x (fun p => y)) (at level 200, p pattern, x at level 100, y at level 200).

(** fgets with a buffer of 1024 bytes: line, rest of the file, end of file met *)
Definition LINE : nat := 1023.
Fixpoint fgets_aux (k : nat) (t : text) : text * text * bool :=
  match k with
  | O => ([], t, false)
  | S k' =>
      match t with
      | [] => ([], [], true)
      | c :: t' => if ascii_dec c LF then ([c], t', false)
                   else let '(l, r, e) := fgets_aux k' t' in (c :: l, r, e)
      end
  end.
(** [None]: NULL *)
Definition fgets (t : text) : option (text * text * bool) :=
  match t with
  | [] => None
  | _ => let '(l, r, e) := fgets_aux LINE t in Some (fgets_potfit l, r, e)
  end.

(** %d *)
Definition scan_d (t : text) : option (Z * text) :=
  let '(neg, t1) := take_sign (skip_space t) in
  match take_digits t1 with
  | ([], _) => None
  | (ds, r) => Some (if neg then (- horner ds)%Z else horner ds, r)
  end.

Definition NUL : ascii := zero.
Definition ch (l : text) (k : nat) : ascii := nth k l NUL.
(** 154, 760 *)
Definition is_N (l : text) : bool :=
  (if ascii_dec (ch l 0) "#" then true else false) && (if ascii_dec (ch l 1) "N" then true else false).

Definition vec : Type := Qc * Qc * Qc.
Record atom := Atom { a_type : Z; a_pos : vec; a_force : vec; a_conf : nat }.
Record tens := Tens { xx : Qc; yy : Qc; zz : Qc; xy : Qc; yz : Qc; zx : Qc }.

(** config_state, 42-64 *)
Record cstate := CState {
  atom_count : Z; use_force : Z; have_energy : bool; have_stress : bool;
  box_x : vec; box_y : vec; box_z : vec;
  have_x : bool; have_y : bool; have_z : bool;   (** have_box_vector, bits 0 to 2 *)
  num_fixed : nat }.

(** g_config and the counters of read_config *)
Record glob := Glob {
  nconf : nat; natoms : nat;
  inconf : nat -> Z; cnfstart : nat -> Z; useforce : nat -> Z;
  coheng : nat -> Qc; conf_weight : nat -> Qc;
  stress : nat -> tens; usestress : nat -> bool;
  boxes : nat -> vec * vec * vec;
  atoms : nat -> atom; na_type : nat -> Z -> Z;
  elements : nat -> text;
  with_forces : nat; with_stresses : nat; max_type : Z }.

Definition upd {A} (f : nat -> A) (k : nat) (x : A) : nat -> A := fun i => if Nat.eqb i k then x else f i.
Definition v0 : vec := (Q2Qc 0, Q2Qc 0, Q2Qc 0).
Definition tens0 : tens := let z := Q2Qc 0 in Tens z z z z z z.

(** 710-737: the fixed elements stay *)
Definition reset_cstate (cs : cstate) : cstate := CState 0 0 false false v0 v0 v0 false false false (num_fixed cs).

Section Read.
Variable scan_f : text -> option (Qc * text).
Variable atoi : text -> Z.
Variables (ntypes : nat) (scale : Qc) (min_at : Z) (stressb : bool).

(** several %lf *)
Fixpoint scan_fs (n : nat) (t : text) : option (list Qc * text) :=
  match n with
  | O => Some ([], t)
  | S n' => match scan_f t with
            | None => None
            | Some (q, t1) => match scan_fs n' t1 with None => None | Some (qs, t2) => Some (q :: qs, t2) end
            end
  end.

(** 742-797: number of configurations and of atoms; a last line without line end is read but
    not looked at *)
Fixpoint count_pass (fuel : nat) (t : text) (nc : nat) (na : Z) : res (nat * Z) :=
  match fuel with
  | O => Loop
  | S fuel' =>
      match fgets t with
      | None => Ok (nc, na)
      | Some (l, r, true) => Ok (nc, na)
      | Some (l, r, false) =>
          if is_N l
          then match scan_d (skipn 3 l) with
               | None => Err ECount
               | Some (n, _) => count_pass fuel' r (S nc) (na + n)%Z
               end
          else count_pass fuel' r nc na
      end
  end.
(** Malloc stops for size 0; a negative number is a size that cannot be allocated *)
Definition create_memory (t : text) : res (nat * nat) :=
  do (nc, na) <- count_pass (S (List.length t)) t 0 0;
  if (Nat.eqb nc 0 || (na <=? 0)%Z) then Err ENoMem else Ok (nc, Z.to_nat na).

(** 803-815 *)
Definition read_box_vector (t : text) : res vec :=
  match scan_fs 3 t with
  | Some ([x; y; z], _) => Ok (x * scale, y * scale, z * scale)%Qc
  | _ => Err EBox
  end.

(** 859-864, 870-874: at most 14 characters of a name are kept *)
Definition short (w : text) : text := firstn 14 w.
(** 857-868 *)
Fixpoint set_names (ws : list text) (i : nat) (el : nat -> text) (nf : nat) : (nat -> text) * nat :=
  match ws with
  | [] => (el, nf)
  | w :: ws' => if Nat.ltb i ntypes then set_names ws' (S i) (upd el i (short w)) (S nf) else (el, nf)
  end.
(** 870-890 *)
Fixpoint check_names (ws : list text) (i : nat) (el : nat -> text) (nf : nat) : res ((nat -> text) * nat) :=
  match ws with
  | [] => Ok (el, nf)
  | w :: ws' =>
      if Nat.ltb i ntypes
      then if text_eqb w (el i)
           then check_names ws' (S i) el nf
           else if (atoi (el i) =? Z.of_nat i)%Z && Nat.leb nf i
                then check_names ws' (S i) (upd el i (short w)) (S nf)
                else Err EElement
      else Ok (el, nf)
  end.
Definition read_chemical_elements (l : text) (el : nat -> text) (nf : nat) : res ((nat -> text) * nat) :=
  match nf with
  | O => Ok (set_names (words (skipn 3 l)) 0 el nf)
  | _ => check_names (words (skipn 3 l)) 0 el nf
  end.

(** 189-190: the line end is replaced by NUL *)
Fixpoint cut_lf (l : text) : text :=
  match l with
  | [] => []
  | c :: l' => if ascii_dec c LF then [] else c :: cut_lf l'
  end.

Definition set_eng (g : glob) (v : Qc) : glob :=
  Glob (nconf g) (natoms g) (inconf g) (cnfstart g) (useforce g) (upd (coheng g) (nconf g) v) (conf_weight g)
       (stress g) (usestress g) (boxes g) (atoms g) (na_type g) (elements g) (with_forces g) (with_stresses g) (max_type g).
Definition set_weight (g : glob) (v : Qc) : glob :=
  Glob (nconf g) (natoms g) (inconf g) (cnfstart g) (useforce g) (coheng g) (upd (conf_weight g) (nconf g) v)
       (stress g) (usestress g) (boxes g) (atoms g) (na_type g) (elements g) (with_forces g) (with_stresses g) (max_type g).
Definition set_stress (g : glob) (v : tens) : glob :=
  Glob (nconf g) (natoms g) (inconf g) (cnfstart g) (useforce g) (coheng g) (conf_weight g)
       (upd (stress g) (nconf g) v) (usestress g) (boxes g) (atoms g) (na_type g) (elements g) (with_forces g) (with_stresses g) (max_type g).
Definition set_elements (g : glob) (v : nat -> text) : glob :=
  Glob (nconf g) (natoms g) (inconf g) (cnfstart g) (useforce g) (coheng g) (conf_weight g)
       (stress g) (usestress g) (boxes g) (atoms g) (na_type g) v (with_forces g) (with_stresses g) (max_type g).

(** the case of a letter of the header; [None] otherwise *)
Inductive kind := KX | KY | KZ | KE | KW | KC | KS | KF | KOther.
Definition kind_of (c : ascii) : kind :=
  match c with
  | "x"%char | "X"%char => KX
  | "y"%char | "Y"%char => KY
  | "z"%char | "Z"%char => KZ
  | "e"%char | "E"%char => KE
  | "w"%char | "W"%char => KW
  | "c"%char | "C"%char => KC
  | "s"%char | "S"%char => KS
  | "f"%char | "F"%char => KF
  | _ => KOther
  end.

(** 194-291: one line of the header.  A line without # at the beginning gives a warning (194-
    198) and is used all the same. *)
Definition header_line (l : text) (cs : cstate) (g : glob) : res (cstate * glob) :=
  match kind_of (ch l 1) with
  | KX => do v <- read_box_vector (skipn 3 l);
          Ok (CState (atom_count cs) (use_force cs) (have_energy cs) (have_stress cs) v (box_y cs) (box_z cs)
                     true (have_y cs) (have_z cs) (num_fixed cs), g)
  | KY => do v <- read_box_vector (skipn 3 l);
          Ok (CState (atom_count cs) (use_force cs) (have_energy cs) (have_stress cs) (box_x cs) v (box_z cs)
                     (have_x cs) true (have_z cs) (num_fixed cs), g)
  | KZ => do v <- read_box_vector (skipn 3 l);
          Ok (CState (atom_count cs) (use_force cs) (have_energy cs) (have_stress cs) (box_x cs) (box_y cs) v
                     (have_x cs) (have_y cs) true (num_fixed cs), g)
  | KE => match scan_f (skipn 3 l) with
          | Some (q, _) => Ok (CState (atom_count cs) (use_force cs) true (have_stress cs) (box_x cs) (box_y cs) (box_z cs)
                                      (have_x cs) (have_y cs) (have_z cs) (num_fixed cs), set_eng g q)
          | None => Err EEnergy
          end
  | KW => match scan_f (skipn 3 l) with
          | Some (q, _) => if (if Qclt_le_dec q (Q2Qc 0) then true else false) then Err ENegWeight else Ok (cs, set_weight g q)
          | None => Err EWeight
          end
  | KC => do (el, nf) <- read_chemical_elements l (elements g) (num_fixed cs);
          Ok (CState (atom_count cs) (use_force cs) (have_energy cs) (have_stress cs) (box_x cs) (box_y cs) (box_z cs)
                     (have_x cs) (have_y cs) (have_z cs) nf, set_elements g el)
  | KS => if stressb
          then match scan_fs 6 (skipn 3 l) with
               | Some ([a; b; c; d; e; f], _) =>
                   Ok (CState (atom_count cs) (use_force cs) (have_energy cs) true (box_x cs) (box_y cs) (box_z cs)
                              (have_x cs) (have_y cs) (have_z cs) (num_fixed cs), set_stress g (Tens a b c d e f))
               | _ => Err EStress
               end
          else Ok (cs, g)
  | KF | KOther => Ok (cs, g)
  end.

(** 181-293; result: rest of the file *)
Fixpoint header (fuel : nat) (t : text) (cs : cstate) (g : glob) : res (text * cstate * glob) :=
  match fuel with
  | O => Loop
  | S fuel' =>
      match fgets t with
      | None => Err EHeader
      | Some (l, r, true) => Err EHeader
      | Some (l, r, false) =>
          let l := cut_lf l in
          do (cs, g) <- header_line l cs g;
          if ascii_dec (ch l 1) "F" then Ok (r, cs, g) else header fuel' r cs g
      end
  end.

(** 296-321 *)
Definition after_header (cs : cstate) (g : glob) : res glob :=
  if negb (have_energy cs) then Err ENoEnergy
  else if negb (have_x cs && have_y cs && have_z cs) then Err ENoBox
  else let s := stressb && have_stress cs in
       Ok (Glob (nconf g) (natoms g) (inconf g) (cnfstart g) (useforce g) (coheng g) (conf_weight g) (stress g)
                (if s then upd (usestress g) (nconf g) true else usestress g)
                (upd (boxes g) (nconf g) (box_x cs, box_y cs, box_z cs)) (atoms g) (na_type g) (elements g)
                (if (use_force cs =? 0)%Z then with_forces g else S (with_forces g))
                (if s then S (with_stresses g) else with_stresses g) (max_type g)).

Definition updz (f : Z -> Z) (k x : Z) : Z -> Z := fun i => if (i =? k)%Z then x else f i.
(** 324-363: [i] atoms are read, [k] are missing; [na]: atoms allocated *)
Fixpoint read_atoms (na : nat) (k i : nat) (t : text) (g : glob) : res (text * glob) :=
  match k with
  | O => Ok (t, g)
  | S k' =>
      if Nat.leb na (natoms g + i) then Oob
      else match scan_d t with
           | None => Err EAtom
           | Some (ty, t1) =>
               match scan_fs 6 t1 with
               | Some ([x; y; z; fx; fy; fz], t2) =>
                   let t3 := skip_space t2 in
                   if (Z.of_nat ntypes <=? ty)%Z || (ty <? 0)%Z then Err EType
                   else let a := Atom ty (x * scale, y * scale, z * scale)%Qc (fx, fy, fz) (nconf g) in
                        read_atoms na k' (S i) t3
                          (Glob (nconf g) (natoms g) (inconf g) (cnfstart g) (useforce g) (coheng g) (conf_weight g) (stress g)
                                (usestress g) (boxes g) (upd (atoms g) (natoms g + i) a)
                                (upd (na_type g) (nconf g) (updz (na_type g (nconf g)) ty (na_type g (nconf g) ty + 1)%Z))
                                (elements g) (with_forces g) (with_stresses g) (Z.max (max_type g) ty))
               | _ => Err EAtom
               end
           end
  end.

(** 172-177 *)
Definition start_conf (cs : cstate) (g : glob) : glob :=
  Glob (nconf g) (natoms g) (upd (inconf g) (nconf g) (atom_count cs)) (upd (cnfstart g) (nconf g) (Z.of_nat (natoms g)))
       (upd (useforce g) (nconf g) (use_force cs)) (coheng g) (conf_weight g) (stress g) (usestress g) (boxes g) (atoms g)
       (na_type g) (elements g) (with_forces g) (with_stresses g) (max_type g).
(** 371-373 *)
Definition end_conf (cs : cstate) (g : glob) : glob :=
  Glob (S (nconf g)) (natoms g + Z.to_nat (atom_count cs)) (inconf g) (cnfstart g) (useforce g) (coheng g) (conf_weight g)
       (stress g) (usestress g) (boxes g) (atoms g) (na_type g) (elements g) (with_forces g) (with_stresses g) (max_type g).

(** 145-375; [nc], [na]: configurations and atoms allocated *)
Fixpoint main_loop (nc na : nat) (fuel : nat) (t : text) (cs : cstate) (g : glob) : res glob :=
  match fuel with
  | O => Loop
  | S fuel' =>
      match fgets t with
      | None => Err EEof
      | Some (l, r, e) =>
          if is_N l
          then match scan_d (skipn 3 l) with
               | None => Err ENum
               | Some (n, l1) =>
                   match scan_d l1 with
                   | None => Err ENum
                   | Some (u, _) =>
                       let c0 := reset_cstate cs in
                       let cs := CState n u (have_energy c0) (have_stress c0) (box_x c0) (box_y c0) (box_z c0)
                                        (have_x c0) (have_y c0) (have_z c0) (num_fixed c0) in
                       if (n <? min_at)%Z then Err EFew
                       else if Nat.leb nc (nconf g) then Oob
                       else
                         do (r, cs, g) <- header (S (List.length r)) r cs (start_conf cs g);
                         do g <- after_header cs g;
                         do (r, g) <- read_atoms na (Z.to_nat n) 0 r g;
                         let g := end_conf cs g in
                         match r with
                         | [] => Ok g
                         | _ => main_loop nc na fuel' r cs g
                         end
                   end
               end
          else if e then Ok g else main_loop nc na fuel' r cs g
      end
  end.

(** 383-385 *)
Fixpoint sum_types (k : nat) (f : nat -> Z -> Z) (z : Z) : Z :=
  match k with O => 0%Z | S k' => (sum_types k' f z + f k' z)%Z end.
Definition finish (g : glob) : res glob :=
  let g := Glob (nconf g) (natoms g) (inconf g) (cnfstart g) (useforce g) (coheng g) (conf_weight g) (stress g) (usestress g)
                (boxes g) (atoms g)
                (upd (na_type g) (nconf g) (fun z => (na_type g (nconf g) z + sum_types (nconf g) (na_type g) z)%Z))
                (elements g) (with_forces g) (with_stresses g) (max_type g) in
  if (max_type g + 1 <? Z.of_nat ntypes)%Z then Err ENtypes else Ok g.

(** 104-113 and the arrays of 778-796: [names]: names from the potential file, or numbers *)
Definition glob0 (names : nat -> text) : glob :=
  Glob 0 0 (fun _ => 0%Z) (fun _ => 0%Z) (fun _ => 0%Z) (fun _ => Q2Qc 0) (fun _ => Q2Qc 1) (fun _ => tens0) (fun _ => false)
       (fun _ => (v0, v0, v0)) (fun _ => Atom 0 v0 v0 0) (fun _ _ => 0%Z) names 0 0 (-1).
(** 89-403 *)
Definition read_config (fixed : bool) (names : nat -> text) (t : text) : res glob :=
  do (nc, na) <- create_memory t;
  do g <- main_loop nc na (S (List.length t)) t
            (CState 0 0 false false v0 v0 v0 false false false (if fixed then ntypes else 0)) (glob0 names);
  finish g.

(** 404-457: the vector of the reference data; [extra]: entries behind the stresses *)
Definition vec_list (v : vec) : list Qc := let '(x, y, z) := v in [x; y; z].
Definition tens_list (s : tens) : list Qc := [xx s; yy s; zz s; xy s; yz s; zx s].
Definition force_0 (extra : nat) (g : glob) : list Qc :=
  flat_map (fun i => vec_list (a_force (atoms g i))) (seq 0 (natoms g))
  ++ map (coheng g) (seq 0 (nconf g))
  ++ (if stressb then flat_map (fun i => if usestress g i then tens_list (stress g i) else repeat (Q2Qc 0) 6) (seq 0 (nconf g)) else [])
  ++ repeat (Q2Qc 0) extra.
End Read.
