(** Format of configuration files and the meaning of their lines, written without the reader. *)
From Coq Require Import ZArith List Bool Ascii String QArith Qcanon.
From Verif Require Import ParamsModel LinesModel.
Import ListNotations.
Local Open Scope nat_scope.

Definition vec3 : Type := (Qc * Qc * Qc)%type.
(** lines of a header: box vectors, energy, weight, stress (xx yy zz xy yz zx), comment *)
Inductive hitem :=
  HX (v : vec3) | HY (v : vec3) | HZ (v : vec3) | HE (q : Qc) | HW (q : Qc) | HS (s : list Qc) | HCom (c : text).
(** comment lines before the configuration, flag for the forces, header, atoms (type, position, force) *)
Record cfg := Cfg { f_pre : list text; f_use : Z; f_hdr : list hitem; f_atoms : list (Z * vec3 * vec3) }.

Section Format.
(** numbers as they are written *)
Variable pd : Z -> text.
Variable pf : Qc -> text.
Definition nums (qs : list Qc) : text := flat_map (fun q => " "%char :: pf q) qs.
Definition vl (v : vec3) : list Qc := let '(x, y, z) := v in [x; y; z].
(** lines without the line end *)
Definition item_line (h : hitem) : text :=
  match h with
  | HX v => txt "#X" ++ nums (vl v)
  | HY v => txt "#Y" ++ nums (vl v)
  | HZ v => txt "#Z" ++ nums (vl v)
  | HE q => txt "#E" ++ nums [q]
  | HW q => txt "#W" ++ nums [q]
  | HS s => txt "#S" ++ nums s
  | HCom c => txt "##" ++ c
  end.
Definition atom_line (a : Z * vec3 * vec3) : text := let '(ty, p, f) := a in pd ty ++ nums (vl p ++ vl f).
Definition pre_line (c : text) : text := txt "# " ++ c.
Definition start_line (c : cfg) : text :=
  txt "#N " ++ pd (Z.of_nat (List.length (f_atoms c))) ++ " "%char :: pd (f_use c).
Definition cfg_lines (c : cfg) : list text :=
  map pre_line (f_pre c) ++ start_line c :: map item_line (f_hdr c) ++ txt "#F" :: map atom_line (f_atoms c).
Definition unlines (ls : list text) : text := flat_map (fun l => l ++ [LF]) ls.
Definition file (cs : list cfg) : text := unlines (flat_map cfg_lines cs).
End Format.

(** the last line of a kind counts *)
Fixpoint last_of {A} (sel : hitem -> option A) (hs : list hitem) : option A :=
  match hs with
  | [] => None
  | h :: hs' => match last_of sel hs' with Some a => Some a | None => sel h end
  end.
Definition selX h := match h with HX v => Some v | _ => None end.
Definition selY h := match h with HY v => Some v | _ => None end.
Definition selZ h := match h with HZ v => Some v | _ => None end.
Definition selE h := match h with HE q => Some q | _ => None end.
Definition selW h := match h with HW q => Some q | _ => None end.
Definition selS h := match h with HS s => Some s | _ => None end.

(** atoms of the configurations before number [i] *)
Definition offset (cs : list cfg) (i : nat) : nat := list_sum (map (fun c => List.length (f_atoms c)) (firstn i cs)).
Definition total (cs : list cfg) : nat := list_sum (map (fun c => List.length (f_atoms c)) cs).
Definition of_type (z : Z) (c : cfg) : nat := List.length (filter (fun a => Z.eqb (fst (fst a)) z) (f_atoms c)).
Definition scaled (s : Qc) (v : vec3) : vec3 := let '(x, y, z) := v in (x * s, y * s, z * s)%Qc.
