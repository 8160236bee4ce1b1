(** Start of a KIM model: kim.c:36-130 (check_model_routines, init_kim_model), and its own
    parameters as those of the potential: potential_input_f5.c:398-421
    (read_kim_parameters_default), 573-619.  The answers of the KIM library are given; a result
    other than 0 is None.  Numbers are real, an int parameter is its value.  Malloc fills with
    zeros and ends the program for size 0 (memory.c:68-85). *)
From Coq Require Import Reals List Bool Arith.
Import ListNotations.
Local Open Scope R_scope.

Inductive dtype := Integer | Double | Unknown.
(** answers of GetParameterMetadata and of GetParameterInteger or -Double by position *)
Record param := Param { p_type : dtype; p_extent : nat; p_get : nat -> option R }.
Record library (name : Type) := Library {
  l_create : option bool;      (* Model_Create: units accepted *)
  l_extension : option bool;      (* IsRoutinePresent *)
  l_refresh : option bool;
  l_write : option bool;
  l_species : list (option (name * option bool));      (* name and support of a species *)
  l_params : list (option param) }.
Arguments l_create {name}. Arguments l_extension {name}. Arguments l_refresh {name}. Arguments l_write {name}.
Arguments l_species {name}. Arguments l_params {name}. Arguments Library {name}.
(** g_kim *)
Record kim (name : Type) := Kim {
  k_extension : bool; k_write : bool; k_species : list name; k_params : list (dtype * list R); k_total : nat }.
Arguments Kim {name}. Arguments k_extension {name}. Arguments k_write {name}. Arguments k_species {name}.
Arguments k_params {name}. Arguments k_total {name}.

Section Start.
Context {name : Type}.
(** kim.c:36-63; the answers for Extension and WriteParameterizedModel *)
Definition check_model_routines (l : library name) : option (bool * bool) :=
  match l_extension l with
  | None => None
  | Some e =>
      match l_refresh l with
      | Some true => match l_write l with None => None | Some w => Some (e, w) end
      | _ => None
      end
  end.
(** kim.c:90-105 *)
Fixpoint get_species (l : list (option (name * option bool))) : option (list name) :=
  match l with
  | [] => Some []
  | Some (n, Some s) :: l => match get_species l with None => None | Some r => Some (if s then n :: r else r) end
  | _ :: _ => None
  end.
(** kim.c:121-128; the results of lines 123 and 125 are not looked at *)
Definition get_value (p : param) (j : nat) : R := match p_get p j with Some r => r | None => 0 end.
Fixpoint get_params (l : list (option param)) (total : nat) : option (list (dtype * list R) * nat) :=
  match l with
  | [] => Some ([], total)
  | None :: _ => None
  | Some p :: l =>
      if (p_extent p =? 0)%nat then None
      else match p_type p with
           | Unknown => None
           | t => match get_params l (total + p_extent p) with
                  | None => None
                  | Some (r, n) => Some ((t, map (get_value p) (seq 0 (p_extent p))) :: r, n)
                  end
           end
  end.
(** kim.c:69-130; total_params is 0 before *)
Definition init_kim_model (l : library name) : option (kim name) :=
  match l_create l with
  | Some true =>
      match check_model_routines l with
      | None => None
      | Some (e, w) =>
          match get_species (l_species l) with
          | None => None
          | Some s =>
              if (length (l_params l) <? 1)%nat then None
              else match get_params (l_params l) 0 with
                   | None => None
                   | Some (p, n) => Some (Kim e w s p n)
                   end
          end
      end
  | _ => None
  end.

(** value, pmin, pmax of the parameters of the potential, f5.c:398-421; invar_par is zero *)
Definition defaults (k : kim name) : list (R * R * R) := flat_map (fun p => map (fun v => (v, v, v)) (snd p)) (k_params k).
(** table and idx of opt_pot, f5.c:606-616 *)
Fixpoint free_index (values : list R) (invar : nat -> bool) (l : nat) : list nat :=
  match values with
  | [] => []
  | _ :: values => if invar l then free_index values invar (S l) else l :: free_index values invar (S l)
  end.
Definition default_table (k : kim name) : list R * list nat :=
  let values := map (fun p => fst (fst p)) (defaults k) in (values, free_index values (fun _ => false) 0).
End Start.
