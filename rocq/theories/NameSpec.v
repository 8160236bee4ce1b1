(** Copies that stay inside their memory; names stored by the reader of analytic potentials. *)
From Coq Require Import List String.
From Verif Require Import ParamsModel NameModel ApotModel RtModel RtSpec.
Import ListNotations.

(** text and terminating zero fit *)
Definition in_bounds (c : copy) : Prop := (List.length (snd c) + 1 <= fst c)%nat.
(** names of all parameters of a table *)
Definition param_names (t : wtab) : list string :=
  match t_cp t with Some c => map p_name c | None => [] end ++ map p_name (globals_of t) ++ flat_map (fun q => map p_name (w_pars q)) (t_pots t).
(** the blocks of src/potential_input_f0.c:357, 500, 511, 532, 545, 558, 652 and 814 have 30 bytes *)
Definition name_copies (t : wtab) : list copy := map (fun s => (30%nat, txt s)) (param_names t).
