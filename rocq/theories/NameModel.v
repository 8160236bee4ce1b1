(** Names of files and of parameters and the memory they are copied to.  Texts and settings
    are those of ParamsModel.v.  A copy is the size of the destination with the text written
    to it; the terminating zero needs one byte more than the text has. *)
From Coq Require Import ZArith List Bool String Ascii Arith.
From Verif Require Import ParamsModel.
Import ListNotations.
Local Open Scope string_scope.

Definition copy := (nat * text)%type.
Definition str (k : string) (st : settings) : text := match lookup k st with Some (VStr s) => s | _ => [] end.
(** int of a %d *)
Definition digit (n : nat) : ascii := ascii_of_nat (48 + n).
Fixpoint digits (fuel n : nat) : text :=
  match fuel with
  | O => []
  | S f => if (n <? 10)%nat then [digit n] else (digits f (n / 10) ++ [digit (n mod 10)])%list
  end.
Definition decimal (n : nat) : text := digits (S n) n.

Inductive interaction := PAIR | ANG | ANG_ELSTAT | EAM | TBEAM | ADP | ELSTAT | EAM_ELSTAT | MEAM | STIWEB | TERSOFF | TERSOFFMOD | KIM.
(** src/memory.c:196-231 *)
Definition interaction_name (i : interaction) : string :=
  match i with
  | PAIR => "PAIR" | ANG => "ANG" | ANG_ELSTAT => "ANG_ELSTAT" | EAM => "EAM" | TBEAM => "TBEAM" | ADP => "ADP" | ELSTAT => "ELSTAT"
  | EAM_ELSTAT => "EAM_ELSTAT" | MEAM => "MEAM" | STIWEB => "STIWEB" | TERSOFF => "TERSOFF" | TERSOFFMOD => "TERSOFFMOD" | KIM => "KIM"
  end.
(** EAM is defined in builds TBEAM and EAM_ELSTAT, too *)
Definition dens (i : interaction) : bool := match i with EAM | TBEAM | EAM_ELSTAT | ADP | MEAM => true | _ => false end.

Section Names.
Variable b : build.
Variable i : interaction.
Variable nopunish mpi : bool.
Variable st : settings.

(** src/params.c:401-404 get_param_string *)
Definition values : list copy := flat_map (fun kv => match snd kv with VStr s => [(S (List.length s), s)] | _ => [] end) st.
(** src/params.c:423-429 *)
Definition endpot : text := if has_str "endpot" st then str "endpot" st else (str "startpot" st ++ txt "_end")%list.
Definition endpot_copy : list copy := if has_str "endpot" st then [] else [((List.length (str "startpot" st) + 5)%nat, endpot)].
(** src/params.c:494-501 *)
Definition ensemble_copy : list copy :=
  if (b_uq b && negb (has_str "ensemblefile" st))%bool then [((List.length (str "output_prefix" st) + 4)%nat, (str "output_prefix" st ++ txt ".uq")%list)] else [].

(** files of the error report, src/errors.c:129-131, 216-225 (without MPI), 284-286, 360-362, 416-433,
    479-487; the energies only with a weight ([eng]), the stresses, too ([sw]) *)
Definition report_ext (eng sw : bool) : list string :=
  (if (dens i && negb mpi)%bool then [".rho_loc"] else []) ++ [".force"] ++ (if eng then [".energy"] else []) ++ (if (b_stress b && sw)%bool then [".stress"] else [])
  ++ (if (dens i && negb nopunish)%bool then [".punish"] else []) ++ [".error"].
Definition named (p : text) (e : string) : copy := (255%nat, (p ++ txt e)%list).
Definition reports (eng sw : bool) : list copy := if has_str "output_prefix" st then map (named (str "output_prefix" st)) (report_ext eng sw) else [].
(** src/config.c:1548-1564 *)
Definition pair_file : list copy := if (0 <? get_int "write_pair" 0 st)%Z then [named (str "config" st) ".pair"] else [].
(** src/potential_output_imd.c:56-63, 182-640 *)
Definition imd_ext : list string :=
  match i with
  | STIWEB => [".sw.pot"] | TERSOFF => [".tersoff.pot"] | TERSOFFMOD => [".tersoffmod.pot"]
  | _ => ["_phi.imd.pt"] ++ (if dens i then ["_rho.imd.pt"; "_F.imd.pt"] else []) ++ match i with ADP => ["_upot.imd.pt"; "_wpot.imd.pt"] | MEAM => ["_f_meam.imd.pt"; "_g_meam.imd.pt"] | _ => [] end
         ++ (if (b_coulomb b && b_apot b)%bool then ["_charges.imd"] else [])
  end.
Definition imd_files : list copy := if has_str "imdpot" st then map (named (str "imdpot" st)) imd_ext else [].
(** src/potential_output_lammps.c:72-84, 256-261, 380-384; nothing is written for the other interactions (608-620) *)
Definition lammps_ext : list string :=
  match i with
  | STIWEB => [".lammps.sw"] | TERSOFF => [".lammps.tersoff"] | TERSOFFMOD => [".lammps.tersoffmod"]
  | PAIR | EAM | TBEAM | EAM_ELSTAT | ADP => [".lammps." ++ interaction_name i]
  | _ => []
  end.
Definition lammps_files : list copy :=
  if (0 <? get_int "write_lammps" 0 st)%Z then
    map (named (match str "output_prefix" st with [] => endpot | p => p end)) lammps_ext else [].
(** src/uq.c:243-244, [n] accepted moves *)
Definition ensemble_files (n : nat) : list copy :=
  if b_uq b then map (fun k => (255%nat, (str "output_prefix" st ++ txt ".ensemble_pot_" ++ decimal (S k))%list)) (seq 0 n) else [].

Definition heap_copies : list copy := values ++ endpot_copy ++ ensemble_copy.
Definition stack_copies (eng sw : bool) (n : nat) : list copy := reports eng sw ++ pair_file ++ imd_files ++ lammps_files ++ ensemble_files n.
End Names.
