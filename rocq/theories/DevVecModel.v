(** Layout of the deviation ("force") vector. *)
From Coq Require Import ZArith List.
Import ListNotations.
Open Scope Z_scope.

(** Build: interaction is EAM-like (EAM, ADP or MEAM), TBEAM (implies EAM-like), STRESS,
    analytic (APOT), KIM (never together with APOT: src/wscript:68-77). *)
Inductive model_kind := Tab | Apot | Kim.
Record build := { stress : bool; eamlike : bool; tbeam : bool; mkind : model_kind }.

(** Sizes: atoms, configurations, atom types, free parameters (opt_pot.idxlen), analytic
    potentials (apot_table.number) and how many of them are invariant. *)
Record sizes := { natoms : Z; nconf : Z; ntypes : Z; idxlen : Z; number : Z; invar_pots : Z }.

(** src/config.c:404-426 g_calc.mdim *)
Definition mdim (b : build) (s : sizes) : Z :=
  3 * natoms s + nconf s
  + (if stress b then 6 * nconf s else 0)
  + (if eamlike b then nconf s + 2 * ntypes s + (if tbeam b then 2 * ntypes s else 0) else 0)
  + (match mkind b with Tab => 0 | _ => idxlen s + (number s + 1) end).

(** src/force_common.c:99-141 set_force_vector_pointers *)
Definition energy_p (s : sizes) : Z := 3 * natoms s.
Definition stress_p (s : sizes) : Z := energy_p s + nconf s.
Definition limit_p (b : build) (s : sizes) : Z :=
  if stress b then stress_p s + 6 * nconf s else energy_p s + nconf s.
Definition dummy_p (b : build) (s : sizes) : Z := limit_p b s + nconf s.
(** punish_par_p is only set under APOT; with KIM it keeps the 0 of
    initialize_global_variables (src/memory.c:137). *)
Definition punish_par_p (b : build) (s : sizes) : Z :=
  match mkind b with
  | Apot => if eamlike b then dummy_p b s + 2 * ntypes s
            else if stress b then stress_p s + 6 * nconf s else energy_p s + nconf s
  | _ => 0
  end.
Definition punish_pot_p (b : build) (s : sizes) : Z :=
  match mkind b with
  | Apot => punish_par_p b s + number s - invar_pots s
  | _ => 0
  end.

(** What the code writes, as half-open intervals [start, start+len). *)
Inductive region := Forces | Energies | Stresses | Limits | Dummies | SDummies | ParPunish | PotPunish.

Definition interval (b : build) (s : sizes) (r : region) : Z * Z :=
  match r with
  | Forces => (0, 3 * natoms s)                          (* e.g. force_pair.c:205-247 *)
  | Energies => (energy_p s, nconf s)                    (* force_pair.c:176-277 *)
  | Stresses => (stress_p s, if stress b then 6 * nconf s else 0)      (* force_pair.c:178-290 *)
  | Limits => (limit_p b s, if eamlike b then nconf s else 0)           (* force_eam.c:210 *)
  | Dummies => (dummy_p b s, if eamlike b then 2 * ntypes s else 0)     (* force_eam.c:558-570 *)
  | SDummies => (dummy_p b s + 2 * ntypes s,
                 if eamlike b then if tbeam b then 2 * ntypes s else 0 else 0)  (* force_eam.c:563-574 *)
  | ParPunish => (punish_par_p b s, match mkind b with Tab => 0 | _ => idxlen s end)
                                            (* functions.c:372-376, force_kim.c:281-285 *)
  | PotPunish => (punish_pot_p b s, match mkind b with Apot => number s | _ => 0 end)
                                            (* functions.c:386,398; index < number *)
  end.
Definition regions : list region :=
  [Forces; Energies; Stresses; Limits; Dummies; SDummies; ParPunish; PotPunish].

Definition writes (b : build) (s : sizes) (r : region) (k : Z) : Prop :=
  fst (interval b s r) <= k < fst (interval b s r) + snd (interval b s r).
