(** C137, C138: names of files and parameters and their memory. *)
From Coq Require Import Reals ZArith List Bool String Ascii Arith Lia Lra.
From Verif Require Import ParamsModel NameModel NameSpec ApotModel RtModel RtSpec RtProof4 NameProof NameProof2.
Import ListNotations.
Local Open Scope nat_scope.

Theorem C137_heap : forall b st, Forall in_bounds (heap_copies b st).
Proof. exact heap_ok. Qed.
Print Assumptions C137_heap.

Theorem C137_exact : forall p l, Forall in_bounds (map (named p) l) <-> (forall e, In e l -> List.length p + String.length e < 255).
Proof. exact named_iff. Qed.
Print Assumptions C137_exact.

Theorem C137_stack : forall b i np mpi st eng sw n d, n < 10 ^ d -> 0 < d ->
  List.length (str "output_prefix" st) <= 236 -> List.length (str "output_prefix" st) + d <= 240 -> List.length (str "config" st) <= 249 -> List.length (str "imdpot" st) <= 239 ->
  (str "output_prefix" st = [] -> List.length (endpot st) <= 236) -> Forall in_bounds (stack_copies b i np mpi st eng sw n).
Proof. exact stack_ok. Qed.
Print Assumptions C137_stack.

Theorem C137_long_prefix_refuted : exists lines st, read_parameters b0 lines = Some st /\ (forall l, In l lines -> List.length l < 300) /\
  forall i np mpi eng sw n, exists c, In c (stack_copies b0 i np mpi st eng sw n) /\ ~ in_bounds c.
Proof. exact long_refuted. Qed.
Print Assumptions C137_long_prefix_refuted.

Theorem C137_distinct : forall b i np mpi st eng sw n, NoDup (map snd (reports b i np mpi st eng sw ++ ensemble_files b st n)).
Proof. exact distinct. Qed.
Print Assumptions C137_distinct.

Theorem C137_imd_distinct : forall b i st, NoDup (map snd (imd_files b i st)).
Proof. exact imd_distinct. Qed.
Print Assumptions C137_imd_distinct.

Theorem C137_default_endpot : forall st, has_str "endpot" st = false -> endpot st <> str "startpot" st.
Proof. exact default_endpot. Qed.
Print Assumptions C137_default_endpot.

(** A name that is given is used; the default is that of the start potential with "_end". *)
Theorem C137_endpot : forall st, (has_str "endpot" st = true -> endpot st = str "endpot" st) /\
  (has_str "endpot" st = false -> endpot st = (str "startpot" st ++ txt "_end")%list).
Proof. exact endpot_given. Qed.
Print Assumptions C137_endpot.

Theorem C138_exact : forall t, Forall in_bounds (name_copies t) <-> (forall s, In s (param_names t) -> String.length s < 30).
Proof. exact names_iff. Qed.
Print Assumptions C138_exact.

Theorem C138_written_names : forall pr opt num_params els rmin t n, legal num_params t -> filled t -> ntypes_of t n ->
  (forall s, In s (map p_name (globals_of t) ++ flat_map (fun q => map p_name (w_pars q)) (t_pots t)) -> String.length s < 30) ->
  (forall i, String.length (els i) <= 14) ->
  exists t', read_table num_params opt (cp_of t) None n (List.length (t_pots t)) (write_table pr els rmin None t) = Some t' /\ Forall in_bounds (name_copies t').
Proof. exact trip_bounds. Qed.
Print Assumptions C138_written_names.

Theorem C138_long_name_refuted : exists num_params t, legal num_params t /\ filled t /\ (forall s, In s (param_names t) -> String.length s < 255) /\
  forall pr opt els rmin n, exists t', read_table num_params opt (cp_of t) None n (List.length (t_pots t)) (write_table pr els rmin None t) = Some t' /\ ~ Forall in_bounds (name_copies t').
Proof. exact long_name_refuted. Qed.
Print Assumptions C138_long_name_refuted.

Definition some_lines : list text := map txt ["ntypes 1"; "startpot s"; "config c"; "tempfile t"; "output_prefix run"; "imdpot x"; "write_lammps 1"; "write_pair 1"]%string.
Example C137_ex : exists st, read_parameters b0 some_lines = Some st /\
  map (fun c => string_of_list_ascii (snd c)) (heap_copies b0 st ++ stack_copies b0 EAM false false st true true 3) =
  ["x"; "run"; "t"; "c"; "s"; "s_end"; "run.rho_loc"; "run.force"; "run.energy"; "run.punish"; "run.error"; "c.pair"; "x_phi.imd.pt"; "x_rho.imd.pt"; "x_F.imd.pt"; "run.lammps.EAM"]%string.
Proof. eexists. split; vm_compute; reflexivity. Qed.
Example C137_ensemble_ex : map (fun c => string_of_list_ascii (snd c)) (ensemble_files (Build_build true true false false false false false true false) [("output_prefix"%string, VStr (txt "u"))] 12) =
  map (fun s => ("u.ensemble_pot_" ++ s)%string) ["1"; "2"; "3"; "4"; "5"; "6"; "7"; "8"; "9"; "10"; "11"; "12"]%string.
Proof. vm_compute. reflexivity. Qed.
(** the hypotheses of C138_written_names are those of C43 (ex_trip) and short names *)
Example C138_ex : forall s, In s (map p_name (globals_of ex) ++ flat_map (fun q => map p_name (w_pars q)) (t_pots ex)) -> String.length s < 30.
Proof. intros s H. cbn in H. decompose [or] H; subst; try contradiction; cbn; lia. Qed.
