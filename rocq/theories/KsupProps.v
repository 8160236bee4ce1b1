(** C162, C163: checks of a KIM model before a run. *)
From Coq Require Import ZArith List Bool String.
From Verif Require Import KsupModel KsupSpec KsupProof.
Import ListNotations.

(** C162, C163.  Exactly the following models are accepted (for at least one configuration):
    every element has a code, which becomes its entry in the map of species; no result that is
    needed (energy; forces and virial, if a configuration uses them) is unsupported; no other
    argument is required; no unknown callback is required; and the library takes all pointers.
    The neighbour list and the offered terms of the derivatives are set for every
    configuration, whose helper holds its number. *)
Theorem C162_accepted : forall stress answer elements confs args calls refuses fails m h, confs <> [] ->
  (initialize_KIM stress answer elements confs args calls refuses fails = Some (m, h) <->
   Forall2 (fun e z => answer e = Code z) elements m /\
   (forall a st, In (a, st) args -> (needed stress confs a -> st <> NotSupported) /\ (~ needed stress confs a -> st <> Required)) /\
   (forall n s, In (OtherCall n, s) calls -> s <> Required) /\
   (forall c s, In (c, s) calls -> wanted c s = true -> fails c = false) /\
   (forall a, In a pointers -> refuses a = false) /\
   h = map (fun k => (k, map fst (filter (fun cs => wanted (fst cs) (snd cs)) calls))) (seq 0 (List.length confs))).
Proof. exact accepted. Qed.
Print Assumptions C162_accepted.
(** the flags of the loop over the configurations *)
Theorem C162_use_forces : forall stress confs, fst (used stress confs false false) = true <-> exists us, In (true, us) confs.
Proof.
  exact (fun stress confs => iff_trans (used_forces stress confs false false)
    (conj (fun H => match H with or_introl X => False_ind _ (Bool.diff_false_true X) | or_intror X => X end) (fun X => or_intror X))).
Qed.
Print Assumptions C162_use_forces.
Theorem C162_use_stress : forall confs, snd (used true confs false false) = true <-> exists uf, In (uf, true) confs.
Proof.
  exact (fun confs => iff_trans (used_stress confs false false)
    (conj (fun H => match H with or_introl X => False_ind _ (Bool.diff_false_true X) | or_intror X => X end) (fun X => or_intror X))).
Qed.
Print Assumptions C162_use_stress.
(** A model without forces is refused, although no configuration uses forces: the array of the
    forces is always handed to the library, which takes no pointer for an argument that the
    model does not support. *)
Theorem C162_unused_forces_refuted : exists answer elements confs args calls,
  (forall a st, In (a, st) args -> needed false confs a -> st <> NotSupported) /\
  (forall a st, In (a, st) args -> st <> Required) /\ confs <> [] /\
  (forall e, In e elements -> exists z, answer e = Code z) /\
  forall refuses fails, (forall a, In (a, NotSupported) args -> refuses a = true) ->
  initialize_KIM false answer elements confs args calls refuses fails = None.
Proof. exact unused_forces. Qed.
Print Assumptions C162_unused_forces_refuted.
(** A model that requires forces is refused if no configuration uses forces, although the
    array would be handed over. *)
Theorem C162_required_forces_refuted : exists answer elements confs args calls,
  In Forces pointers /\ (forall a st, In (a, st) args -> st <> NotSupported) /\
  (forall a, In (a, Required) args -> In a pointers) /\ confs <> [] /\
  (forall e, In e elements -> exists z, answer e = Code z) /\
  forall refuses fails, initialize_KIM false answer elements confs args calls refuses fails = None.
Proof. exact required_forces. Qed.
Print Assumptions C162_required_forces_refuted.
(** The virial is asked for even if no configuration uses its stresses (those of
    configurations without forces are not used). *)
Theorem C162_unused_stress_refuted : exists confs, (forall uf us, In (uf, us) confs -> (uf && us)%bool = false) /\ needed true confs Virial.
Proof. exact unused_stress. Qed.
Print Assumptions C162_unused_stress_refuted.

(** C163. *)
Theorem C163_callbacks : forall fails l cs, set_callbacks fails l = Some cs <->
  cs = map fst (filter (fun cs => wanted (fst cs) (snd cs)) l) /\ (forall c, In c cs -> fails c = false) /\
  (forall n s, In (OtherCall n, s) l -> s <> Required).
Proof. exact callbacks_iff. Qed.
Print Assumptions C163_callbacks.
(** Every callback that the model requires has a pointer. *)
Theorem C163_required : forall fails l cs c, set_callbacks fails l = Some cs -> In (c, Required) l -> In c cs.
Proof. exact required_set. Qed.
Print Assumptions C163_required.
Theorem C163_species : forall answer es m, species_map answer es = Some m <-> Forall2 (fun e z => answer e = Code z) es m.
Proof. exact species_map_iff. Qed.
Print Assumptions C163_species.

(** The codes of the atoms: right for the types whose names are known when the configuration
    is read (names that are known do not change, C118), -1 for the others. *)
Theorem C163_codes : forall known final confs,
  ForallOrdPairs (fun a b => kc_fixed a <= kc_fixed b)%nat confs ->
  (forall c i, In c confs -> (i < kc_fixed c)%nat -> kc_elements c i = final i) ->
  codes known confs (fun _ => -1)%Z =
    map (fun c => map (fun t => if Nat.ltb t (kc_fixed c) then match known (final t) with Some z => z | None => -1 end else -1)%Z (kc_types c)) confs.
Proof. exact codes_of. Qed.
Print Assumptions C163_codes.
(** A configuration before the first one with names keeps the code -1, although the check of
    the elements succeeds. *)
Theorem C163_codes_refuted : exists answer known final confs elements m,
  (forall e z, known e = Some z <-> answer e = Code z) /\ species_map answer elements = Some m /\
  (forall i e, nth_error elements i = Some e -> final i = e) /\
  ForallOrdPairs (fun a b => kc_fixed a <= kc_fixed b)%nat confs /\
  (forall c i, In c confs -> (i < kc_fixed c)%nat -> kc_elements c i = final i) /\
  (forall c t, In c confs -> In t (kc_types c) -> (t < List.length elements)%nat) /\
  m = [13%Z] /\ codes known confs (fun _ => -1)%Z = [[-1; -1]; [13; 13]]%Z.
Proof. exact late_names. Qed.
Print Assumptions C163_codes_refuted.

Example C162_ex : initialize_KIM true (fun e => if String.eqb e "Al" then Code 13 else if String.eqb e "Ni" then Code 7 else Unknown)
    ["Ni"; "Al"]%string [(false, false); (true, true); (false, false)]
    (plain ++ [(Forces, Required); (Virial, Optional); (OtherArg 0, NotSupported)])
    [(NeighborList, RequiredByAPI); (DEDr, Optional); (D2EDr2, NotSupported)] (fun _ => false) (fun _ => false) =
  Some ([7; 13]%Z, [(0, [NeighborList; DEDr]); (1, [NeighborList; DEDr]); (2, [NeighborList; DEDr])])%nat.
Proof. reflexivity. Qed.
Example C163_ex : set_callbacks (fun _ => false) [(NeighborList, RequiredByAPI); (OtherCall 3, Required)] = None.
Proof. reflexivity. Qed.
