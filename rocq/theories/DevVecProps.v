(** C09: regions of the deviation vector. *)
From Coq Require Import ZArith List Lia.
From Verif Require Import DevVecModel DevVecProof.
Open Scope Z_scope.

(** Tabulated potentials, every interaction, with and without stress: everything written
    lies inside the vector and no entry is written for two purposes. *)
Theorem C09_tabulated : forall b s, sizes_ok s -> mkind b = Tab ->
  (forall r k, writes b s r k -> 0 <= k < mdim b s) /\
  (forall r1 r2 k, writes b s r1 k -> writes b s r2 k -> r1 = r2).
Proof. exact tab_layout. Qed.
Print Assumptions C09_tabulated.

(** Analytic potentials: forces, energies, stresses, limits, dummies are disjoint from
    each other and from the punishments (except for the s-band dummies of TBEAM), and only
    potential punishments can leave the vector. *)
Theorem C09_analytic_data : forall b s, sizes_ok s -> mkind b = Apot ->
  (forall r k, r <> ParPunish -> r <> PotPunish -> writes b s r k -> 0 <= k < mdim b s) /\
  (forall r1 r2 k, (r1 <> ParPunish \/ r2 <> PotPunish) -> (r1 <> PotPunish \/ r2 <> ParPunish) ->
     (tbeam b = false \/ (r1 <> SDummies /\ r2 <> SDummies)) ->
     writes b s r1 k -> writes b s r2 k -> r1 = r2) /\
  (forall k, writes b s ParPunish k -> 0 <= k < mdim b s).
Proof. exact apot_data_layout. Qed.
Print Assumptions C09_analytic_data.

(** The full property for analytic potentials holds when there is one free parameter per
    non-invariant potential. *)
Theorem C09_analytic_partial : forall b s, sizes_ok s -> mkind b = Apot -> tbeam b = false ->
  idxlen s = number s - invar_pots s ->
  (forall r k, writes b s r k -> 0 <= k < mdim b s) /\
  (forall r1 r2 k, writes b s r1 k -> writes b s r2 k -> r1 = r2).
Proof. exact apot_full_layout. Qed.
Print Assumptions C09_analytic_partial.

Example C09_ex : sizes_ok {| natoms := 10; nconf := 2; ntypes := 2; idxlen := 5; number := 7; invar_pots := 2 |} /\
  writes {| stress := true; eamlike := true; tbeam := false; mkind := Apot |}
    {| natoms := 10; nconf := 2; ntypes := 2; idxlen := 5; number := 7; invar_pots := 2 |} PotPunish 60 /\
  mdim {| stress := true; eamlike := true; tbeam := false; mkind := Apot |}
    {| natoms := 10; nconf := 2; ntypes := 2; idxlen := 5; number := 7; invar_pots := 2 |} = 63.
Proof. unfold sizes_ok, writes. cbn. lia. Qed.

(** With more free parameters than non-invariant potentials the two kinds of punishment
    always share an entry. *)
Theorem C09_punishments_overlap_refuted : forall b s, sizes_ok s -> mkind b = Apot -> 0 < number s ->
  number s - invar_pots s < idxlen s ->
  writes b s ParPunish (punish_pot_p b s) /\ writes b s PotPunish (punish_pot_p b s).
Proof. exact apot_overlap. Qed.
Print Assumptions C09_punishments_overlap_refuted.

Example C09_overlap_ex : exists s k, sizes_ok s /\ writes pair_apot s ParPunish k /\ writes pair_apot s PotPunish k.
Proof. exact apot_overlap_ex. Qed.

(** With few free parameters a potential punishment is written behind the vector. *)
Theorem C09_out_of_bounds_refuted : exists s k, sizes_ok s /\
  writes pair_apot s PotPunish k /\ mdim pair_apot s <= k.
Proof. exact apot_out_of_bounds. Qed.
Print Assumptions C09_out_of_bounds_refuted.

(** Two-band EAM: parameter punishments and s-band dummy constraints share entries. *)
Theorem C09_tbeam_refuted : exists s k, sizes_ok s /\
  writes {| stress := false; eamlike := true; tbeam := true; mkind := Apot |} s SDummies k /\
  writes {| stress := false; eamlike := true; tbeam := true; mkind := Apot |} s ParPunish k.
Proof. exact tbeam_overlap. Qed.
Print Assumptions C09_tbeam_refuted.

(** KIM builds: the punishment of the first parameter always overwrites the first force
    component. *)
Theorem C09_kim_refuted : forall s st, sizes_ok s -> 0 < natoms s -> 0 < idxlen s ->
  let b := {| stress := st; eamlike := false; tbeam := false; mkind := Kim |} in
  writes b s Forces 0 /\ writes b s ParPunish 0.
Proof. exact kim_overlap. Qed.
Print Assumptions C09_kim_refuted.
