From Coq Require Import ZArith List Lia.
From Verif Require Import DevVecModel.
Import ListNotations.
Open Scope Z_scope.

Definition sizes_ok (s : sizes) : Prop :=
  0 <= natoms s /\ 0 <= nconf s /\ 0 <= ntypes s /\ 0 <= idxlen s /\
  0 <= invar_pots s <= number s.

Ltac crunch :=
  unfold writes, interval, mdim, punish_pot_p, punish_par_p, dummy_p, limit_p, stress_p, energy_p in *; cbn [fst snd] in *.

Lemma tab_layout : forall b s, sizes_ok s -> mkind b = Tab ->
  (forall r k, writes b s r k -> 0 <= k < mdim b s) /\
  (forall r1 r2 k, writes b s r1 k -> writes b s r2 k -> r1 = r2).
Proof.
  intros [st em tb mk] s (H1 & H2 & H3 & H4 & H5) E. cbn in E. subst mk. split.
  - intros r k W. crunch; cbn [stress eamlike tbeam mkind] in *. destruct r, st, em, tb; cbv beta iota in *; cbn [fst snd] in *; lia.
  - intros r1 r2 k W1 W2. crunch; cbn [stress eamlike tbeam mkind] in *.
    destruct r1, r2; try reflexivity; exfalso; destruct st, em, tb; cbv beta iota in *; cbn [fst snd] in *; lia.
Qed.

(** analytic potentials: everything but the two punishment regions and the s-band dummies *)
Lemma apot_data_layout : forall b s, sizes_ok s -> mkind b = Apot ->
  (forall r k, r <> ParPunish -> r <> PotPunish -> writes b s r k -> 0 <= k < mdim b s) /\
  (forall r1 r2 k, (r1 <> ParPunish \/ r2 <> PotPunish) -> (r1 <> PotPunish \/ r2 <> ParPunish) ->
     (tbeam b = false \/ (r1 <> SDummies /\ r2 <> SDummies)) ->
     writes b s r1 k -> writes b s r2 k -> r1 = r2) /\
  (forall k, writes b s ParPunish k -> 0 <= k < mdim b s).
Proof.
  intros [st em tb mk] s (H1 & H2 & H3 & H4 & H5) E. cbn in E. subst mk. split; [|split].
  - intros r k N1 N2 W. crunch; cbn [stress eamlike tbeam mkind] in *. destruct r; try congruence; destruct st, em, tb; cbv beta iota in *; cbn [fst snd] in *; lia.
  - intros r1 r2 k N1 N2 N3 W1 W2. cbn [tbeam] in N3. crunch; cbn [stress eamlike tbeam mkind] in *.
    destruct r1, r2; try reflexivity; try (destruct N1; congruence); try (destruct N2; congruence); exfalso;
    destruct st, em, tb; cbv beta iota in *; cbn [fst snd] in *; try lia; destruct N3 as [N3|[N3 N4]]; congruence.
  - intros k W. crunch; cbn [stress eamlike tbeam mkind] in *. destruct st, em, tb; cbv beta iota in *; cbn [fst snd] in *; lia.
Qed.

Lemma apot_full_layout : forall b s, sizes_ok s -> mkind b = Apot -> tbeam b = false ->
  idxlen s = number s - invar_pots s ->
  (forall r k, writes b s r k -> 0 <= k < mdim b s) /\
  (forall r1 r2 k, writes b s r1 k -> writes b s r2 k -> r1 = r2).
Proof.
  intros [st em tb mk] s (H1 & H2 & H3 & H4 & H5) E T L. cbn in E, T. subst mk tb. split.
  - intros r k W. crunch; cbn [stress eamlike tbeam mkind] in *. destruct r, st, em; cbv beta iota in *; cbn [fst snd] in *; lia.
  - intros r1 r2 k W1 W2. crunch; cbn [stress eamlike tbeam mkind] in *.
    destruct r1, r2; try reflexivity; exfalso; destruct st, em; cbv beta iota in *; cbn [fst snd] in *; lia.
Qed.

(** the two punishment regions overlap as soon as there are more free parameters than
    non-invariant potentials *)
Lemma apot_overlap : forall b s, sizes_ok s -> mkind b = Apot -> 0 < number s ->
  number s - invar_pots s < idxlen s ->
  writes b s ParPunish (punish_pot_p b s) /\ writes b s PotPunish (punish_pot_p b s).
Proof.
  intros [st em tb mk] s (H1 & H2 & H3 & H4 & H5) E N L. cbn in E. subst mk.
  crunch; cbn [stress eamlike tbeam mkind] in *. destruct st, em; cbv beta iota in *; lia.
Qed.

Definition pair_apot : build := {| stress := false; eamlike := false; tbeam := false; mkind := Apot |}.

Lemma apot_overlap_ex : exists s k, sizes_ok s /\ writes pair_apot s ParPunish k /\ writes pair_apot s PotPunish k.
Proof.
  exists {| natoms := 4; nconf := 1; ntypes := 1; idxlen := 2; number := 1; invar_pots := 0 |}, 14.
  unfold sizes_ok. crunch. cbn. lia.
Qed.

Lemma apot_out_of_bounds : exists s k, sizes_ok s /\ writes pair_apot s PotPunish k /\ mdim pair_apot s <= k.
Proof.
  exists {| natoms := 4; nconf := 1; ntypes := 2; idxlen := 1; number := 3; invar_pots := 0 |}, 18.
  unfold sizes_ok. crunch. cbn. lia.
Qed.

Lemma tbeam_overlap : exists s k, sizes_ok s /\
  writes {| stress := false; eamlike := true; tbeam := true; mkind := Apot |} s SDummies k /\
  writes {| stress := false; eamlike := true; tbeam := true; mkind := Apot |} s ParPunish k.
Proof.
  exists {| natoms := 4; nconf := 1; ntypes := 1; idxlen := 2; number := 5; invar_pots := 0 |}, 16.
  unfold sizes_ok. crunch. cbn. lia.
Qed.

Lemma kim_overlap : forall s st, sizes_ok s -> 0 < natoms s -> 0 < idxlen s ->
  let b := {| stress := st; eamlike := false; tbeam := false; mkind := Kim |} in
  writes b s Forces 0 /\ writes b s ParPunish 0.
Proof. intros s st H N L. cbv zeta. crunch. cbn [mkind]. cbv beta iota. lia. Qed.
