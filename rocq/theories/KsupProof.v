(** Proofs for C162, C163. *)
From Coq Require Import ZArith List Bool String Lia.
From Verif Require Import KsupModel KsupSpec.
Import ListNotations.

Lemma species_map_iff : forall answer es m, species_map answer es = Some m <->
  Forall2 (fun e z => answer e = Code z) es m.
Proof.
  intros answer. induction es as [|e es IH]; intros m; cbn [species_map].
  - split; [intros H; injection H as <-; constructor|intros H; inversion H; reflexivity].
  - split.
    + destruct (answer e) as [| |z] eqn:E; try discriminate. destruct (species_map answer es) as [m'|] eqn:M; [|discriminate].
      intros H. cbn [option_map] in H. injection H as <-. constructor; [exact E|]. apply IH. reflexivity.
    + intros H. inversion H as [|? z ? m' E R]; subst. rewrite E. apply IH in R. rewrite R. reflexivity.
Qed.

Lemma used_forces : forall stress cs f s, fst (used stress cs f s) = true <-> f = true \/ exists us, In (true, us) cs.
Proof.
  intros stress. induction cs as [|(uf, us) cs IH]; intros f s; cbn [used].
  - cbn [fst]. split; [intros H; left; exact H|intros [H|(x & [])]; exact H].
  - set (b := if stress then _ else _). destruct b eqn:B; unfold b in B.
    + cbn [fst]. split; [|intros _].
      * destruct uf; [intros _; right; exists us; left; reflexivity|intros H; left; exact H].
      * destruct stress; [apply andb_true_iff in B; apply B|exact B].
    + rewrite IH. split.
      * intros [H|(x & H)]; [destruct uf; [right; exists us; left; reflexivity|left; exact H]|right; exists x; right; exact H].
      * intros [H|(x & [H|H])]; [left; rewrite H; destruct uf; reflexivity|injection H as -> ->; left; reflexivity|right; exists x; exact H].
Qed.

Lemma used_stress : forall cs f s, snd (used true cs f s) = true <-> s = true \/ exists uf, In (uf, true) cs.
Proof.
  induction cs as [|(uf, us) cs IH]; intros f s; cbn [used andb].
  - cbn [snd]. split; [intros H; left; exact H|intros [H|(x & [])]; exact H].
  - destruct ((if uf then true else f) && (if us then true else s))%bool eqn:B.
    + cbn [snd]. apply andb_true_iff in B. split; [|intros _; apply B].
      destruct us; [intros _; right; exists uf; left; reflexivity|intros H; left; exact H].
    + rewrite IH. split.
      * intros [H|(x & H)]; [destruct us; [right; exists uf; left; reflexivity|left; exact H]|right; exists x; right; exact H].
      * intros [H|(x & [H|H])]; [left; rewrite H; destruct us; reflexivity|injection H as -> ->; left; reflexivity|right; exists x; exact H].
Qed.

Lemma arguments_iff : forall stress f s l, arguments_ok stress f s l = true <->
  forall a st, In (a, st) l -> argument_ok stress f s a st = true.
Proof.
  intros stress f s. induction l as [|(a, st) l IH]; cbn [arguments_ok].
  - split; [intros _ a st []|reflexivity].
  - destruct (argument_ok stress f s a st) eqn:E.
    + rewrite IH. split; [intros H a' st' [X|X]; [injection X as <- <-; exact E|apply H; exact X]|intros H a' st' X; apply H; right; exact X].
    + split; [discriminate|]. intros H. rewrite <- E. apply H. left. reflexivity.
Qed.

Lemma argument_iff : forall stress confs a st, let '(f, s) := used stress confs false false in
  argument_ok stress f s a st = true <->
  (needed stress confs a -> st <> NotSupported) /\ (~ needed stress confs a -> st <> Required).
Proof.
  intros stress confs a st. destruct (used stress confs false false) as [f s] eqn:U.
  assert (F : f = true <-> exists us, In (true, us) confs).
  { pose proof (used_forces stress confs false false) as H. rewrite U in H. cbn [fst] in H. rewrite H. split; [intros [X|X]; [discriminate|exact X]|intros X; right; exact X]. }
  assert (S : stress = true -> (s = true <-> exists uf, In (uf, true) confs)).
  { intros ->. pose proof (used_stress confs false false) as H. rewrite U in H. cbn [snd] in H. rewrite H. split; [intros [X|X]; [discriminate|exact X]|intros X; right; exact X]. }
  clear U.
  assert (N1 : negb (is_notsupported st) = true <-> st <> NotSupported) by (destruct st; cbn; split; intros; congruence).
  assert (N2 : negb (is_required st) = true <-> st <> Required) by (destruct st; cbn; split; intros; congruence).
  assert (Y : needed stress confs a -> (negb (is_notsupported st) = true <-> (needed stress confs a -> st <> NotSupported) /\ (~ needed stress confs a -> st <> Required))).
  { intros Y. rewrite N1. split; [intros H; split; [auto|intros X; contradiction]|intros (H & _); auto]. }
  assert (Z : ~ needed stress confs a -> (negb (is_required st) = true <-> (needed stress confs a -> st <> NotSupported) /\ (~ needed stress confs a -> st <> Required))).
  { intros Z. rewrite N2. split; [intros H; split; [intros X; contradiction|auto]|intros (_ & H); auto]. }
  unfold argument_ok. destruct a; try (apply Z; unfold needed; intros [H|[(H & _)|(H & _)]]; discriminate).
  - apply Y. left. reflexivity.
  - destruct f.
    + apply Y. right. left. split; [reflexivity|]. apply F. reflexivity.
    + apply Z. intros [H|[(_ & H)|(H & _)]]; try discriminate. apply F in H. discriminate.
  - destruct stress; cbn [andb]; [destruct s|].
    + apply Y. right. right. split; [reflexivity|]. split; [reflexivity|]. apply S; reflexivity.
    + apply Z. intros [H|[(H & _)|(_ & _ & H)]]; try discriminate. apply S in H; [discriminate|reflexivity].
    + apply Z. intros [H|[(H & _)|(_ & H & _)]]; discriminate.
Qed.

(** callbacks *)
Lemma callbacks_iff : forall fails l cs, set_callbacks fails l = Some cs <->
  cs = map fst (filter (fun cs => wanted (fst cs) (snd cs)) l) /\ (forall c, In c cs -> fails c = false) /\
  (forall n s, In (OtherCall n, s) l -> s <> Required).
Proof.
  intros fails. induction l as [|(c, s) l IH]; intros cs; cbn [set_callbacks filter].
  - cbn [map]. split.
    + intros H. injection H as <-. split; [reflexivity|]. split; [intros c []|intros n s []].
    + intros (-> & _). reflexivity.
  - assert (K : forall cs, (if fails c then None else option_map (cons c) (set_callbacks fails l)) = Some cs <->
       cs = c :: map fst (filter (fun cs => wanted (fst cs) (snd cs)) l) /\ (forall c, In c cs -> fails c = false) /\
       (forall n s, In (OtherCall n, s) l -> s <> Required)).
    { intros cs'. destruct (fails c) eqn:E.
      - split; [discriminate|]. intros (-> & H & _). rewrite (H c) in E; [discriminate|]. left. reflexivity.
      - destruct (set_callbacks fails l) as [t|] eqn:T; cbn [option_map].
        + destruct (proj1 (IH t) eq_refl) as (T1 & T2 & T3). split.
          * intros H. injection H as <-. rewrite T1 at 1. split; [reflexivity|]. split; [intros x [<-|X]; auto|exact T3].
          * intros (-> & _). rewrite T1. reflexivity.
        + split; [discriminate|]. intros (-> & H & H').
          assert (X : None = Some (map fst (filter (fun cs => wanted (fst cs) (snd cs)) l))); [|discriminate X].
          apply IH. split; [reflexivity|]. split; [intros x X; apply H; right; exact X|exact H']. }
    assert (O : (match c with OtherCall _ => False | _ => True end) -> (forall n s', In (OtherCall n, s') ((c, s) :: l) -> s' <> Required) <-> (forall n s', In (OtherCall n, s') l -> s' <> Required)).
    { intros C. split; [intros H n s' X; apply (H n); right; exact X|intros H n s' [X|X]; [injection X as -> _; contradiction|apply (H n); exact X]]. }
    destruct c; cbn [wanted fst snd].
    + rewrite (O I). apply K.
    + rewrite (O I). destruct s; cbn [is_required is_optional orb]; (apply K || apply IH).
    + rewrite (O I). destruct s; cbn [is_required is_optional orb]; (apply K || apply IH).
    + destruct (is_required s) eqn:R.
      * split; [discriminate|]. intros (_ & _ & H). exfalso. apply (H n s); [left; reflexivity|]. destruct s; try discriminate. reflexivity.
      * rewrite IH. split; intros (H1 & H2 & H3); (split; [exact H1|]; split; [exact H2|]).
        -- intros n' s' [X|X]; [injection X as _ <-; intros ->; discriminate|apply (H3 n'); exact X].
        -- intros n' s' X. apply (H3 n'). right. exact X.
Qed.

Lemma prepare_all_iff : forall refuses fails calls todo i h, (0 < todo)%nat ->
  (prepare_all refuses fails calls todo i = Some h <->
   exists cs, set_callbacks fails calls = Some cs /\ (forall a, In a pointers -> refuses a = false) /\
   h = map (fun k => (k, cs)) (seq i todo)).
Proof.
  intros refuses fails calls. induction todo as [|todo IH]; intros i h P; [lia|]. cbn [prepare_all seq map]. unfold prepare.
  destruct (set_callbacks fails calls) as [cs|]; [|split; [discriminate|intros (cs & H & _); discriminate]].
  destruct (existsb refuses pointers) eqn:E.
  - split; [discriminate|]. intros (c & _ & H & _). apply existsb_exists in E. destruct E as (a & A & B). rewrite (H a A) in B. discriminate.
  - assert (N : forall a, In a pointers -> refuses a = false).
    { intros a A. destruct (refuses a) eqn:R; [|reflexivity]. assert (X : existsb refuses pointers = true) by (apply existsb_exists; exists a; auto). congruence. }
    destruct todo as [|todo].
    + cbn [prepare_all option_map seq map]. split.
      * intros H. injection H as <-. exists cs. auto.
      * intros (c & H & _ & ->). injection H as <-. reflexivity.
    + specialize (IH (S i)). split.
      * destruct (prepare_all refuses fails calls (S todo) (S i)) as [t|] eqn:T; [|discriminate]. intros H. cbn [option_map] in H. injection H as <-.
        destruct (proj1 (IH t ltac:(lia)) eq_refl) as (c & H1 & _ & H2). injection H1 as <-. exists cs. rewrite H2. auto.
      * intros (c & H & H' & ->). injection H as <-.
        rewrite (proj2 (IH (map (fun k => (k, cs)) (seq (S i) (S todo))) ltac:(lia))); [reflexivity|]. exists cs. auto.
Qed.

Lemma accepted : forall stress answer elements confs args calls refuses fails m h, confs <> [] ->
  (initialize_KIM stress answer elements confs args calls refuses fails = Some (m, h) <->
   Forall2 (fun e z => answer e = Code z) elements m /\
   (forall a st, In (a, st) args -> (needed stress confs a -> st <> NotSupported) /\ (~ needed stress confs a -> st <> Required)) /\
   (forall n s, In (OtherCall n, s) calls -> s <> Required) /\
   (forall c s, In (c, s) calls -> wanted c s = true -> fails c = false) /\
   (forall a, In a pointers -> refuses a = false) /\
   h = map (fun k => (k, map fst (filter (fun cs => wanted (fst cs) (snd cs)) calls))) (seq 0 (List.length confs))).
Proof.
  intros stress answer elements confs args calls refuses fails m h NE. unfold initialize_KIM.
  destruct confs as [|c0 confs']; [congruence|]. set (confs := c0 :: confs') in *.
  pose proof (argument_iff stress confs) as A. destruct (used stress confs false false) as [f s].
  set (W := map fst (filter (fun cs => wanted (fst cs) (snd cs)) calls)).
  assert (WI : (forall c, In c W -> fails c = false) <-> (forall c s, In (c, s) calls -> wanted c s = true -> fails c = false)).
  { unfold W. split.
    - intros H c s' X Y. apply H. apply in_map_iff. exists (c, s'). split; [reflexivity|]. apply filter_In. split; [exact X|exact Y].
    - intros H c X. apply in_map_iff in X. destruct X as ((c', s') & E & X). cbn [fst] in E. subst c'. apply filter_In in X. destruct X as (X & Y). exact (H c s' X Y). }
  split.
  - destruct (species_map answer elements) as [m'|] eqn:M; [|discriminate]. destruct (arguments_ok stress f s args) eqn:G; [|discriminate].
    destruct (prepare_all refuses fails calls (List.length confs) 0) as [h'|] eqn:H; [|discriminate]. intros X. cbn [option_map] in X. injection X as <- <-.
    apply species_map_iff in M. apply prepare_all_iff in H; [|cbn; lia]. destruct H as (cs & C & P & ->).
    apply callbacks_iff in C. destruct C as (-> & C2 & C3).
    split; [exact M|]. split; [intros a st X; apply A; rewrite arguments_iff in G; apply G; exact X|].
    split; [exact C3|]. split; [apply WI; exact C2|]. split; [exact P|]. reflexivity.
  - intros (M & G & C3 & C2 & P & ->). apply species_map_iff in M. rewrite M.
    rewrite (proj2 (arguments_iff stress f s args)) by (intros a st X; apply A; apply G; exact X).
    rewrite (proj2 (prepare_all_iff refuses fails calls (List.length confs) 0 (map (fun k => (k, W)) (seq 0 (List.length confs))) ltac:(cbn; lia))); [reflexivity|].
    exists W. split; [apply callbacks_iff; split; [reflexivity|]; split; [apply WI; exact C2|exact C3]|]. split; [exact P|reflexivity].
Qed.

(** energies only *)
Definition plain : list (argument * status) :=
  [(Particles, RequiredByAPI); (Species, RequiredByAPI); (Contributing, RequiredByAPI); (Coordinates, RequiredByAPI); (Energy, Optional)].
Lemma unused_forces : exists answer elements confs args calls, 
  (forall a st, In (a, st) args -> needed false confs a -> st <> NotSupported) /\
  (forall a st, In (a, st) args -> st <> Required) /\ confs <> [] /\
  (forall e, In e elements -> exists z, answer e = Code z) /\
  forall refuses fails, (forall a, In (a, NotSupported) args -> refuses a = true) ->
  initialize_KIM false answer elements confs args calls refuses fails = None.
Proof.
  exists (fun _ => Code 0), ["Al"%string], [(false, false)], (plain ++ [(Forces, NotSupported)]), [(NeighborList, RequiredByAPI)].
  assert (N : ~ needed false [(false, false)] Forces).
  { intros [H|[(_ & us & [H|[]])|(H & _)]]; discriminate. }
  split.
  - intros a st H Y. unfold plain in H. cbn [app In] in H. intros ->.
    decompose [or] H; try match goal with E : (_, _) = (_, _) |- _ => injection E as <-; try discriminate end; try contradiction.
  - split; [|split; [discriminate|split]].
    + intros a st H. unfold plain in H. cbn [app In] in H. decompose [or] H; try contradiction; match goal with E : (_, _) = (_, _) |- _ => injection E as _ <-; discriminate end.
    + intros e _. exists 0%Z. reflexivity.
    + intros refuses fails H. cbn. unfold prepare. cbn [set_callbacks]. destruct (fails NeighborList); [reflexivity|]. cbn [option_map existsb pointers].
      rewrite (H Forces) by (unfold plain; cbn; tauto). repeat rewrite orb_true_r. reflexivity.
Qed.
(** a model that wants to return forces which nobody uses: the array is set up for it *)
Lemma required_forces : exists answer elements confs args calls,
  In Forces pointers /\ (forall a st, In (a, st) args -> st <> NotSupported) /\
  (forall a, In (a, Required) args -> In a pointers) /\ confs <> [] /\
  (forall e, In e elements -> exists z, answer e = Code z) /\
  forall refuses fails, initialize_KIM false answer elements confs args calls refuses fails = None.
Proof.
  exists (fun _ => Code 0), ["Al"%string], [(false, false)], (plain ++ [(Forces, Required)]), [(NeighborList, RequiredByAPI)].
  split; [cbn; tauto|]. split.
  - intros a st H. unfold plain in H. cbn [app In] in H. decompose [or] H; try contradiction; match goal with E : (_, _) = (_, _) |- _ => injection E as _ <-; discriminate end.
  - split; [|split; [discriminate|split]].
    + intros a H. unfold plain in H. cbn [app In] in H. decompose [or] H; try contradiction; match goal with E : (_, _) = (_, _) |- _ => injection E as <-; try discriminate end. cbn. tauto.
    + intros e _. exists 0%Z. reflexivity.
    + intros refuses fails. reflexivity.
Qed.
(** stresses of configurations without forces are asked for, but not used (force_kim.c:256) *)
Lemma unused_stress : exists confs, (forall uf us, In (uf, us) confs -> (uf && us)%bool = false) /\ needed true confs Virial.
Proof.
  exists [(false, true)]. split; [intros uf us [H|[]]; injection H as <- <-; reflexivity|].
  right. right. split; [reflexivity|]. split; [reflexivity|]. exists false. left. reflexivity.
Qed.
Lemma required_set : forall fails l cs c, set_callbacks fails l = Some cs -> In (c, Required) l -> In c cs.
Proof.
  intros fails l cs c H I. apply callbacks_iff in H. destruct H as (-> & _ & H).
  apply in_map_iff. exists (c, Required). split; [reflexivity|]. apply filter_In. split; [exact I|].
  destruct c; try reflexivity. exfalso. exact (H n Required I eq_refl).
Qed.

(** codes of the atoms *)
Definition codes_upto (known : string -> option Z) (final : nat -> string) (n : nat) (i : nat) : Z :=
  if Nat.ltb i n then match known (final i) with Some z => z | None => (-1)%Z end else (-1)%Z.
Lemma complete_upto : forall known final f n els m, (f <= n)%nat -> (forall i, (i < n)%nat -> els i = final i) ->
  (forall i, m i = codes_upto known final f i) -> forall i, complete known n els m i = codes_upto known final n i.
Proof.
  intros known final f n els m L E M i. unfold complete. rewrite M. unfold codes_upto.
  destruct (Nat.ltb_spec i n) as [A|A]; cbn [andb].
  - rewrite (E i A). destruct (Nat.ltb_spec i f) as [B|B].
    + destruct (known (final i)) as [z|]; [|reflexivity]. destruct (z =? -1)%Z; reflexivity.
    + reflexivity.
  - destruct (Nat.ltb_spec i f) as [B|B]; [lia|reflexivity].
Qed.
Lemma codes_from : forall known final confs f m,
  (forall i, m i = codes_upto known final f i) ->
  ForallOrdPairs (fun a b => kc_fixed a <= kc_fixed b)%nat confs -> (forall c, In c confs -> (f <= kc_fixed c)%nat) ->
  (forall c i, In c confs -> (i < kc_fixed c)%nat -> kc_elements c i = final i) ->
  codes known confs m = map (fun c => map (codes_upto known final (kc_fixed c)) (kc_types c)) confs.
Proof.
  intros known final. induction confs as [|c confs IH]; intros f m M O L E; [reflexivity|]. cbn [codes map].
  assert (C : forall i, complete known (kc_fixed c) (kc_elements c) m i = codes_upto known final (kc_fixed c) i).
  { apply (complete_upto known final f); [apply L; left; reflexivity|intros i I; apply E; [left; reflexivity|exact I]|exact M]. }
  inversion O as [|? ? O1 O2]; subst. f_equal; [apply map_ext; exact C|].
  apply (IH (kc_fixed c)); [exact C|exact O2| |].
  - rewrite Forall_forall in O1. exact O1.
  - intros d i D. apply E. right. exact D.
Qed.
Lemma codes_of : forall known final confs,
  ForallOrdPairs (fun a b => kc_fixed a <= kc_fixed b)%nat confs ->
  (forall c i, In c confs -> (i < kc_fixed c)%nat -> kc_elements c i = final i) ->
  codes known confs (fun _ => -1)%Z =
    map (fun c => map (fun t => if Nat.ltb t (kc_fixed c) then match known (final t) with Some z => z | None => -1 end else -1)%Z (kc_types c)) confs.
Proof.
  intros known final confs O E. rewrite (codes_from known final confs 0 (fun _ => -1)%Z); [reflexivity|intros i; reflexivity|exact O|intros; lia|exact E].
Qed.
Lemma late_names : exists answer known final confs elements m,
  (forall e z, known e = Some z <-> answer e = Code z) /\ species_map answer elements = Some m /\
  (forall i e, nth_error elements i = Some e -> final i = e) /\
  ForallOrdPairs (fun a b => kc_fixed a <= kc_fixed b)%nat confs /\
  (forall c i, In c confs -> (i < kc_fixed c)%nat -> kc_elements c i = final i) /\
  (forall c t, In c confs -> In t (kc_types c) -> (t < List.length elements)%nat) /\
  m = [13%Z] /\ codes known confs (fun _ => -1)%Z = [[-1; -1]; [13; 13]]%Z.
Proof.
  exists (fun e => if String.eqb e "Al" then Code 13 else Unknown), (fun e => if String.eqb e "Al" then Some 13%Z else None),
    (fun _ => "Al"%string), [KConf 0 (fun _ => "0"%string) [0; 0]%nat; KConf 1 (fun _ => "Al"%string) [0; 0]%nat], ["Al"%string], [13%Z].
  split; [intros e z; destruct (String.eqb e "Al"); split; intros H; try discriminate; injection H as <-; reflexivity|].
  split; [reflexivity|]. split; [intros [|i] e H; [injection H as <-; reflexivity|destruct i; discriminate]|].
  split; [constructor; [constructor; [cbn; lia|constructor]|constructor; [constructor|constructor]]|].
  split; [intros c i [<-|[<-|[]]] I; cbn in *; [lia|reflexivity]|].
  split; [intros c t [<-|[<-|[]]] [<-|[<-|[]]]; cbn; lia|]. split; reflexivity.
Qed.
