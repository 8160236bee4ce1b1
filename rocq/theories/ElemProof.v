(** Proofs about the element table. *)
From Coq Require Import ZArith List String Bool Lia.
From Verif Require Import ElemModel.
Import ListNotations.
Local Open Scope string_scope.

Lemma find_from_spec : forall key s l i k e, find_from key s i l = Some (k, e) ->
  (i <= k)%nat /\ nth_error l (k - i) = Some e /\ key e = s /\
  forall m e', (m < k - i)%nat -> nth_error l m = Some e' -> key e' <> s.
Proof.
  induction l as [|x l IH]; intros i k e H; simpl in H; [discriminate|].
  destruct (String.eqb_spec s (key x)).
  - inversion H; subst. rewrite Nat.sub_diag. repeat split; auto. intros; lia.
  - destruct (IH _ _ _ H) as (A & B & C & D). split; [lia|].
    replace (k - i)%nat with (S (k - S i)) by lia. split; [exact B|]. split; [exact C|].
    intros [|m] e' L N; simpl in N; [inversion N; subst; congruence|]. apply (D m); auto. lia.
Qed.
Lemma find_from_none : forall key s l i, find_from key s i l = None <-> forall e, In e l -> key e <> s.
Proof.
  induction l as [|x l IH]; intros i; simpl; [split; [intros _ e []|reflexivity]|].
  destruct (String.eqb_spec s (key x)).
  - split; [discriminate|]. intros H. specialize (H x (or_introl eq_refl)). congruence.
  - rewrite IH. split; intros H; [|intros e E; apply H; right; exact E].
    intros e [<-|E]; [congruence|auto].
Qed.
Lemma find_from_nodup : forall key l i k e, NoDup (map key l) -> nth_error l k = Some e ->
  find_from key (key e) i l = Some ((i + k)%nat, e).
Proof.
  induction l as [|x l IH]; intros i k e D N; [destruct k; discriminate|]. inversion D; subst. simpl.
  destruct k as [|k]; simpl in N.
  - inversion N; subst. rewrite String.eqb_refl, Nat.add_0_r. reflexivity.
  - destruct (String.eqb_spec (key e) (key x)) as [E|E].
    + exfalso. apply H1. rewrite <- E. apply in_map. apply nth_error_In in N. exact N.
    + rewrite (IH (S i) k e H2 N). do 2 f_equal. lia.
Qed.

(** checks of the table, by computation *)
Fixpoint nodupb (l : list string) : bool :=
  match l with [] => true | s :: l => negb (existsb (String.eqb s) l) && nodupb l end.
Lemma nodupb_ok : forall l, nodupb l = true -> NoDup l.
Proof.
  induction l as [|s l IH]; intros H; [constructor|]. simpl in H. apply andb_true_iff in H. destruct H as [A B].
  constructor; auto. intros I. apply negb_true_iff in A. apply not_true_iff_false in A. apply A.
  apply existsb_exists. exists s. split; auto. apply String.eqb_refl.
Qed.
Lemma names_nodup : NoDup (map e_name elements). Proof. apply nodupb_ok. vm_compute. reflexivity. Qed.
Lemma shorts_nodup : NoDup (map e_short elements). Proof. apply nodupb_ok. vm_compute. reflexivity. Qed.
Lemma lengths : forallb (fun e => Nat.ltb (String.length (e_short e)) 3 && negb (Nat.ltb (String.length (e_name e)) 3) && (0 <? e_mass e)%Z) elements = true.
Proof. vm_compute. reflexivity. Qed.
Lemma table_size : List.length elements = 110%nat. Proof. reflexivity. Qed.

Lemma in_lengths : forall e, In e elements ->
  Nat.ltb (String.length (e_short e)) 3 = true /\ Nat.ltb (String.length (e_name e)) 3 = false /\ (0 < e_mass e)%Z.
Proof.
  intros e I. pose proof (proj1 (forallb_forall _ _) lengths e I) as H.
  apply andb_true_iff in H. destruct H as [H M]. apply andb_true_iff in H. destruct H as [A B].
  apply Z.ltb_lt in M. apply negb_true_iff in B. auto.
Qed.

Lemma mass_at : forall k e, nth_error elements k = Some e -> mass_from_number (Z.of_nat k + 1) = e_mass e.
Proof.
  intros k e N. assert (L : (k < 110)%nat) by (rewrite <- table_size; apply nth_error_Some; congruence).
  unfold mass_from_number, as_size. rewrite table_size. rewrite Z.mod_small by lia.
  destruct (Z.ltb_spec (Z.of_nat 110) (Z.of_nat k + 1)); [lia|]. destruct (Z.ltb_spec (Z.of_nat k + 1) 1); [lia|].
  simpl orb. cbv iota. replace (Z.to_nat (Z.of_nat k + 1 - 1)) with k by lia. rewrite N. reflexivity.
Qed.

Theorem mass_agrees : forall s, mass_from_number (number_from_name s) = mass_from_name s.
Proof.
  intros s. unfold number_from_name, mass_from_name. destruct (find_elem s) as [[k e]|] eqn:F.
  - destruct (find_from_spec _ _ _ _ _ _ F) as (_ & N & _). rewrite Nat.sub_0_r in N. apply mass_at. exact N.
  - reflexivity.
Qed.
Theorem own_element : forall k e, nth_error elements k = Some e ->
  (number_from_name (e_name e) = Z.of_nat k + 1)%Z /\ (number_from_name (e_short e) = Z.of_nat k + 1)%Z /\
  mass_from_name (e_name e) = e_mass e /\ mass_from_name (e_short e) = e_mass e.
Proof.
  intros k e N. destruct (in_lengths e (nth_error_In _ _ N)) as (A & B & _).
  assert (F1 : find_elem (e_name e) = Some (k, e)).
  { unfold find_elem, key_of. rewrite B. exact (find_from_nodup e_name _ 0 k e names_nodup N). }
  assert (F2 : find_elem (e_short e) = Some (k, e)).
  { unfold find_elem, key_of. rewrite A. exact (find_from_nodup e_short _ 0 k e shorts_nodup N). }
  unfold number_from_name, mass_from_name. rewrite F1, F2. auto.
Qed.
(** a string is unknown exactly if it is neither a name nor a short name of the table *)
Theorem unknown : forall s, (number_from_name s = 0%Z <-> forall e, In e elements -> e_name e <> s /\ e_short e <> s) /\
  (number_from_name s = 0%Z <-> mass_from_name s = 0%Z).
Proof.
  intros s. assert (Q : number_from_name s = 0%Z <-> find_elem s = None).
  { unfold number_from_name. destruct (find_elem s) as [[k e]|]; split; intros; try discriminate; auto. lia. }
  split.
  - rewrite Q. unfold find_elem. rewrite find_from_none. unfold key_of.
    destruct (Nat.ltb (String.length s) 3) eqn:L; split; intros H e I; destruct (in_lengths e I) as (A & B & _).
    + split; [congruence|auto].
    + apply H; auto.
    + split; [auto|congruence].
    + apply H; auto.
  - rewrite Q. unfold mass_from_name. destruct (find_elem s) as [[k e]|] eqn:F; split; intros H; auto; try discriminate.
    exfalso. destruct (find_from_spec _ _ _ _ _ _ F) as (_ & N & _).
    destruct (in_lengths e (nth_error_In _ _ N)) as (_ & _ & M). lia.
Qed.
(** every int is a valid argument; outside of the table the mass is 0 *)
Theorem number_total : forall num, (-2147483648 <= num < 2147483648)%Z ->
  ((1 <= num <= 110)%Z -> exists e, nth_error elements (Z.to_nat (num - 1)) = Some e /\ mass_from_number num = e_mass e) /\
  (~ (1 <= num <= 110)%Z -> mass_from_number num = 0%Z).
Proof.
  intros num R. split; intros H.
  - destruct (nth_error elements (Z.to_nat (num - 1))) as [e|] eqn:N.
    + exists e. split; auto. rewrite <- (mass_at _ _ N). f_equal. lia.
    + apply nth_error_None in N. rewrite table_size in N. lia.
  - unfold mass_from_number. rewrite table_size. destruct (Z.ltb_spec num 1); [rewrite orb_true_r; reflexivity|].
    unfold as_size. rewrite Z.mod_small by lia. destruct (Z.ltb_spec (Z.of_nat 110) num); [reflexivity|lia].
Qed.

(** Every mass lies between one and three times the atomic number (in units of 10^-6 u). *)
Lemma masses_plausible_b :
  forallb (fun ke => (Z.of_nat (fst ke + 1) * 1000000 <=? e_mass (snd ke))%Z &&
                     (e_mass (snd ke) <=? 3 * (Z.of_nat (fst ke + 1) * 1000000))%Z)
    (combine (seq 0 (List.length elements)) elements) = true.
Proof. vm_compute. reflexivity. Qed.
Lemma masses_plausible : forall k e, nth_error elements k = Some e ->
  (Z.of_nat (k + 1) * 1000000 <= e_mass e <= 3 * (Z.of_nat (k + 1) * 1000000))%Z.
Proof.
  intros k e N. pose proof masses_plausible_b as B. rewrite forallb_forall in B.
  assert (L : (k < List.length elements)%nat) by (apply nth_error_Some; congruence).
  specialize (B (k, e)). cbn [fst snd] in B.
  assert (I : In (k, e) (combine (seq 0 (List.length elements)) elements)).
  { apply (nth_error_In _ k). 
    assert (G : forall (l : list elem) s k e, nth_error l k = Some e ->
       nth_error (combine (seq s (List.length l)) l) k = Some ((s + k)%nat, e)).
    { clear. induction l as [|y l IH]; intros s [|k] e H; try discriminate; cbn in H |- *.
      - injection H as ->. rewrite Nat.add_0_r. reflexivity.
      - rewrite (IH (S s) k e H). f_equal. f_equal. lia. }
    rewrite (G elements 0%nat k e N). reflexivity. }
  apply B in I. apply andb_prop in I. destruct I as [A C]. apply Z.leb_le in A, C. lia.
Qed.
