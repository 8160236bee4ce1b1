(** Proofs about copies of names. *)
From Coq Require Import ZArith List Bool String Ascii Arith Lia.
From Verif Require Import ParamsModel NameModel NameSpec ApotModel RtModel RtSpec.
Import ListNotations.
Local Open Scope nat_scope.

Lemma txt_length : forall s, List.length (txt s) = String.length s.
Proof. induction s; simpl; auto. Qed.
Lemma heap_ok : forall b st, Forall in_bounds (heap_copies b st).
Proof.
  intros b st. unfold heap_copies. apply Forall_app; split; [|apply Forall_app; split].
  - unfold values. apply Forall_forall. intros c C. apply in_flat_map in C. destruct C as ((k & v) & _ & C). destruct v; cbn in C; try contradiction.
    destruct C as [<-|[]]. unfold in_bounds. cbn. lia.
  - unfold endpot_copy, endpot. destruct (has_str "endpot" st); constructor; [|constructor]. unfold in_bounds. cbn [fst snd]. rewrite app_length. cbn. lia.
  - unfold ensemble_copy. destruct (_ && _)%bool; constructor; [|constructor]. unfold in_bounds. cbn [fst snd]. rewrite app_length. cbn. lia.
Qed.
Lemma named_iff : forall p l, Forall in_bounds (map (named p) l) <-> (forall e, In e l -> List.length p + String.length e < 255).
Proof.
  intros p l. rewrite Forall_forall. split.
  - intros H e E. specialize (H (named p e) (in_map _ _ _ E)). unfold in_bounds, named in H. cbn [fst snd] in H. rewrite app_length, txt_length in H. lia.
  - intros H c C. apply in_map_iff in C. destruct C as (e & <- & E). specialize (H e E). unfold in_bounds, named. cbn [fst snd]. rewrite app_length, txt_length. lia.
Qed.
Lemma digits_length : forall d f n, n < 10 ^ d -> 0 < d -> List.length (digits f n) <= d.
Proof.
  induction d as [|d IH]; intros f n N D; [lia|]. destruct f; [cbn; lia|]. cbn [digits]. destruct (n <? 10) eqn:E; [cbn; lia|].
  apply Nat.ltb_ge in E. rewrite app_length. cbn [List.length]. destruct d; [cbn in N; lia|].
  assert (n / 10 < 10 ^ S d). { apply Nat.div_lt_upper_bound; [lia|]. exact N. }
  specialize (IH f (n / 10) H ltac:(lia)). lia.
Qed.
Lemma ext_short : forall b i np mpi eng sw e, In e (report_ext b i np mpi eng sw) -> String.length e <= 8.
Proof.
  intros b i np mpi eng sw e E. unfold report_ext in E. repeat (apply in_app_or in E; destruct E as [E|E]);
  repeat match goal with H : In _ (if ?c then _ else _) |- _ => destruct c end; cbn in E; decompose [or] E; try contradiction; subst; cbn; lia.
Qed.
Lemma imd_short : forall b i e, In e (imd_ext b i) -> String.length e <= 15.
Proof. intros b i e E. unfold imd_ext in E. destruct i, (b_coulomb b && b_apot b)%bool; cbn in E; decompose [or] E; try contradiction; subst; cbn; lia. Qed.
Lemma lammps_short : forall i e, In e (lammps_ext i) -> String.length e <= 18.
Proof. intros i e E. destruct i; cbn in E; decompose [or] E; try contradiction; subst; cbn; lia. Qed.
Lemma stack_ok : forall b i np mpi st eng sw n d, n < 10 ^ d -> 0 < d ->
  List.length (str "output_prefix" st) <= 236 -> List.length (str "output_prefix" st) + d <= 240 -> List.length (str "config" st) <= 249 -> List.length (str "imdpot" st) <= 239 ->
  (str "output_prefix" st = [] -> List.length (endpot st) <= 236) -> Forall in_bounds (stack_copies b i np mpi st eng sw n).
Proof.
  intros b i np mpi st eng sw n d N D P1 P2 P3 P4 P5. unfold stack_copies. repeat (apply Forall_app; split).
  - unfold reports. destruct (has_str _ st); [|constructor]. apply named_iff. intros e E. pose proof (ext_short _ _ _ _ _ _ _ E). lia.
  - unfold pair_file. destruct (_ <? _)%Z; constructor; [|constructor]. unfold in_bounds, named. cbn [fst snd]. rewrite app_length. cbn [List.length txt list_ascii_of_string]. lia.
  - unfold imd_files. destruct (has_str _ st); [|constructor]. apply named_iff. intros e E. pose proof (imd_short _ _ _ E). lia.
  - unfold lammps_files. destruct (_ <? _)%Z; [|constructor]. apply named_iff. intros e E. pose proof (lammps_short _ _ E).
    destruct (str "output_prefix" st) eqn:O; [specialize (P5 eq_refl)|]; lia.
  - unfold ensemble_files. destruct (b_uq b); [|constructor]. apply Forall_forall. intros c C. apply in_map_iff in C. destruct C as (k & <- & K). apply in_seq in K.
    unfold in_bounds. cbn [fst snd]. rewrite !app_length. pose proof (digits_length d (S (S k)) (S k) ltac:(lia) D). unfold decimal. cbn [List.length txt list_ascii_of_string]. lia.
Qed.
(** a long prefix *)
Definition b0 : build := Build_build false true false false false false false false false.
Definition long_lines : list text := map txt ["ntypes 1"; "startpot s"; "config c"; "tempfile t"]%string ++ [txt "output_prefix " ++ repeat "p"%char 250].
Lemma long_refuted : exists lines st, read_parameters b0 lines = Some st /\ (forall l, In l lines -> List.length l < 300) /\
  forall i np mpi eng sw n, exists c, In c (stack_copies b0 i np mpi st eng sw n) /\ ~ in_bounds c.
Proof.
  exists long_lines. eexists. split; [vm_compute; reflexivity|]. split.
  - intros l L. unfold long_lines in L. apply in_app_or in L. destruct L as [L|L]; cbn in L; decompose [or] L; subst; try contradiction; cbn; lia.
  - intros i np mpi eng sw n.
    match goal with |- exists c, In c (stack_copies _ _ _ _ ?s _ _ _) /\ _ => exists (named (str "output_prefix" s) ".error") end.
    split.
    + unfold stack_copies. apply in_or_app. left. unfold reports.
      match goal with |- In _ (if ?x then _ else _) => change x with true end. cbv iota. apply in_map. unfold report_ext. apply in_or_app; right. apply in_or_app; right. apply in_or_app; right. apply in_or_app; right. apply in_or_app; right. left. reflexivity.
    + intro B. unfold in_bounds, named in B. cbn [fst snd] in B. rewrite app_length in B. vm_compute in B. lia.
Qed.
(** file names of one run are different *)
Lemma digit_inj : forall a b, a < 10 -> b < 10 -> digit a = digit b -> a = b.
Proof.
  intros a b A B E. apply (f_equal nat_of_ascii) in E. unfold digit in E. rewrite !nat_ascii_embedding in E by lia. lia.
Qed.
Lemma digits_nonempty : forall f n, digits (S f) n <> [].
Proof. intros f n. cbn [digits]. destruct (n <? 10); [discriminate|]. intro E. apply app_eq_nil in E. destruct E as (_ & E). discriminate E. Qed.
Lemma digits_inj : forall f g n m, n < f -> m < g -> digits f n = digits g m -> n = m.
Proof.
  induction f as [|f IH]; intros g n m F G E; [lia|]. destruct g; [lia|]. cbn [digits] in E.
  destruct (n <? 10) eqn:A, (m <? 10) eqn:B.
  - apply Nat.ltb_lt in A, B. apply digit_inj; auto. congruence.
  - exfalso. apply Nat.ltb_ge in B. apply (f_equal (@List.length ascii)) in E. rewrite app_length in E. cbn [List.length] in E. assert (m / 10 < m) by (apply Nat.div_lt; lia). destruct g as [|g]; [lia|].
    pose proof (digits_nonempty g (m / 10)). destruct (digits (S g) (m / 10)); [congruence|cbn in E; lia].
  - exfalso. apply Nat.ltb_ge in A. apply (f_equal (@List.length ascii)) in E. rewrite app_length in E. cbn [List.length] in E. assert (n / 10 < n) by (apply Nat.div_lt; lia). destruct f; [lia|].
    pose proof (digits_nonempty f (n / 10)). destruct (digits (S f) (n / 10)); [congruence|cbn in E; lia].
  - apply Nat.ltb_ge in A, B. apply app_inj_tail in E. destruct E as (E1 & E2). assert (n / 10 < n) by (apply Nat.div_lt; lia). assert (m / 10 < m) by (apply Nat.div_lt; lia).
    apply IH in E1; [|lia|lia]. apply digit_inj in E2; [|apply Nat.mod_upper_bound; lia|apply Nat.mod_upper_bound; lia].
    rewrite (Nat.div_mod n 10), (Nat.div_mod m 10) by lia. congruence.
Qed.
Lemma decimal_inj : forall n m, decimal n = decimal m -> n = m.
Proof. intros n m E. unfold decimal in E. apply digits_inj in E; lia. Qed.
Lemma txt_inj : forall a b, txt a = txt b -> a = b.
Proof. intros a b E. unfold txt in E. rewrite <- (string_of_list_ascii_of_string a), <- (string_of_list_ascii_of_string b). congruence. Qed.
Lemma map_NoDup : forall {A B} (f : A -> B) l, (forall x y, f x = f y -> x = y) -> NoDup l -> NoDup (map f l).
Proof.
  intros A B f l I N. induction N; cbn; constructor; auto. intro X. apply in_map_iff in X. destruct X as (y & E & Y). apply I in E. congruence.
Qed.
Lemma NoDup_union : forall {A} (l m : list A), NoDup l -> NoDup m -> (forall x, In x l -> In x m -> False) -> NoDup (l ++ m).
Proof.
  intros A l m N M D. induction N; cbn; auto. constructor.
  - intro X. apply in_app_or in X. destruct X; [contradiction|]. apply (D x); [left; reflexivity|auto].
  - apply IHN. intros y Y. apply D. right. exact Y.
Qed.
Lemma distinct : forall b i np mpi st eng sw n, NoDup (map snd (reports b i np mpi st eng sw ++ ensemble_files b st n)).
Proof.
  intros b i np mpi st eng sw n. rewrite map_app. unfold reports, ensemble_files.
  assert (N1 : NoDup (map snd (map (named (str "output_prefix" st)) (report_ext b i np mpi eng sw)))).
  { rewrite map_map. apply map_NoDup.
    - intros x y E. cbn in E. apply app_inv_head in E. apply txt_inj in E. exact E.
    - unfold report_ext. destruct (dens i && negb mpi)%bool, eng, (b_stress b && sw)%bool, (dens i && negb np)%bool; cbn; repeat constructor; cbn; intuition discriminate. }
  assert (N2 : NoDup (map snd (map (fun k => (255, str "output_prefix" st ++ txt ".ensemble_pot_" ++ decimal (S k))) (seq 0 n)))).
  { rewrite map_map. apply map_NoDup; [|apply seq_NoDup]. intros x y E. cbn [snd] in E. apply app_inv_head, app_inv_head, decimal_inj in E. lia. }
  destruct (has_str "output_prefix" st), (b_uq b); cbn [map app]; rewrite ?app_nil_r; auto; try constructor.
  apply NoDup_union; auto. intros x X Y. rewrite map_map in X, Y. apply in_map_iff in X, Y. destruct X as (e & <- & E), Y as (k & K & _).
  cbn [named snd] in K. apply app_inv_head in K.
  assert (H : hd_error (tl (tl (tl (txt e)))) = hd_error (tl (tl (tl (txt ".ensemble_pot_" ++ decimal (S k)))))) by congruence.
  unfold report_ext in E. destruct (dens i && negb mpi)%bool, eng, (b_stress b && sw)%bool, (dens i && negb np)%bool; cbn in E; decompose [or] E; subst; try contradiction; try discriminate H.
Qed.
Lemma default_endpot : forall st, has_str "endpot" st = false -> endpot st <> str "startpot" st.
Proof.
  intros st H E. unfold endpot in E. rewrite H in E. apply (f_equal (@List.length ascii)) in E. rewrite app_length in E. cbn in E. lia.
Qed.
