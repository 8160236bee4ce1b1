From Coq Require Import List Bool Ascii String Arith Lia.
From Verif Require Import KcutModel KcutSpec.
Import ListNotations.
Local Open Scope string_scope.

(** a line that is passed over: empty, or its first word does not begin with the keyword *)
Definition passed (l : string) : Prop :=
  l = "" \/ exists w, first l = Some w /\ String.prefix "KIM_CUTOFF" w = false.

Lemma prefix_app : forall a s, String.prefix a s = true -> exists t, s = a ++ t.
Proof.
  induction a as [|c a IH]; intros s H; [exists s; reflexivity|].
  destruct s as [|d s]; [discriminate|]. cbn in H. destruct (ascii_dec c d); [|discriminate].
  destruct (IH _ H) as [t ->]. exists t. subst. reflexivity.
Qed.
Lemma first_keyword : forall t, first ("KIM_CUTOFF" ++ t) = Some ("KIM_CUTOFF" ++ word t).
Proof. reflexivity. Qed.
Lemma prefix_keyword : forall t, String.prefix keyword ("KIM_CUTOFF" ++ t) = true.
Proof. intro t. cbn. destruct t; reflexivity. Qed.
Lemma passed_finish : forall names l, passed l -> finish names l = NoCutoff.
Proof.
  intros names l P. unfold finish. destruct (String.prefix keyword l) eqn:E; [|reflexivity].
  apply prefix_app in E. destruct E as [t ->]. destruct P as [P|[w [P Q]]]; [discriminate|].
  assert (W : Some w = Some ("KIM_CUTOFF" ++ word t)) by (rewrite <- P; reflexivity).
  assert (W' : w = "KIM_CUTOFF" ++ word t) by (exact (f_equal (fun o => match o with Some x => x | None => w end) W)).
  rewrite W' in Q. destruct (eq_true_false_abs _ (prefix_keyword (word t)) Q).
Qed.
Lemma loop_line : forall names b n l r, l <> "" ->
  loop names b n (l :: r) = match first l with None => Fail | Some w =>
    if String.prefix keyword w then finish names l else loop names l (Some w) r end.
Proof. intros names b n [|c s] r H; [congruence|reflexivity]. Qed.
Lemma loop_passed : forall names pre post b w, Forall passed pre -> String.prefix keyword w = false ->
  exists b' w', (b' = b \/ passed b') /\ String.prefix keyword w' = false /\
    loop names b (Some w) (pre ++ post) = loop names b' (Some w') post.
Proof.
  intros names. induction pre as [|l pre IH]; intros post b w F W; [exists b, w; auto|].
  inversion F as [|? ? P F']; subst. destruct (string_dec l "") as [->|N].
  - destruct (IH post "" w F' W) as [b' [w' [B [W' E]]]]. exists b', w'.
    split; [right; destruct B as [->|B]; [left; reflexivity|exact B]|]. split; [exact W'|].
    rewrite <- E. cbn [app loop]. rewrite W. reflexivity.
  - destruct P as [P|[v [P Q]]]; [congruence|].
    destruct (IH post l v F' Q) as [b' [w' [B [W' E]]]]. exists b', w'.
    split; [right; destruct B as [->|B]; [right; exists v; auto|exact B]|]. split; [exact W'|].
    rewrite <- E. cbn [app]. rewrite loop_line by exact N. rewrite P.
    change keyword with "KIM_CUTOFF". rewrite Q. reflexivity.
Qed.
Lemma word_solid : forall n, solid n -> word n = n.
Proof. induction n as [|c n IH]; intro H; [reflexivity|]. destruct H as [H1 H2]. cbn. rewrite H1, (IH H2). reflexivity. Qed.
Lemma second_line : forall n, n <> "" -> solid n -> second ("KIM_CUTOFF " ++ n) = Some n.
Proof.
  intros n N H. change (second ("KIM_CUTOFF " ++ n)) with (first n).
  destruct n as [|c n]; [congruence|]. pose proof (word_solid _ H) as W. destruct H as [H _].
  unfold first. cbn [skip]. rewrite H, W. reflexivity.
Qed.
Lemma find_first : forall a names n k, ~ In n a -> find (a ++ n :: names) n k = Marked (k + List.length a).
Proof.
  induction a as [|x a IH]; intros names n k H; cbn.
  - rewrite String.eqb_refl, Nat.add_0_r. reflexivity.
  - destruct (String.eqb_spec x n) as [->|D]; [exfalso; apply H; left; reflexivity|].
    rewrite IH by (intro I; apply H; right; exact I). f_equal. lia.
Qed.
Lemma find_none : forall names n k, ~ In n names -> find names n k = Fail.
Proof.
  induction names as [|x a IH]; intros n k H; [reflexivity|]. cbn.
  destruct (String.eqb_spec x n) as [->|D]; [exfalso; apply H; left; reflexivity|].
  apply IH. intro I; apply H; right; exact I.
Qed.
(** what the lines before the one in question may be *)
Definition before (pre : list string) : Prop := Forall passed pre /\ hd "x" pre <> "".
Lemma reach : forall names pre l post, before pre -> l <> "" ->
  read_cutoff_parameter names (pre ++ l :: post) = match first l with None => Fail | Some w =>
    if String.prefix keyword w then finish names l else
      read_cutoff_parameter names (pre ++ l :: post) end.
Proof.
  intros names pre l post [F H] N. destruct pre as [|p pre].
  - cbn [app]. unfold read_cutoff_parameter. rewrite loop_line by exact N.
    destruct (first l); [|reflexivity]. destruct (String.prefix keyword s); reflexivity.
  - cbn in H. inversion F as [|? ? P F']; subst. destruct P as [P|[v [P Q]]]; [congruence|].
    assert (E : exists b' w', read_cutoff_parameter names ((p :: pre) ++ l :: post) = loop names b' (Some w') (l :: post)).
    { destruct (loop_passed names pre (l :: post) p v F' Q) as [b' [w' [_ [_ E]]]]. exists b', w'.
      rewrite <- E. unfold read_cutoff_parameter. cbn [app]. rewrite loop_line by exact H. rewrite P.
      change keyword with "KIM_CUTOFF". rewrite Q. reflexivity. }
    destruct E as [b' [w' E]]. rewrite E. rewrite loop_line by exact N.
    destruct (first l); [|reflexivity]. destruct (String.prefix keyword s); reflexivity.
Qed.
Lemma line_reached : forall names pre n post, before pre -> n <> "" -> solid n ->
  read_cutoff_parameter names (pre ++ ("KIM_CUTOFF " ++ n) :: post) = find names n 0.
Proof.
  intros names pre n post B N S. rewrite reach; [|exact B|discriminate].
  change ("KIM_CUTOFF " ++ n) with ("KIM_CUTOFF" ++ (" " ++ n)). rewrite first_keyword, prefix_keyword.
  unfold finish. rewrite prefix_keyword.
  change ("KIM_CUTOFF" ++ (" " ++ n)) with ("KIM_CUTOFF " ++ n). rewrite (second_line n N S). reflexivity.
Qed.
Lemma marked : forall a c n pre post, before pre -> n <> "" -> solid n -> ~ In n a ->
  read_cutoff_parameter (a ++ n :: c) (pre ++ ("KIM_CUTOFF " ++ n) :: post) = Marked (List.length a).
Proof. intros. rewrite line_reached by assumption. rewrite find_first by assumption. reflexivity. Qed.
Lemma unknown : forall names n pre post, before pre -> n <> "" -> solid n -> ~ In n names ->
  read_cutoff_parameter names (pre ++ ("KIM_CUTOFF " ++ n) :: post) = Fail.
Proof. intros. rewrite line_reached by assumption. apply find_none. assumption. Qed.
Lemma none : forall names lines, lines <> [] -> before lines -> read_cutoff_parameter names lines = NoCutoff.
Proof.
  intros names [|p pre] N [F H]; [congruence|]. cbn in H. inversion F as [|? ? P F']; subst.
  pose proof P as P0. destruct P as [P|[v [P Q]]]; [congruence|].
  unfold read_cutoff_parameter. rewrite loop_line by exact H. rewrite P.
  change keyword with "KIM_CUTOFF". rewrite Q.
  destruct (loop_passed names pre [] p v F' Q) as [b' [w' [B [_ E]]]]. rewrite app_nil_r in E. rewrite E.
  cbn [loop]. apply passed_finish. destruct B as [->|B]; assumption.
Qed.
Lemma blank_line : forall names pre l post, before pre -> l <> "" -> first l = None ->
  read_cutoff_parameter names (pre ++ l :: post) = Fail.
Proof. intros names pre l post B N E. rewrite reach by assumption. rewrite E. reflexivity. Qed.
Lemma indented_line : forall names pre t post, before pre ->
  read_cutoff_parameter names (pre ++ (" KIM_CUTOFF" ++ t) :: post) = NoCutoff.
Proof.
  intros names pre t post B. rewrite reach; [|exact B|discriminate].
  change (first (" KIM_CUTOFF" ++ t)) with (first ("KIM_CUTOFF" ++ t)).
  rewrite first_keyword, prefix_keyword. reflexivity.
Qed.
