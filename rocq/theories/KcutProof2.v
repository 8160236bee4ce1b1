From Coq Require Import List Bool Ascii String Arith Lia.
From Verif Require Import KcutModel KcutSpec KcutProof.
Import ListNotations.
Local Open Scope string_scope.

Lemma find_marked : forall names n k i, find names n k = Marked i ->
  k <= i /\ nth_error names (i - k) = Some n /\ ~ In n (firstn (i - k) names).
Proof.
  induction names as [|x names IH]; intros n k i H; [discriminate|]. cbn in H.
  destruct (String.eqb_spec x n) as [->|D].
  - injection H as <-. rewrite Nat.sub_diag. cbn. auto.
  - apply IH in H. destruct H as [L [E I]]. split; [lia|].
    replace (i - k) with (S (i - S k)) by lia. cbn. split; [exact E|]. intros [J|J]; [congruence|exact (I J)].
Qed.
Lemma finish_marked : forall names b i, finish names b = Marked i ->
  exists t n, b = "KIM_CUTOFF" ++ t /\ second b = Some n /\ nth_error names i = Some n /\ ~ In n (firstn i names).
Proof.
  intros names b i H. unfold finish in H. destruct (String.prefix keyword b) eqn:E; [|discriminate].
  destruct (second b) as [n|] eqn:F; [|discriminate]. apply prefix_app in E. destruct E as [t ->].
  apply find_marked in H. rewrite Nat.sub_0_r in H. exists t, n. split; [reflexivity|]. split; [reflexivity|]. apply H.
Qed.
Lemma loop_marked : forall names lines b o i,
  (b = "" \/ passed b) -> (forall w, o = Some w -> String.prefix keyword w = false) ->
  loop names b o lines = Marked i ->
  exists pre t post n, lines = (pre ++ ("KIM_CUTOFF" ++ t)%string :: post)%list /\ Forall passed pre /\
    second ("KIM_CUTOFF" ++ t) = Some n /\ nth_error names i = Some n /\ ~ In n (firstn i names).
Proof.
  intros names. induction lines as [|l lines IH]; intros b o i B O H.
  - cbn in H. destruct o; [|discriminate]. rewrite passed_finish in H; [discriminate|].
    destruct B as [->|B]; [left; reflexivity|exact B].
  - destruct (string_dec l "") as [->|N].
    + cbn in H. destruct o as [w|]; [|discriminate].
      pose proof (O w eq_refl) as W. change keyword with "KIM_CUTOFF" in W.
      assert (L : loop names "" (Some w) lines = Marked i).
      { destruct (String.prefix keyword w) eqn:Q; [|exact H].
        exfalso. exact (eq_true_false_abs _ Q W). }
      destruct (IH "" (Some w) i (or_introl eq_refl) O L) as [pre [t [post [n [E [F R]]]]]].
      exists ("" :: pre), t, post, n. rewrite E. split; [reflexivity|]. split; [constructor; [left; reflexivity|exact F]|exact R].
    + rewrite loop_line in H by exact N. destruct (first l) as [w|] eqn:E; [|discriminate].
      destruct (String.prefix keyword w) eqn:Q.
      * apply finish_marked in H. destruct H as [t [n [-> R]]]. exists [], t, lines, n.
        split; [reflexivity|]. split; [constructor|exact R].
      * assert (P : passed l) by (right; exists w; split; [exact E|exact Q]).
        destruct (IH l (Some w) i (or_intror P)) as [pre [t [post [n [G [F R]]]]]]; [congruence|exact H|].
        exists (l :: pre), t, post, n. rewrite G. split; [reflexivity|]. split; [constructor; assumption|exact R].
Qed.
Lemma sound : forall names lines i, read_cutoff_parameter names lines = Marked i ->
  exists pre t post n, lines = (pre ++ ("KIM_CUTOFF" ++ t)%string :: post)%list /\ Forall passed pre /\
    second ("KIM_CUTOFF" ++ t) = Some n /\ nth_error names i = Some n /\ ~ In n (firstn i names).
Proof. intros names lines i H. apply (loop_marked names lines "" None i); [left; reflexivity|discriminate|exact H]. Qed.
