From Coq Require Import ZArith List Bool Ascii String Lia.
From Verif Require Import ParamsModel LinesModel.
Import ListNotations.
Local Open Scope nat_scope.

Lemma words_acc_app_delims : forall s acc t, forallb is_delim t = true ->
  words_acc acc (s ++ t) = words_acc acc s.
Proof.
  induction s as [|c s IH]; intros acc t Ht; cbn.
  - revert acc. induction t as [|c t IHt]; intros acc; [reflexivity|]. cbn in Ht.
    apply andb_true_iff in Ht. destruct Ht as [H1 H2]. cbn. rewrite H1.
    destruct acc as [|a acc]; [apply (IHt H2 [])|]. rewrite (IHt H2 []). reflexivity.
  - destruct (is_delim c); [destruct acc|]; rewrite ?IH by exact Ht; reflexivity.
Qed.

Lemma words_app_delims : forall s t, forallb is_delim t = true -> words (s ++ t) = words s.
Proof. intros. apply words_acc_app_delims. assumption. Qed.

Lemma delim_CR : is_delim CR = true. Proof. reflexivity. Qed.
Lemma delim_LF : is_delim LF = true. Proof. reflexivity. Qed.

Lemma strip_app : forall a b, strip_cr (a ++ b) = strip_cr a ++ strip_cr b.
Proof. intros. apply filter_app. Qed.

Lemma strip_none : forall s, ~ In CR s -> strip_cr s = s.
Proof.
  induction s as [|c s IH]; intros H; [reflexivity|]. unfold strip_cr. cbn [filter].
  destruct (ascii_dec c CR) as [E|E]; [exfalso; apply H; left; exact E|].
  f_equal. apply IH. intros X. apply H. right. exact X.
Qed.

Lemma strip_repeat : forall k, strip_cr (repeat CR k) = [].
Proof. induction k as [|k IH]; [reflexivity|]. cbn. exact IH. Qed.

Lemma has_crlf_end : forall s, has_crlf (s ++ [CR; LF]) = true.
Proof.
  induction s as [|c s IH]; [reflexivity|]. cbn [app].
  destruct (s ++ [CR; LF]) as [|d r] eqn:E; [destruct s; discriminate|].
  cbn [has_crlf]. cbn [has_crlf] in IH. rewrite IH. apply orb_true_r.
Qed.

(** line content without CR, any number of CR before the LF *)
Lemma crlf_words : forall s k, ~ In CR s ->
  words (fgets_potfit (s ++ repeat CR (S k) ++ [LF])) = words (s ++ [LF]).
Proof.
  intros s k H. unfold fgets_potfit.
  assert (E : s ++ repeat CR (S k) ++ [LF] = (s ++ repeat CR k) ++ [CR; LF]).
  { rewrite <- app_assoc. f_equal.
    replace (S k) with (k + 1) by lia. rewrite repeat_app. cbn. rewrite <- app_assoc. reflexivity. }
  rewrite E at 1. rewrite has_crlf_end.
  assert (S1 : strip_cr (s ++ repeat CR (S k) ++ [LF]) = s ++ [LF]).
  { rewrite !strip_app, strip_none by exact H. rewrite strip_repeat. reflexivity. }
  rewrite S1.
  apply words_app_delims.
  rewrite app_length. cbn [List.length].
  rewrite skipn_app. rewrite skipn_all2 by lia. cbn [app].
  replace (List.length s + 1 - List.length s) with 1 by lia.
  cbn [repeat app skipn].
  rewrite forallb_app. rewrite andb_true_iff. split; [|reflexivity].
  induction k as [|k IH]; [reflexivity|]. cbn [repeat forallb]. rewrite delim_CR. cbn.
  apply IH; try assumption.
  - rewrite <- app_assoc. f_equal.
    replace (S k) with (k + 1) by lia. rewrite repeat_app. cbn. rewrite <- app_assoc. reflexivity.
  - rewrite !strip_app, strip_none by exact H. rewrite strip_repeat. reflexivity.
Qed.

Lemma no_crlf_in : forall s, ~ In CR s -> has_crlf s = false.
Proof.
  induction s as [|c s IH]; intros H; [reflexivity|].
  destruct s as [|d s]; [reflexivity|]. cbn [has_crlf].
  destruct (ascii_dec c CR) as [E|E]; [exfalso; apply H; left; exact E|]. cbn [orb].
  apply IH. intros X. apply H. right. exact X.
Qed.

Lemma lf_unchanged : forall s, ~ In CR s -> fgets_potfit (s ++ [LF]) = s ++ [LF].
Proof.
  intros s H. unfold fgets_potfit. rewrite no_crlf_in; [reflexivity|].
  intros X. apply in_app_iff in X. destruct X as [X|[X|[]]]; [contradiction|discriminate].
Qed.

Lemma two_cr_words : exists s, words (fgets_potfit (s ++ [CR; LF])) <> words (fgets_potfit (s ++ [LF])) /\
  List.length (words (fgets_potfit (s ++ [CR; LF]))) = 2 /\
  words (strip_cr (s ++ [LF])) = [txt "ab"].
Proof.
  exists (txt "a" ++ [CR; CR] ++ txt "b"). split; [vm_compute; discriminate|]. split; reflexivity.
Qed.
