(** C07: DOS and Unix line ends. *)
From Coq Require Import ZArith List Ascii String.
From Verif Require Import ParamsModel LinesModel LinesProof.
Import ListNotations.
Local Open Scope nat_scope.

(** A line whose carriage returns stand directly before the line feed gives the same words
    as the line with a plain line feed, for every content and number of carriage returns. *)
Theorem C07_crlf_same_words : forall s k, ~ In CR s ->
  words (fgets_potfit (s ++ repeat CR (S k) ++ [LF])) = words (fgets_potfit (s ++ [LF])).
Proof. exact (fun s k H => eq_trans (crlf_words s k H) (f_equal words (eq_sym (lf_unchanged s H)))). Qed.
Print Assumptions C07_crlf_same_words.

Theorem C07_unix_lines_unchanged : forall s, ~ In CR s -> fgets_potfit (s ++ [LF]) = s ++ [LF].
Proof. exact lf_unchanged. Qed.
Print Assumptions C07_unix_lines_unchanged.

Example C07_ex : ~ In CR (txt "ntypes 2") /\
  words (fgets_potfit (txt "ntypes 2" ++ repeat CR 1 ++ [LF])) = [txt "ntypes"; txt "2"].
Proof. split; [vm_compute; intuition discriminate|reflexivity]. Qed.

(** Carriage returns inside the line can make a word appear twice: the text a CR CR b CR LF,
    i.e. the single word "ab" once carriage returns are removed, is delivered as two words. *)
Theorem C07_inner_cr_refuted : exists s,
  words (fgets_potfit (s ++ [CR; LF])) <> words (fgets_potfit (s ++ [LF])) /\
  List.length (words (fgets_potfit (s ++ [CR; LF]))) = 2%nat /\
  words (strip_cr (s ++ [LF])) = [txt "ab"].
Proof. exact two_cr_words. Qed.
Print Assumptions C07_inner_cr_refuted.
