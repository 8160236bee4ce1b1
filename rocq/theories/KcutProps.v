(** C168: choice of the cutoff of a KIM model in the potential file. *)
From Coq Require Import List Bool Ascii String.
From Verif Require Import KcutModel KcutSpec KcutProof KcutProof2.
Import ListNotations.
Local Open Scope string_scope.

(** A line with the keyword and the name of a parameter marks the first parameter of that name;
    the lines before it are empty or begin with another word, the first of them is not empty. *)
Theorem C168_marked_partial : forall a c n pre post,
  (forall l, In l pre -> l = "" \/ exists w, first l = Some w /\ String.prefix "KIM_CUTOFF" w = false) ->
  hd "x" pre <> "" -> n <> "" -> solid n -> ~ In n a ->
  read_cutoff_parameter (a ++ n :: c) (pre ++ ("KIM_CUTOFF " ++ n) :: post) = Marked (List.length a).
Proof. intros a c n pre post F H. apply marked. split; [apply Forall_forall; exact F|exact H]. Qed.
Print Assumptions C168_marked_partial.
Example C168_marked_ex :
  read_cutoff_parameter ["A"; "rc"; "B"] ["KIM_PARAM A"; "1 0 2"; ""; "KIM_CUTOFF rc"; "KIM_CUTOFF B"] = Marked 1.
Proof. reflexivity. Qed.
(** A name that is none of the parameters is an error. *)
Theorem C168_unknown_partial : forall names n pre post,
  (forall l, In l pre -> l = "" \/ exists w, first l = Some w /\ String.prefix "KIM_CUTOFF" w = false) ->
  hd "x" pre <> "" -> n <> "" -> solid n -> ~ In n names ->
  read_cutoff_parameter names (pre ++ ("KIM_CUTOFF " ++ n) :: post) = Fail.
Proof. intros names n pre post F H. apply unknown. split; [apply Forall_forall; exact F|exact H]. Qed.
Print Assumptions C168_unknown_partial.
Example C168_unknown_ex : read_cutoff_parameter ["A"; "rc"] ["KIM_CUTOFF r"] = Fail.
Proof. reflexivity. Qed.
(** Without the keyword no parameter is marked. *)
Theorem C168_none_partial : forall names lines,
  (forall l, In l lines -> l = "" \/ exists w, first l = Some w /\ String.prefix "KIM_CUTOFF" w = false) ->
  lines <> [] -> hd "x" lines <> "" -> read_cutoff_parameter names lines = NoCutoff.
Proof. intros names lines F N H. apply none; [exact N|]. split; [apply Forall_forall; exact F|exact H]. Qed.
Print Assumptions C168_none_partial.
Example C168_none_ex : read_cutoff_parameter ["rc"] ["KIM_PARAM rc"; ""; "rc KIM_CUTOFF rc"] = NoCutoff.
Proof. reflexivity. Qed.
(** For every file: a parameter is marked only if a line begins with the keyword, its second word
    is the name of this parameter and of none before it, and no earlier line has the keyword as
    its first word. *)
Theorem C168_sound : forall names lines i, read_cutoff_parameter names lines = Marked i ->
  exists pre t post n, lines = (pre ++ ("KIM_CUTOFF" ++ t)%string :: post)%list /\
    Forall (fun l => l = "" \/ exists w, first l = Some w /\ String.prefix "KIM_CUTOFF" w = false) pre /\
    second ("KIM_CUTOFF" ++ t) = Some n /\ nth_error names i = Some n /\ ~ In n (firstn i names).
Proof. exact sound. Qed.
Print Assumptions C168_sound.
Example C168_sound_ex : read_cutoff_parameter ["A"; "rc"] ["x"; "KIM_CUTOFFS  rc y"] = Marked 1.
Proof. reflexivity. Qed.
(** If the first line is empty, as in the file that potfit writes as a template (lines 152-155),
    a variable is compared before it is set, whatever follows. *)
Theorem C168_template_refuted : forall names rest, read_cutoff_parameter names ("" :: rest) = Undefined.
Proof. reflexivity. Qed.
Print Assumptions C168_template_refuted.
Example C168_template_ex : read_cutoff_parameter ["rc"] [""; "KIM_CUTOFF rc"] = Undefined.
Proof. reflexivity. Qed.
(** A line of blanks before the keyword is an error, an empty one is not. *)
Theorem C168_blanks_refuted : forall names pre l post,
  (forall l, In l pre -> l = "" \/ exists w, first l = Some w /\ String.prefix "KIM_CUTOFF" w = false) ->
  hd "x" pre <> "" -> l <> "" -> first l = None -> read_cutoff_parameter names (pre ++ l :: post) = Fail.
Proof. intros names pre l post F H. apply blank_line. split; [apply Forall_forall; exact F|exact H]. Qed.
Print Assumptions C168_blanks_refuted.
Example C168_blanks_ex : read_cutoff_parameter ["rc"] ["KIM_PARAM A"; " "; "KIM_CUTOFF rc"] = Fail.
Proof. reflexivity. Qed.
(** A keyword after a blank ends the search, but counts as none; later lines are not seen. *)
Theorem C168_indented_refuted : forall names pre t post,
  (forall l, In l pre -> l = "" \/ exists w, first l = Some w /\ String.prefix "KIM_CUTOFF" w = false) ->
  hd "x" pre <> "" -> read_cutoff_parameter names (pre ++ (" KIM_CUTOFF" ++ t) :: post) = NoCutoff.
Proof. intros names pre t post F H. apply indented_line. split; [apply Forall_forall; exact F|exact H]. Qed.
Print Assumptions C168_indented_refuted.
Example C168_indented_ex : read_cutoff_parameter ["rc"] [" KIM_CUTOFF rc"; "KIM_CUTOFF rc"] = NoCutoff.
Proof. reflexivity. Qed.
