(** C130, C131: header of potential files. *)
From Coq Require Import ZArith List Bool Ascii String Lia.
From Verif Require Import ParamsModel LinesModel ReadModel HeadModel HeadSpec HeadProof.
Import ListNotations.
Local Open Scope nat_scope.

Section P.
Variable supported : Z -> bool.
Variables (npots ntypes : nat) (name : text) (apot : bool).

(** ** C130 *)
Theorem C130_accepted : forall L e r,
  Forall proper (L ++ [e]) -> none "E" L -> keyed "E" e ->
  lines_ok supported npots ntypes name apot L -> has_format L ->
  exists st, read_header supported npots ntypes name apot (text_of (L ++ [e]) ++ r) = HOk (st, r) /\ says npots ntypes apot L st.
Proof. exact (accepted supported npots ntypes name apot). Qed.
Theorem C130_refused : forall L e r,
  Forall proper (L ++ [e]) -> none "E" L -> keyed "E" e ->
  ~ (lines_ok supported npots ntypes name apot L /\ has_format L) ->
  exists x, read_header supported npots ntypes name apot (text_of (L ++ [e]) ++ r) = HErr x.
Proof. exact (refused supported npots ntypes name apot). Qed.
Theorem C130_unfinished : forall L,
  Forall proper L -> none "E" L -> exists x, read_header supported npots ntypes name apot (text_of L) = HErr x.
Proof. exact (unfinished supported npots ntypes name apot). Qed.

(** ** C131 *)
Theorem C131_fixed_partial : forall L e r st,
  Forall proper (L ++ [e]) -> none "E" L -> keyed "E" e ->
  (forall p f q, L = p ++ f :: q -> keyed "F" f -> none "F" q /\ none "F" p) ->
  (forall s z, In s L -> keyed "I" s -> In z (numbers npots s) -> z = 0%Z \/ z = 1%Z) ->
  read_header supported npots ntypes name apot (text_of (L ++ [e]) ++ r) = HOk (st, r) ->
  (h_have_invar st = true <-> exists z, In z (h_invar st) /\ z <> 0%Z) /\
  (apot = true -> h_invar_pots st = List.length (filter (fun z => negb (z =? 0)%Z) (h_invar st))).
Proof. exact (fixed_partial supported npots ntypes name apot). Qed.
End P.

Definition tabulated (f : Z) : bool := ((f =? 3) || (f =? 4))%Z.
Definition analytic (f : Z) : bool := (f =? 0)%Z.
Definition mk (L : list string) : text := text_of (map txt L).

(** a flag 2 fixes the function, but nothing is counted and no #I will be written *)
Theorem C131_flag_refuted : exists L st r,
  read_header analytic 1 1 (txt "PAIR") true (mk L) = HOk (st, r) /\
  (exists z, In z (h_invar st) /\ z <> 0%Z) /\ h_have_invar st = false /\ h_invar_pots st = 0.
Proof.
  exists ["#F 0 1"; "#I 2"; "#E"]%string. eexists. eexists. split; [vm_compute; reflexivity|].
  split; [exists 2%Z; split; [left; reflexivity|discriminate]|split; reflexivity].
Qed.
(** a second #F frees all functions, but the count of fixed ones stays *)
Theorem C131_second_format_refuted : exists L st r,
  read_header analytic 1 1 (txt "PAIR") true (mk L) = HOk (st, r) /\
  (forall z, In z (h_invar st) -> z = 0%Z) /\ h_have_invar st = true /\ h_invar_pots st = 1.
Proof.
  exists ["#F 0 1"; "#I 1"; "#F 0 1"; "#E"]%string. eexists. eexists. split; [vm_compute; reflexivity|].
  split; [intros z [<-|[]]; reflexivity|split; reflexivity].
Qed.

(** two elements in an EAM potential: the header is read as it says *)
Example C130_ex :
  read_header tabulated 7 2 (txt "EAM") false (mk ["## a comment"; ""; "#F 4 7"; "#T EAM"; "#C Al Mg"; "#I 0 0 1 0 0 0 1"; "#G 3 3 3 2 2 2 2"; "#E"; "0.5"]%string)
    = HOk (HState true 4 [0; 0; 1; 0; 0; 0; 1]%Z true 0 [3; 3; 3; 2; 2; 2; 2]%Z true (Some [txt "Al"; txt "Mg"]), mk ["0.5"]%string) /\
  read_header tabulated 7 2 (txt "EAM") false (mk ["#T PAIR"; "#F 4 7"; "#E"]%string) = HErr HType /\
  read_header tabulated 7 2 (txt "EAM") false (mk ["#I 0 0 1 0 0 0 1"; "#F 4 7"; "#E"]%string) = HErr HOrder /\
  read_header tabulated 7 2 (txt "EAM") false (mk ["#F 4 6"; "#E"]%string) = HErr HNumber.
Proof. vm_compute. repeat split; reflexivity. Qed.
(** the hypotheses of C130_accepted and C131 hold for such a header *)
Example C131_ex : let L := map txt ["#F 0 1"; "#I 1"]%string in
  Forall proper (L ++ [txt "#E"]) /\ none "E" L /\ keyed "E" (txt "#E") /\ lines_ok analytic 1 1 (txt "PAIR") true L /\ has_format L /\
  (forall p f q, L = p ++ f :: q -> keyed "F" f -> none "F" q /\ none "F" p) /\
  (forall s z, In s L -> keyed "I" s -> In z (numbers 1 s) -> z = 0%Z \/ z = 1%Z) /\
  exists st, read_header analytic 1 1 (txt "PAIR") true (text_of (L ++ [txt "#E"]) ++ []) = HOk (st, []) /\
    h_have_invar st = true /\ h_invar_pots st = 1.
Proof.
  cbv zeta. split.
  { repeat constructor; try (intro H; cbn in H; repeat (destruct H as [H|H]; [discriminate|]); exact H); cbn; lia. }
  split. { intros x [<-|[<-|[]]] [r H]; discriminate. }
  split. { eexists. reflexivity. }
  assert (HF : has_format [txt "#F 0 1"]) by (eexists; split; [left; reflexivity|eexists; reflexivity]).
  split.
  { intros p s q E. destruct p as [|a [|b [|c p]]]; cbn in E.
    - injection E as <- _. split; [right; eexists; reflexivity|].
      split; [intros _; do 3 eexists; split; [vm_compute; reflexivity|split; vm_compute; reflexivity]|].
      refine (conj _ (conj _ (conj _ _))); intros [r H]; discriminate.
    - injection E as <- <- _. split; [right; eexists; reflexivity|].
      refine (conj _ (conj _ (conj _ (conj _ _)))); try (intros [r H]; discriminate).
      intros _. split; [exact HF|]. unfold enough. vm_compute. lia.
    - discriminate.
    - injection E as _ _ E. discriminate. }
  split. { destruct HF as (s & [<-|[]] & K). eexists. split; [left; reflexivity|exact K]. }
  split.
  { intros p s q E K. destruct p as [|a [|b [|c p]]]; cbn in E.
    - injection E as <- <-. split; [intros x [<-|[]] [r H]; discriminate|intros x []].
    - injection E as <- <- _. destruct K as [r H]. discriminate.
    - discriminate.
    - injection E as _ _ E. discriminate. }
  split. { intros s z [<-|[<-|[]]] [r H]; [discriminate|]. vm_compute. intros [<-|[]]. right. reflexivity. }
  eexists. split; [vm_compute; reflexivity|split; reflexivity].
Qed.

Print Assumptions C130_accepted.
Print Assumptions C130_refused.
Print Assumptions C130_unfinished.
Print Assumptions C131_fixed_partial.
Print Assumptions C131_flag_refuted.
Print Assumptions C131_second_format_refuted.
