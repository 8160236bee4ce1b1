(** Lines and numbers. *)
From Coq Require Import ZArith List Bool Ascii String QArith Qcanon Arith Lia.
From Verif Require Import ParamsModel LinesModel ReadModel ReadSpec.
Import ListNotations.
Local Open Scope nat_scope.

(** characters of a line: neither line end nor carriage return *)
Definition plain (l : text) : Prop := ~ In LF l /\ ~ In CR l.
Lemma plain_nil : plain [].
Proof. split; intros []. Qed.
Lemma plain_app : forall a b, plain a -> plain b -> plain (a ++ b).
Proof. intros a b [A1 A2] [B1 B2]. split; intro H; apply in_app_or in H; tauto. Qed.
Lemma plain_cons : forall c b, c <> LF -> c <> CR -> plain b -> plain (c :: b).
Proof. intros c b N1 N2 [B1 B2]. split; intros [E|H]; auto. Qed.

Ltac noc := split; let H := fresh in intro H; cbn in H; repeat (destruct H as [H|H]; [discriminate|]); exact H.

Lemma fgets_aux_line : forall l k r, ~ In LF l -> List.length l < k -> fgets_aux k (l ++ LF :: r) = (l ++ [LF], r, false).
Proof.
  induction l as [|c l IH]; intros k r N L; (destruct k as [|k]; [cbn in L; lia|]); cbn [app fgets_aux].
  - destruct (ascii_dec LF LF); [reflexivity|congruence].
  - destruct (ascii_dec c LF) as [->|_]; [exfalso; apply N; left; reflexivity|].
    rewrite IH; [reflexivity| |cbn in L; lia]. intro H; apply N; right; exact H.
Qed.
Lemma has_crlf_no : forall l, ~ In CR l -> has_crlf l = false.
Proof.
  induction l as [|a [|b l] IH]; intros N; [reflexivity|reflexivity|].
  change ((if ascii_dec a CR then if ascii_dec b LF then true else false else false) || has_crlf (b :: l) = false).
  rewrite IH by (intro H; apply N; right; exact H).
  destruct (ascii_dec a CR) as [->|_]; [exfalso; apply N; left; reflexivity|reflexivity].
Qed.
Lemma fgets_potfit_id : forall l, ~ In CR l -> fgets_potfit l = l.
Proof. intros l N. unfold fgets_potfit. rewrite has_crlf_no by exact N. reflexivity. Qed.
Lemma fgets_line : forall l r, plain l -> List.length l < LINE -> fgets (l ++ LF :: r) = Some (l ++ [LF], r, false).
Proof.
  intros l r [N1 N2] L. unfold fgets. rewrite fgets_aux_line by assumption.
  assert (E : fgets_potfit (l ++ [LF]) = l ++ [LF]).
  { apply fgets_potfit_id. intro H. apply in_app_or in H. destruct H as [H|[H|[]]]; [tauto|discriminate]. }
  rewrite E. destruct l; reflexivity.
Qed.
Lemma cut_line : forall l, ~ In LF l -> cut_lf (l ++ [LF]) = l.
Proof.
  induction l as [|c l IH]; intros N.
  - reflexivity.
  - change (cut_lf ((c :: l) ++ [LF])) with (if ascii_dec c LF then [] else c :: cut_lf (l ++ [LF])).
    destruct (ascii_dec c LF) as [->|_]; [exfalso; apply N; left; reflexivity|].
    rewrite IH; [reflexivity|]. intro H; apply N; right; exact H.
Qed.

Definition stop (r : text) : Prop := match r with [] => True | c :: _ => c = " "%char \/ c = LF end.
Lemma scan_d_space : forall t, scan_d (" "%char :: t) = scan_d t.
Proof. intro t. reflexivity. Qed.
Lemma scan_d_skip : forall t, scan_d (skip_space t) = scan_d t.
Proof.
  assert (X : forall t, skip_space (skip_space t) = skip_space t).
  { induction t as [|c t IH]; [reflexivity|]. cbn. destruct (is_space c) eqn:E; [exact IH|]. cbn. rewrite E. reflexivity. }
  intro t. unfold scan_d. rewrite X. reflexivity.
Qed.

Section Scan.
Variable scan_f : text -> option (Qc * text).
Variable pf : Qc -> text.
(** white space before a number is skipped *)
Hypothesis SKIP : forall t, scan_f (" "%char :: t) = scan_f t.
Definition reads_f (q : Qc) : Prop := plain (pf q) /\ forall r, stop r -> scan_f (pf q ++ r) = Some (q, r).

Lemma stop_nums : forall qs r, stop r -> stop (nums pf qs ++ r).
Proof. intros [|q qs] r S; [exact S|left; reflexivity]. Qed.
Lemma plain_nums : forall qs, Forall reads_f qs -> plain (nums pf qs).
Proof.
  intros qs F. induction F as [|q qs [P _] _ IH]; [apply plain_nil|].
  cbn. apply plain_cons; [discriminate|discriminate|]. apply plain_app; assumption.
Qed.
Lemma scan_nums : forall qs r, Forall reads_f qs -> stop r -> scan_fs scan_f (List.length qs) (nums pf qs ++ r) = Some (qs, r).
Proof.
  intros qs r F S. induction F as [|q qs [_ P] _ IH]; [reflexivity|].
  cbn [List.length scan_fs nums flat_map]. cbn [app]. rewrite SKIP. rewrite <- app_assoc.
  rewrite P by (apply stop_nums; exact S).
  change (flat_map (fun q0 => " "%char :: pf q0) qs) with (nums pf qs). rewrite IH. reflexivity.
Qed.
End Scan.
