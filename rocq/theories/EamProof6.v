(** The slope used by the EAM routine is the derivative of the embedding function it uses. *)
From Coq Require Import Reals ZArith List Bool Lia Lra.
From Verif Require Import Vec NbrModel PairModel EamModel EamProof EamProof2 EamProof3.
Local Open Scope R_scope.

Lemma derivable_local : forall (f g : R -> R) x l r, 0 < r -> (forall y, Rabs (y - x) < r -> f y = g y) ->
  derivable_pt_lim f x l -> derivable_pt_lim g x l.
Proof.
  intros f g x l r Hr E D eps He. destruct (D eps He) as (d & Q).
  assert (M : 0 < Rmin d r) by (apply Rmin_glb_lt; [apply cond_pos|auto]).
  exists (mkposreal _ M). intros h H0 H1. simpl in H1.
  rewrite <- !E.
  - apply Q; auto. eapply Rlt_le_trans; [exact H1|apply Rmin_l].
  - rewrite Rminus_diag_eq by auto. rewrite Rabs_R0. auto.
  - replace (x + h - x) with h by ring. eapply Rlt_le_trans; [exact H1|apply Rmin_r].
Qed.
Lemma line_deriv : forall a g b x, derivable_pt_lim (fun y => a + (y - b) * g) x g.
Proof.
  intros. intros eps He. exists (mkposreal 1 Rlt_0_1). intros h H0 _.
  replace ((a + (x + h - b) * g - (a + (x - b) * g)) / h - g) with 0 by (field; auto). rewrite Rabs_R0. auto.
Qed.
Section S.
Variable bld : ebuild.
Variables F dF FA dFA : nat -> nat -> R -> R.
Variables fbegin fend fstep : nat -> nat -> R.
Variables b t : nat.
Hypothesis PLAIN : RESCALE bld = false /\ APOT bld = false.
Hypothesis ORD : fbegin b t < fend b t.
Notation E := (Eu bld F dF FA dFA fbegin fend fstep b t).
Notation dE := (dEu bld F dF FA dFA fbegin fend fstep b t).
Lemma use_plain : forall x, use bld F dF FA dFA fbegin fend fstep b t x =
    if Rlt_dec x (fbegin b t) then
      (F b t (fbegin b t) + (x - fbegin b t) * dF b t (fbegin b t), dF b t (fbegin b t))
    else if Rlt_dec (fend b t) x then
      (F b t (fend b t - 1 / 2 * fstep b t) + (x - fend b t) * dF b t (fend b t - 1 / 2 * fstep b t),
       dF b t (fend b t - 1 / 2 * fstep b t))
    else (F b t x, dF b t x).
Proof. intros x. destruct PLAIN as [P Q]. unfold use, embed, cl. rewrite P, Q. reflexivity. Qed.
Theorem slope_is_derivative : forall x, x <> fbegin b t -> x <> fend b t ->
  (fbegin b t < x < fend b t -> derivable_pt_lim (F b t) x (dF b t x)) -> derivable_pt_lim E x (dE x).
Proof.
  intros x N1 N2 D. unfold dEu. rewrite use_plain.
  destruct (Rlt_dec x (fbegin b t)); [|destruct (Rlt_dec (fend b t) x)]; cbn [snd].
  - apply (derivable_local (fun y => F b t (fbegin b t) + (y - fbegin b t) * dF b t (fbegin b t)) _ _ _ (fbegin b t - x)); [lra| |apply line_deriv].
    intros y Y. apply Rabs_def2 in Y. unfold Eu. rewrite use_plain. destruct (Rlt_dec y (fbegin b t)); [reflexivity|lra].
  - apply (derivable_local (fun y => F b t (fend b t - 1 / 2 * fstep b t) + (y - fend b t) * dF b t (fend b t - 1 / 2 * fstep b t)) _ _ _ (x - fend b t)); [lra| |apply line_deriv].
    intros y Y. apply Rabs_def2 in Y. unfold Eu. rewrite use_plain. destruct (Rlt_dec y (fbegin b t)); [lra|]. destruct (Rlt_dec (fend b t) y); [reflexivity|lra].
  - assert (I : fbegin b t < x < fend b t) by lra.
    apply (derivable_local (F b t) _ _ _ (Rmin (x - fbegin b t) (fend b t - x))); [apply Rmin_glb_lt; lra| |auto].
    intros y Y. pose proof (Rmin_l (x - fbegin b t) (fend b t - x)). pose proof (Rmin_r (x - fbegin b t) (fend b t - x)). apply Rabs_def2 in Y.
    unfold Eu. rewrite use_plain. destruct (Rlt_dec y (fbegin b t)); [lra|]. destruct (Rlt_dec (fend b t) y); [lra|reflexivity].
Qed.
End S.
