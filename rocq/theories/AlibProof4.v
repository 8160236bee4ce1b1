(** Names and numbers of parameters of the table of functions. *)
From Coq Require Import List Bool String Arith Lia.
From Verif Require Import AlibModel AlibSpec.
Import ListNotations.

Lemma lambda_count : forall n, (n * n * (n + 1) / 2 = n * (n * (n + 1) / 2))%nat.
Proof.
  intros n. assert (E : exists m, (n * (n + 1) = 2 * m)%nat).
  { destruct (Nat.Even_or_Odd n) as [[m ->]|[m ->]]; [exists (m * (2 * m + 1))%nat|exists ((2 * m + 1) * (m + 1))%nat]; ring. }
  destruct E as (m & E). rewrite E, <- Nat.mul_assoc, E.
  replace (2 * m)%nat with (m * 2)%nat by ring. rewrite Nat.div_mul by lia. rewrite Nat.mul_assoc. rewrite Nat.div_mul by lia. reflexivity.
Qed.

Lemma table_named : forall b name k f, In (name, k, f) (function_list b) ->
  k = snd (documented (ntypes b) f) /\
  (name = fst (documented (ntypes b) f) \/ COULOMB b = true /\ without_charges f = Some name).
Proof.
  intros b name k f H. unfold function_list in H.
  repeat (apply in_app_or in H; destruct H as [H|H]).
  all: try (destruct (COULOMB b) eqn:CB; cbn [In] in H).
  all: try (destruct (STIWEB b); cbn [In] in H).
  all: try (destruct (TERSOFF b); [destruct (TERSOFFMOD b)|]; cbn [In] in H).
  all: repeat (destruct H as [H|H]; [injection H as <- <- <-; cbn [documented fst snd without_charges]; auto|]); try contradiction H.
  all: split; [apply lambda_count|left; reflexivity].
Qed.

Lemma table_complete : forall b f,
  (match f with Stiweb2 | Stiweb3 | Lambda => STIWEB b = true
              | TersoffPot | TersoffMix => TERSOFF b = true /\ TERSOFFMOD b = false
              | TersoffModPot => TERSOFF b = true /\ TERSOFFMOD b = true
              | MsEs | BuckEs => COULOMB b = true | _ => True end) ->
  exists name k, In (name, k, f) (function_list b).
Proof.
  intros [C S T M n] f H. unfold function_list. cbn [COULOMB STIWEB TERSOFF TERSOFFMOD ntypes] in *.
  destruct f; repeat match goal with H : _ /\ _ |- _ => destruct H end; subst; try (destruct C); do 2 eexists; repeat rewrite in_app_iff; cbn [In]; eauto 60.
Qed.
