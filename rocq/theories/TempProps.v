(** C134: the automatic start temperature of the annealing. *)
From Coq Require Import Reals List Lia Lra Floats.SpecFloat.
From Verif Require Import TempModel TempSpec TempProof.
Import ListNotations.
Local Open Scope R_scope.

(** the run stops with an error exactly if no trial step raises the cost, or if exactly half of them do *)
Theorem C134_fails : forall F costs,
  auto_temperature F costs = None <-> length (rises F costs) = 0%nat \/ downhill F costs = length (rises F costs).
Proof. exact fails. Qed.
Print Assumptions C134_fails.

(** a temperature found is positive *)
Theorem C134_positive : forall F costs T, auto_temperature F costs = Some T -> 0 < T.
Proof. exact positive. Qed.
Print Assumptions C134_positive.

(** with no step downhill the share of accepted steps is the intended 4/5 *)
Theorem C134_share_partial : forall F costs, downhill F costs = 0%nat -> costs <> [] ->
  exists T, auto_temperature F costs = Some T /\ share F costs T = 4 / 5.
Proof. exact share_none. Qed.
Print Assumptions C134_share_partial.

(** otherwise it is larger by 2/5 of the share of downhill steps *)
Theorem C134_share_less : forall F costs, (downhill F costs < length (rises F costs))%nat ->
  exists T, auto_temperature F costs = Some T /\
  share F costs T = 4 / 5 + 2 / 5 * (INR (downhill F costs) / INR (length costs)).
Proof. exact share_less. Qed.
Print Assumptions C134_share_less.

(** more than half of the steps downhill: the sign of the temperature is changed *)
Theorem C134_share_more : forall F costs, (length (rises F costs) < downhill F costs)%nat -> length (rises F costs) <> 0%nat ->
  exists T, auto_temperature F costs = Some T /\
  share F costs T = (INR (downhill F costs) + INR (length (rises F costs)) * INR (length (rises F costs)) /
    (4 / 5 * INR (length (rises F costs)) + 1 / 5 * INR (downhill F costs))) / INR (length costs).
Proof. exact share_more. Qed.
Print Assumptions C134_share_more.

(** one parameter, three of ten steps downhill: 92 of 100 steps are accepted; a temperature with 80 of 100 exists *)
Theorem C134_share_refuted : exists F costs T T', auto_temperature F costs = Some T /\ share F costs T = 92 / 100 /\
  0 < T' /\ share F costs T' = 4 / 5.
Proof. exact share_refuted. Qed.
Print Assumptions C134_share_refuted.

(** one parameter, five of ten steps downhill: no temperature *)
Theorem C134_half_refuted : exists F costs, length costs = 10%nat /\ rises F costs <> [] /\ auto_temperature F costs = None.
Proof. exact half_refuted. Qed.
Print Assumptions C134_half_refuted.

(** and with binary64 numbers the argument of the logarithm is 1 for five and five steps *)
Theorem C134_half64 : arg64 (f64 5629499534213120 (-50)) (f64 5629499534213120 (-50)) = one64.
Proof. exact half64. Qed.
Print Assumptions C134_half64.

(** a given temperature is kept, unless it is negative *)
Theorem C134_given : forall T, (0 <= T -> given_temperature T = Some T) /\ (T < 0 -> given_temperature T = None).
Proof. exact given. Qed.
Print Assumptions C134_given.

Example C134_ex : downhill 1 [2; 3; 2; 3] = 0%nat /\ (downhill 1%R [2; 0; 3]%R < length (rises 1%R [2; 0; 3]%R))%nat /\
  (length (rises 1%R [2; 0; 1; 1]%R) < downhill 1%R [2; 0; 1; 1]%R)%nat.
Proof. exact temp_ex. Qed.
