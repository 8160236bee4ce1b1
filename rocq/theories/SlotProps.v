(** C126: slots of neighbours and the tables of analytic potentials. *)
From Coq Require Import Reals ZArith List.
From Verif Require Import PairIndexModel SplineModel ConfModel SlotModel SlotSpec SlotProof.
Import ListNotations.
Local Open Scope R_scope.

Theorem C126_tables : forall DBL_MAX k n nbs old oldmin en d2 s,
  (forall a b x, In (a, b, x) nbs -> (0 <= a < n)%Z /\ (0 <= b < n)%Z /\ 0 < x < DBL_MAX) ->
  start_tables DBL_MAX n (mindists DBL_MAX (pair_nbs n nbs)) old oldmin = Some s ->
  forall j f t1 t2, nth_error (blocks k) j = Some f -> of_distance f = true -> (0 <= t1 < n)%Z -> (0 <= t2 < n)%Z ->
  let c := column_of n k j f t1 t2 in
  let T := calc_column (table_ends k n s en) (d2 c) c in
  endr T = en c /\
  exists a b r, In (a, b, r) nbs /\ begin T = 95 / 100 * r /\
    (f = Phi -> pair_index n a b = pair_index n t1 t2) /\
    (forall a' b' r', In (a', b', r') nbs -> (f = Phi -> pair_index n a' b' = pair_index n t1 t2) -> r <= r').
Proof. exact tables_begin. Qed.
Print Assumptions C126_tables.

Theorem C126_slots : forall DBL_MAX k n nbs old oldmin en d2 s,
  (forall a b x, In (a, b, x) nbs -> (0 <= a < n)%Z /\ (0 <= b < n)%Z /\ 0 < x < DBL_MAX) ->
  start_tables DBL_MAX n (mindists DBL_MAX (pair_nbs n nbs)) old oldmin = Some s ->
  forall j f t1 t2 r st xi, nth_error (blocks k) j = Some f -> of_distance f = true -> In (t1, t2, r) nbs ->
  let T c := calc_column (table_ends k n s en) (d2 c) c in
  let c := column_of n k j f t1 t2 in
  let ns := update_slots k n T t1 t2 r st (slot_of k j) in
  (r < en c ->
     (first (T c) <= ns_slot ns < last (T c))%nat /\ 0 <= ns_shift ns < 1 /\
     xcoord (T c) (ns_slot ns) + ns_shift ns * ns_step ns = r /\
     xcoord (T c) (S (ns_slot ns)) - xcoord (T c) (ns_slot ns) = ns_step ns /\
     splint_ed (T c) xi r = Some (splint_dir (d2 c) xi (ns_slot ns) (ns_shift ns) (ns_step ns)) /\
     splint_grad_ed (T c) xi r = Some (splint_grad_dir (d2 c) xi (ns_slot ns) (ns_shift ns) (ns_step ns))) /\
  (en c <= r -> ns = st (slot_of k j)).
Proof. exact neighbour_slots. Qed.
Print Assumptions C126_slots.

Theorem C126_angles : forall k n en d2 s j t, nth_error (blocks k) j = Some G -> (0 <= t < n)%Z ->
  let c := (before n (blocks k) j + t)%Z in
  let T := calc_column (table_ends k n s en) (d2 c) c in
  begin T <= -1 /\ 1 <= endr T /\ (k = BMeam -> begin T = - (11 / 10) /\ endr T = 11 / 10).
Proof. exact angle_tables. Qed.
Print Assumptions C126_angles.

Example C126_ex : exists s, start_tables 1000 1 (mindists 1000 (pair_nbs 1 [(0%Z, 0%Z, 2); (0%Z, 0%Z, 3)])) (fun _ => 0) (fun _ => 0) = Some s /\
  (forall a b x, In (a, b, x) [(0%Z, 0%Z, 2); (0%Z, 0%Z, 3)] -> (0 <= a < 1)%Z /\ (0 <= b < 1)%Z /\ 0 < x < 1000) /\
  nth_error (blocks BMeam) 3 = Some Fr /\ column_of 1 BMeam 3 Fr 0 0 = 3%Z /\ slot_of BMeam 3 = 2%nat.
Proof. exact slots_ex. Qed.
