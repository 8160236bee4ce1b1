(** C167: the parameter cell_scale. *)
From Coq Require Import Reals ZArith List Lra.
From Verif Require Import Vec ConfModel NbrModel ScaleModel ScaleProof.
Import ListNotations.
Local Open Scope R_scope.

(** The same atoms contribute, whatever the scale. *)
Theorem C167_contrib : forall s c, 0 < s -> contribs (read_conf s c) = contribs c.
Proof. exact contribs_scale. Qed.
Print Assumptions C167_contrib.
(** Distances between atoms and periodic images are multiplied by the scale. *)
Theorem C167_distances : forall s c i j p q (n m k : Z), 0 < s -> nth_error (c_atoms c) i = Some p -> nth_error (c_atoms c) j = Some q ->
  exists p' q', nth_error (c_atoms (read_conf s c)) i = Some p' /\ nth_error (c_atoms (read_conf s c)) j = Some q' /\
  let '(x, y, z) := c_box c in let '(x', y', z') := c_box (read_conf s c) in
  let image x y z (v : vec) := vadd v (vadd (vscale (IZR n) x) (vadd (vscale (IZR m) y) (vscale (IZR k) z))) in
  norm (vsub (image x' y' z' q') p') = s * norm (vsub (image x y z q) p).
Proof. exact distance_scale. Qed.
Print Assumptions C167_distances.
Example C167_ex : 0 < 2 /\ let c := Conf (V3 1 0 0, V3 0 1 0, V3 0 0 1) None [(V3 0 0 0, 1)] [V3 0 0 0; V3 3 0 0] in
  nth_error (c_atoms c) 1 = Some (V3 3 0 0) /\ contribs c = [Some true; Some false].
Proof.
  split; [lra|]. split; [reflexivity|]. unfold contribs, does_contribute, in_sphere, contrib_of, sprod, vsub. cbn.
  replace ((0 - 0) * (0 - 0) + (0 - 0) * (0 - 0) + (0 - 0) * (0 - 0)) with 0 by ring.
  replace ((3 - 0) * (3 - 0) + (0 - 0) * (0 - 0) + (0 - 0) * (0 - 0)) with (3 * 3) by ring. rewrite sqrt_0, sqrt_square by lra.
  destruct (Rlt_dec 0 1); [|lra]. destruct (Rlt_dec 3 1); [lra|]. reflexivity.
Qed.
(** The box is accepted if it is without the scale; the volume is multiplied by its third power. *)
Theorem C167_volume : forall s c, 0 < s ->
  match make_box (box_of c) with
  | None => make_box (box_of (read_conf s c)) = None
  | Some (_, v) => exists t, make_box (box_of (read_conf s c)) = Some (t, s * s * s * v)
  end.
Proof. exact volume_scale. Qed.
Print Assumptions C167_volume.
Example C167_volume_ex : exists t, make_box (box_of (Conf (V3 1 0 0, V3 0 1 0, V3 0 0 1) None [] [])) = Some (t, 1).
Proof.
  unfold make_box, box_of, sprod, vec_prod. cbn. replace (1 * (1 * 1 - 0 * 0) + 0 * (0 * 0 - 0 * 1) + 0 * (0 * 0 - 1 * 0)) with 1 by ring.
  destruct (Req_EM_T 0 1); [lra|]. eexists. reflexivity.
Qed.
