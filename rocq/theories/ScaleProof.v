(** Proofs for C167. *)
From Coq Require Import Reals ZArith List Bool Lia Lra.
From Verif Require Import Vec ConfModel NbrModel ScaleModel.
Import ListNotations.
Local Open Scope R_scope.

Lemma scaled_is : forall s v, scaled s v = vscale s v.
Proof.
  intros s v. unfold scaled, vscale. destruct (Req_EM_T s 1) as [->|N]; apply vec_eq; cbn; ring.
Qed.
Lemma sphere_is : forall s p, scaled_sphere s p = (vscale s (fst p), s * snd p).
Proof.
  intros s (c, r). unfold scaled_sphere, vscale. cbn [fst snd]. destruct (Req_EM_T s 1) as [->|N]; f_equal; try ring; apply vec_eq; cbn; ring.
Qed.
Lemma sub_scale : forall s a b, vsub (vscale s a) (vscale s b) = vscale s (vsub a b).
Proof. intros. unfold vsub, vscale. apply vec_eq; cbn; ring. Qed.
Lemma sprod_scale : forall s a b, sprod (vscale s a) (vscale s b) = s * s * sprod a b.
Proof. intros. unfold sprod, vscale. cbn. ring. Qed.
Lemma norm_scale : forall s a, 0 < s -> norm (vscale s a) = s * norm a.
Proof.
  intros s a H. unfold norm. rewrite sprod_scale, sqrt_mult; [|nra|apply sprod_self_nonneg]. rewrite sqrt_square by lra. reflexivity.
Qed.
Lemma cell_scale : forall s d a, 0 < s -> cell_no (vscale s d) (vscale s a) = cell_no d a.
Proof.
  intros s d a H. unfold cell_no. rewrite !sprod_scale. assert (P : 0 < s * s) by nra.
  destruct (Req_EM_T (sprod a a) 0) as [E|E].
  - rewrite E, Rmult_0_r. destruct (Req_EM_T 0 0); [reflexivity|contradiction].
  - destruct (Req_EM_T (s * s * sprod a a) 0) as [F|F]; [exfalso; apply E; nra|]. do 2 f_equal. field. split; [exact E|lra].
Qed.
Lemma sphere_scale : forall s p c, 0 < s -> in_sphere (vscale s p) (vscale s (fst c), s * snd c) = in_sphere p c.
Proof.
  intros s p (c, r) H. unfold in_sphere. cbn [fst snd]. rewrite sub_scale. fold (norm (vscale s (vsub p c))). fold (norm (vsub p c)). rewrite norm_scale by exact H.
  destruct (Rlt_dec (norm (vsub p c)) r); destruct (Rlt_dec (s * norm (vsub p c)) (s * r)); try reflexivity; exfalso; nra.
Qed.
Lemma spheres_scale : forall s p l, 0 < s -> existsb (in_sphere (vscale s p)) (map (scaled_sphere s) l) = existsb (in_sphere p) l.
Proof.
  intros s p l H. induction l as [|c l IH]; [reflexivity|]. cbn [map existsb]. rewrite IH, sphere_is, sphere_scale by exact H. reflexivity.
Qed.
Lemma contribute_scale : forall s p c, 0 < s ->
  does_contribute (vscale s p) (contrib_of (read_conf s c)) = does_contribute p (contrib_of c).
Proof.
  intros s p [[[x y] z] b sp at_] H. unfold does_contribute, contrib_of, read_conf. cbn [c_box c_contrib c_spheres c_atoms].
  destruct b as [[[[o a] b] d]|]; cbn [have_box spheres cbox_o cbox_a cbox_b cbox_c]; rewrite spheres_scale by exact H; [|reflexivity].
  rewrite !scaled_is, sub_scale, !cell_scale by exact H. reflexivity.
Qed.
Lemma contribs_scale : forall s c, 0 < s -> contribs (read_conf s c) = contribs c.
Proof.
  intros s c H. unfold contribs. assert (A : c_atoms (read_conf s c) = map (scaled s) (c_atoms c)) by (destruct c as [[[x y] z] b sp at_]; reflexivity).
  assert (B : have_box (contrib_of (read_conf s c)) = have_box (contrib_of c)) by (destruct c as [[[x y] z] [[[[o a] b] d]|] sp at_]; reflexivity).
  assert (C : c_spheres (read_conf s c) = map (scaled_sphere s) (c_spheres c)) by (destruct c as [[[x y] z] b sp at_]; reflexivity).
  rewrite A, map_map. apply map_ext. intros p. rewrite B, C, scaled_is, contribute_scale by exact H. destruct (c_spheres c); reflexivity.
Qed.
Lemma volume_scale : forall s c, 0 < s ->
  match make_box (box_of c) with
  | None => make_box (box_of (read_conf s c)) = None
  | Some (_, v) => exists t, make_box (box_of (read_conf s c)) = Some (t, s * s * s * v)
  end.
Proof.
  intros s [[[x y] z] b sp at_] H. unfold box_of, read_conf. cbn [c_box]. unfold make_box. cbn [bx by_ bz]. rewrite !scaled_is.
  set (v := sprod x (vec_prod y z)). assert (E : sprod (vscale s x) (vec_prod (vscale s y) (vscale s z)) = s * s * s * v).
  { unfold v, sprod, vec_prod, vscale. cbn. ring. }
  rewrite E. assert (P : 0 < s * s * s) by (apply Rmult_lt_0_compat; nra). destruct (Req_EM_T 0 v) as [V|V].
  - destruct (Req_EM_T 0 (s * s * s * v)) as [W|W]; [reflexivity|]. exfalso. apply W. rewrite <- V. ring.
  - destruct (Req_EM_T 0 (s * s * s * v)) as [W|W]; [exfalso; apply V; symmetry in W; apply Rmult_integral in W; lra|]. eexists. reflexivity.
Qed.
Lemma distance_scale : forall s c i j p q (n m k : Z), 0 < s -> nth_error (c_atoms c) i = Some p -> nth_error (c_atoms c) j = Some q ->
  exists p' q', nth_error (c_atoms (read_conf s c)) i = Some p' /\ nth_error (c_atoms (read_conf s c)) j = Some q' /\
  let '(x, y, z) := c_box c in let '(x', y', z') := c_box (read_conf s c) in
  let image x y z (v : vec) := vadd v (vadd (vscale (IZR n) x) (vadd (vscale (IZR m) y) (vscale (IZR k) z))) in
  norm (vsub (image x' y' z' q') p') = s * norm (vsub (image x y z q) p).
Proof.
  intros s [[[x y] z] b sp at_] i j p q n m k H P Q. cbn [c_atoms c_box read_conf] in *.
  exists (scaled s p), (scaled s q). split; [apply map_nth_error; exact P|]. split; [apply map_nth_error; exact Q|]. cbv zeta.
  rewrite <- norm_scale by exact H. f_equal. rewrite !scaled_is. unfold vsub, vadd, vscale. apply vec_eq; cbn; ring.
Qed.
