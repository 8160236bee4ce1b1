(** Vectors of three doubles (types.h: vector), over R; macros SPROD, vec_prod (utils.c:55-64). *)
From Coq Require Import Reals ZArith List Lia Lra.
Import ListNotations.
Local Open Scope R_scope.

Record vec := V3 { vx : R; vy : R; vz : R }.
Definition v0 : vec := V3 0 0 0.
Definition vadd (a b : vec) : vec := V3 (vx a + vx b) (vy a + vy b) (vz a + vz b).
Definition vsub (a b : vec) : vec := V3 (vx a - vx b) (vy a - vy b) (vz a - vz b).
Definition vscale (s : R) (a : vec) : vec := V3 (s * vx a) (s * vy a) (s * vz a).
Definition sprod (a b : vec) : R := vx a * vx b + vy a * vy b + vz a * vz b.
Definition vec_prod (u v : vec) : vec :=
  V3 (vy u * vz v - vz u * vy v) (vz u * vx v - vx u * vz v) (vx u * vy v - vy u * vx v).
Definition norm (a : vec) : R := sqrt (sprod a a).

Lemma vec_eq : forall a b, vx a = vx b -> vy a = vy b -> vz a = vz b -> a = b.
Proof. intros [] []; simpl; congruence. Qed.
Ltac vring := apply vec_eq; simpl; ring.

Lemma sprod_self_nonneg : forall a, 0 <= sprod a a.
Proof. intros a. unfold sprod. pose proof (Rle_0_sqr (vx a)). pose proof (Rle_0_sqr (vy a)). pose proof (Rle_0_sqr (vz a)). unfold Rsqr in *. lra. Qed.
Lemma norm_nonneg : forall a, 0 <= norm a.
Proof. intros. apply sqrt_pos. Qed.
Lemma norm_sqr : forall a, norm a * norm a = sprod a a.
Proof. intros. apply sqrt_sqrt, sprod_self_nonneg. Qed.

Lemma cauchy_schwarz : forall a b, Rabs (sprod a b) <= norm a * norm b.
Proof.
  intros a b. apply Rsqr_incr_0_var; [|apply Rmult_le_pos; apply norm_nonneg].
  rewrite <- Rsqr_abs. unfold Rsqr.
  replace (norm a * norm b * (norm a * norm b)) with ((norm a * norm a) * (norm b * norm b)) by ring.
  rewrite !norm_sqr. destruct a as [a1 a2 a3], b as [b1 b2 b3]; unfold sprod; simpl.
  assert (0 <= (a1 * b2 - a2 * b1) * (a1 * b2 - a2 * b1)) by apply Rle_0_sqr.
  assert (0 <= (a1 * b3 - a3 * b1) * (a1 * b3 - a3 * b1)) by apply Rle_0_sqr.
  assert (0 <= (a2 * b3 - a3 * b2) * (a2 * b3 - a3 * b2)) by apply Rle_0_sqr. lra.
Qed.

(** ** Finite sums *)
Fixpoint rsum (l : list R) : R := match l with [] => 0 | x :: t => x + rsum t end.
Definition rsumf {A} (f : A -> R) (l : list A) : R := rsum (map f l).
Lemma rsumf_app : forall {A} (f : A -> R) l m, rsumf f (l ++ m) = rsumf f l + rsumf f m.
Proof. intros A f l m. unfold rsumf. rewrite map_app. induction (map f l); simpl; [ring|rewrite IHl0; ring]. Qed.
Lemma rsumf_ext : forall {A} (f g : A -> R) l, (forall x, In x l -> f x = g x) -> rsumf f l = rsumf g l.
Proof. intros A f g l H. unfold rsumf. f_equal. apply map_ext_in. auto. Qed.
Lemma rsumf_plus : forall {A} (f g : A -> R) l, rsumf (fun x => f x + g x) l = rsumf f l + rsumf g l.
Proof. intros A f g l. unfold rsumf. induction l; simpl; [ring|rewrite IHl; ring]. Qed.
Lemma rsumf_scale : forall {A} c (f : A -> R) l, rsumf (fun x => c * f x) l = c * rsumf f l.
Proof. intros A c f l. unfold rsumf. induction l; simpl; [ring|rewrite IHl; ring]. Qed.
Lemma rsumf_zero : forall {A} (f : A -> R) l, (forall x, In x l -> f x = 0) -> rsumf f l = 0.
Proof. intros A f l H. unfold rsumf. induction l; simpl; [auto|]. rewrite H by (left; auto). rewrite IHl; [ring|intros; apply H; right; auto]. Qed.
Lemma rsumf_cons : forall {A} (f : A -> R) a l, rsumf f (a :: l) = f a + rsumf f l.
Proof. reflexivity. Qed.
Lemma rsumf_nonneg : forall {A} (f : A -> R) l, (forall x, In x l -> 0 <= f x) -> 0 <= rsumf f l.
Proof. intros A f l H. induction l; [right; auto|]. rewrite rsumf_cons. assert (0 <= f a) by (apply H; left; auto). assert (0 <= rsumf f l) by (apply IHl; intros; apply H; right; auto). lra. Qed.
Lemma rsumf_map : forall {A B} (f : B -> R) (g : A -> B) l, rsumf f (map g l) = rsumf (fun x => f (g x)) l.
Proof. intros. unfold rsumf. rewrite map_map. auto. Qed.
Lemma rsumf_swap : forall {A B} (f : A -> B -> R) l m,
  rsumf (fun a => rsumf (f a) m) l = rsumf (fun b => rsumf (fun a => f a b) l) m.
Proof.
  intros A B f l m. induction l.
  - symmetry. apply rsumf_zero. auto.
  - rewrite rsumf_cons, IHl, <- rsumf_plus. apply rsumf_ext. intros. rewrite rsumf_cons. auto.
Qed.
Lemma rsumf_filter : forall {A} (f : A -> R) p l, rsumf f (filter p l) = rsumf (fun x => if p x then f x else 0) l.
Proof. intros A f p l. induction l; simpl; auto. destruct (p a) eqn:E; rewrite ?rsumf_cons, ?E, IHl; ring. Qed.
Lemma rsumf_flat_map : forall {A B} (f : B -> R) (g : A -> list B) l, rsumf f (flat_map g l) = rsumf (fun a => rsumf f (g a)) l.
Proof. intros A B f g l. induction l; simpl; auto. rewrite rsumf_app, rsumf_cons, IHl. auto. Qed.
From Coq Require Import Permutation.
Lemma rsumf_perm : forall {A} (f : A -> R) l m, Permutation l m -> rsumf f l = rsumf f m.
Proof. intros A f l m P. induction P; rewrite ?rsumf_cons; try lra; auto. Qed.
