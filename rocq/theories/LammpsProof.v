(** Proofs about the LAMMPS export: Stillinger-Weber. *)
From Coq Require Import Reals ZArith List Bool Lia Lra.
From Verif Require Import Vec PairIndexModel LammpsModel LammpsSpec.
Import ListNotations.
Local Open Scope R_scope.

(** ** Looking up a line *)
Lemma filter_flat_map : forall {A B} (p : B -> bool) (g : A -> list B) l,
  filter p (flat_map g l) = flat_map (fun a => filter p (g a)) l.
Proof. intros A B p g l. induction l; simpl; auto. rewrite filter_app, IHl. auto. Qed.
Lemma flat_map_nil : forall {A B} (h : A -> list B) l, (forall a, In a l -> h a = []) -> flat_map h l = [].
Proof. intros A B h l H. induction l; simpl; auto. rewrite H by (left; auto). apply IHl. intros. apply H. right; auto. Qed.
Lemma flat_map_one : forall {B} (h : nat -> list B) n i, (i < n)%nat -> (forall a, a <> i -> h a = []) ->
  flat_map h (seq 0 n) = h i.
Proof.
  intros B h n i L H. replace n with (i + (1 + (n - i - 1)))%nat by lia. rewrite seq_app, flat_map_app.
  rewrite (flat_map_nil h (seq 0 i)) by (intros a K; apply H; apply in_seq in K; lia).
  rewrite seq_app, flat_map_app. rewrite (flat_map_nil h (seq _ (n - i - 1))) by (intros a K; apply H; apply in_seq in K; lia).
  simpl. rewrite !app_nil_r. auto.
Qed.
Lemma filter_map_one : forall {B} (p : B -> bool) (f : nat -> B) n i, (i < n)%nat -> (forall a, p (f a) = Nat.eqb a i) ->
  filter p (map f (seq 0 n)) = [f i].
Proof.
  intros B p f n i L H. 
  assert (E : forall l, filter p (map f l) = flat_map (fun a => if Nat.eqb a i then [f a] else []) l).
  { induction l; simpl; auto. rewrite H. destruct (Nat.eqb a i); rewrite IHl; auto. }
  rewrite E. rewrite (flat_map_one _ n i) by (auto; intros a N; destruct (Nat.eqb_spec a i); tauto). rewrite Nat.eqb_refl. auto.
Qed.

Lemma lookup_triples : forall n (f : nat -> nat -> nat -> entry_line) i j k,
  (forall a b c, fst (f a b c) = (a, b, c)) -> (i < n)%nat -> (j < n)%nat -> (k < n)%nat ->
  lookup (triples_of n f) i j k = Some (snd (f i j k)).
Proof.
  intros n f i j k H Li Lj Lk. unfold lookup, triples_of.
  pose (p := fun l : entry_line => let '(a, b, c) := fst l in (Nat.eqb a i && Nat.eqb b j && Nat.eqb c k)%bool).
  match goal with |- match filter _ ?l with _ => _ end = _ => change (match filter p l with [x] => Some (snd x) | _ => None end = Some (snd (f i j k))) end.
  rewrite filter_flat_map.
  assert (P : forall a b c, p (f a b c) = (Nat.eqb a i && Nat.eqb b j && Nat.eqb c k)%bool) by (intros; unfold p; rewrite H; auto).
  assert (N : forall l, (forall x, In x l -> p x = false) -> filter p l = []).
  { induction l; simpl; auto. intros Q. rewrite Q by (left; auto). apply IHl. intros; apply Q; right; auto. }
  rewrite (flat_map_one _ n i); auto.
  - cbv beta. rewrite filter_flat_map. rewrite (flat_map_one _ n j); auto.
    + cbv beta. rewrite (filter_map_one p (fun c => f i j c) n k); auto. intros c. rewrite P, !Nat.eqb_refl. auto.
    + intros b D. apply N. intros x X. apply in_map_iff in X. destruct X as (c & <- & _). rewrite P, Nat.eqb_refl. destruct (Nat.eqb_spec b j); [tauto|auto].
  - intros a D. apply N. intros x X. apply in_flat_map in X. destruct X as (b & _ & X). apply in_map_iff in X. destruct X as (c & <- & _).
    rewrite P. destruct (Nat.eqb_spec a i); [tauto|auto].
Qed.

Section SW.
Variable pow0 : R -> R -> R.
Variables (V : nat -> nat -> R) (lam : nat -> nat -> nat -> R) (n : nat) (pr : R -> R).

Definition sw_good (c : nat) : Prop := 0 < V c 4 /\ V c 1 <> 0.
Definition sw_exported (i j k : nat) : sw_entry :=
  let c := col n i j in
  mk_sw (pr 1) (pr (V c 4)) (pr (V c 5 / V c 4)) (pr (lam i j k / 1)) (pr (V (pcol n + c)%nat 0%nat / V c 4)) (pr (-1 / 3))
    (pr (V c 1 * (1 / (1 * Rpower (V c 4) (V c 3)))))
    (pr (V c 0 * (1 / (1 * Rpower (V c 4) (V c 2))) / V c 1 / (1 / (1 * Rpower (V c 4) (V c 3))))) (pr (V c 2)) (pr (V c 3)).

Lemma Rpower_pos : forall x y, 0 < Rpower x y.
Proof. intros. apply exp_pos. Qed.

Lemma sw_entry_ok : forall file i j k, write_sw pow0 pr V n lam = Some file ->
  (i < n)%nat -> (j < n)%nat -> (k < n)%nat -> sw_good (col n i j) ->
  sw_of (lookup file i j k) = Some (sw_exported i j k).
Proof.
  intros file i j k W Li Lj Lk [D B]. unfold write_sw in W. destruct (Req_EM_T _ _); [|discriminate]. injection W as <-.
  change (@triples_of n line) with (@triples_of n entry_line). rewrite lookup_triples by (auto; intros; reflexivity).
  unfold sw_exported, sw_line. cbv zeta.
  set (c := col n i j) in *. cbn [snd map]. unfold put, quot, prod, cpow.
  destruct (Rlt_dec 0 (V c 4)); [|tauto].
  pose proof (Rpower_pos (V c 4) (V c 2)). pose proof (Rpower_pos (V c 4) (V c 3)).
  destruct (Req_EM_T (1 * Rpower (V c 4) (V c 2)) 0); [lra|]. destruct (Req_EM_T (1 * Rpower (V c 4) (V c 3)) 0); [lra|].
  destruct (Req_EM_T (V c 4) 0); [lra|]. destruct (Req_EM_T 1 0); [lra|]. destruct (Req_EM_T (V c 1) 0); [tauto|].
  destruct (Req_EM_T (1 / (1 * Rpower (V c 4) (V c 3))) 0) as [E|_].
  { exfalso. assert (0 < 1 / (1 * Rpower (V c 4) (V c 3))) by (apply Rdiv_lt_0_compat; lra). lra. }
  reflexivity.
Qed.

Hypothesis exact : forall x, pr x = x.

Lemma Rpower_quot : forall s r p, 0 < s -> 0 < r -> Rpower (s / r) p = Rpower s p * Rpower r (- p).
Proof.
  intros s r p S R. unfold Rdiv. rewrite <- Rpower_mult_distr by (auto; apply Rinv_0_lt_compat; auto). f_equal.
  unfold Rpower. rewrite ln_Rinv by auto. f_equal. ring.
Qed.

Theorem sw_two_body : forall file i j, write_sw pow0 pr V n lam = Some file ->
  (i < n)%nat -> (j < n)%nat -> sw_good (col n i j) ->
  exists e, sw_of (lookup file i j j) = Some e /\ forall r, 0 < r -> sw_phi2 e r = sw_v2 pow0 V (col n i j) r.
Proof.
  intros file i j W Li Lj G. exists (sw_exported i j j). split; [apply sw_entry_ok; auto|]. intros r Hr. destruct G as [D B].
  unfold sw_phi2, sw_v2, sw_exported. cbv zeta. cbn [l_a l_sigma l_A l_eps l_B l_p l_q]. rewrite !exact. set (c := col n i j) in *.
  replace (V c 5%nat / V c 4%nat * V c 4%nat) with (V c 5%nat) by (field; lra).
  destruct (Rlt_dec r (V c 5)) as [L|]; auto. unfold cpow. destruct (Rlt_dec 0 r); [|tauto].
  rewrite !Rpower_quot by auto. pose proof (Rpower_pos (V c 4) (V c 2)). pose proof (Rpower_pos (V c 4) (V c 3)).
  replace (V c 4%nat / (r - V c 5%nat)) with (V c 4%nat * (1 / (r - V c 5%nat))) by (field; lra).
  f_equal. field. repeat split; lra.
Qed.

(** outside of the window of 0.01 gamma below the cutoff, where the fit sets the factor to zero *)
Definition clear_of (c : nat) (r : R) : Prop :=
  r < V (pcol n + c)%nat 1%nat -> r < V (pcol n + c)%nat 1%nat - V (pcol n + c)%nat 0%nat / 100.
Definition same_cutoff (c : nat) : Prop := V c 5%nat = V (pcol n + c)%nat 1%nat.

Lemma damp_eq : forall i j k r, sw_good (col n i j) -> same_cutoff (col n i j) ->
  sw_damp (sw_exported i j k) r =
  exp (V (pcol n + col n i j)%nat 0%nat * (1 / (r - V (pcol n + col n i j)%nat 1%nat))).
Proof.
  intros i j k r [D B] S. unfold sw_damp, sw_exported. cbv zeta. cbn [l_gamma l_sigma l_a]. rewrite !exact. rewrite <- S.
  set (c := col n i j) in *. f_equal. replace (V c 5%nat / V c 4%nat * V c 4%nat) with (V c 5%nat) by (field; lra).
  unfold Rdiv. rewrite Rmult_1_l. f_equal. field. lra.
Qed.

Lemma cut_eq : forall i j k, sw_good (col n i j) -> same_cutoff (col n i j) ->
  l_a (sw_exported i j k) * l_sigma (sw_exported i j k) = V (pcol n + col n i j)%nat 1%nat.
Proof.
  intros i j k [D B] S. rewrite <- S. unfold sw_exported. cbv zeta. cbn [l_sigma l_a].
  rewrite (exact (V (col n i j) 4%nat)), exact. field. lra.
Qed.
Lemma lam_eq : forall i j k, l_lambda (sw_exported i j k) * l_eps (sw_exported i j k) = lam i j k / 1 * 1.
Proof. intros. unfold sw_exported. cbv zeta. cbn [l_lambda l_eps]. rewrite (exact 1), exact. auto. Qed.
Lemma cos_eq : forall i j k, l_cos0 (sw_exported i j k) = -1 / 3.
Proof. intros. apply exact. Qed.

Theorem sw_three_body : forall file i j k, write_sw pow0 pr V n lam = Some file ->
  (i < n)%nat -> (j < n)%nat -> (k < n)%nat -> sw_good (col n i j) -> sw_good (col n i k) ->
  same_cutoff (col n i j) -> same_cutoff (col n i k) ->
  exists ijk ijj ikk, sw_of (lookup file i j k) = Some ijk /\ sw_of (lookup file i j j) = Some ijj /\ sw_of (lookup file i k k) = Some ikk /\
  forall rj rk c, clear_of (col n i j) rj -> clear_of (col n i k) rk ->
    sw_phi3 ijk ijj ikk rj rk c = sw_v3 V lam n i j k rj rk c.
Proof.
  intros file i j k W Li Lj Lk Gj Gk Sj Sk. exists (sw_exported i j k), (sw_exported i j j), (sw_exported i k k).
  do 3 (split; [apply sw_entry_ok; auto|]). intros rj rk x Cj Ck. unfold sw_phi3. rewrite !damp_eq by auto.
  rewrite !cut_eq, !lam_eq, !cos_eq by auto. unfold sw_v3. cbv zeta.
  unfold clear_of in *. unfold sw_f.
  destruct (Rlt_dec rj _) as [Lj'|]; auto. specialize (Cj Lj').
  destruct (Req_EM_T 0 (lam i j k)) as [Z|_]; destruct (Rlt_dec rk _) as [Lk'|]; auto; [rewrite <- Z; lra|]. specialize (Ck Lk').
  destruct (Rlt_dec (rj - _) _); [|exfalso; lra]. destruct (Rlt_dec (rk - _) _); [|exfalso; lra].
  replace (x - -1 / 3) with (x + 1 / 3) by lra. field; lra.
Qed.

(** inside of the window the two differ by at most exp(-100) of the angular factor *)
Lemma in_window : forall g t, 0 < g -> t < 0 -> - (1 / 100) * g <= t -> exp (g * (1 / t)) <= exp (-100).
Proof.
  intros g t G T L. assert (E : g * (1 / t) <= -100).
  { replace (g * (1 / t)) with (- (g / - t)) by (field; lra). assert (100 <= g / - t); [|lra].
    apply Rmult_le_reg_r with (- t); [lra|]. replace (g / - t * - t) with g by (field; lra). lra. }
  destruct (Rle_lt_or_eq_dec _ _ E) as [Q| ->]; [left; apply exp_increasing; auto|right; auto].
Qed.
Lemma damp_le_1 : forall g t, 0 < g -> t < 0 -> exp (g * (1 / t)) <= 1.
Proof.
  intros g t G T. apply Rle_trans with (exp 0); [|rewrite exp_0; lra]. left. apply exp_increasing.
  replace (g * (1 / t)) with (- (g / - t)) by (field; lra). assert (0 < g / - t) by (apply Rdiv_lt_0_compat; lra). lra.
Qed.

Theorem sw_three_body_close : forall file i j k, write_sw pow0 pr V n lam = Some file ->
  (i < n)%nat -> (j < n)%nat -> (k < n)%nat -> sw_good (col n i j) -> sw_good (col n i k) ->
  same_cutoff (col n i j) -> same_cutoff (col n i k) ->
  0 < V (pcol n + col n i j)%nat 0%nat -> 0 < V (pcol n + col n i k)%nat 0%nat ->
  exists ijk ijj ikk, sw_of (lookup file i j k) = Some ijk /\ sw_of (lookup file i j j) = Some ijj /\ sw_of (lookup file i k k) = Some ikk /\
  forall rj rk c, Rabs (sw_phi3 ijk ijj ikk rj rk c - sw_v3 V lam n i j k rj rk c) <= Rabs (lam i j k) * (c + 1 / 3) ^ 2 * exp (-100).
Proof.
  intros file i j k W Li Lj Lk Gj Gk Sj Sk Pj Pk. exists (sw_exported i j k), (sw_exported i j j), (sw_exported i k k).
  do 3 (split; [apply sw_entry_ok; auto|]). intros rj rk x. unfold sw_phi3. rewrite !damp_eq by auto.
  rewrite !cut_eq, !lam_eq, !cos_eq by auto. unfold sw_v3, sw_f. cbv zeta.
  replace (x - -1 / 3) with (x + 1 / 3) by lra. set (X := x + 1 / 3). set (L := lam i j k).
  set (gj := V (pcol n + col n i j)%nat 0%nat) in *. set (gk := V (pcol n + col n i k)%nat 0%nat) in *.
  set (aj := V (pcol n + col n i j)%nat 1%nat). set (ak := V (pcol n + col n i k)%nat 1%nat).
  assert (X2 : 0 <= X ^ 2) by apply pow2_ge_0. assert (LX : 0 <= Rabs L * X ^ 2) by (apply Rmult_le_pos; auto; apply Rabs_pos).
  pose proof (exp_pos (-100)) as EP.
  assert (B0 : 0 <= Rabs L * X ^ 2 * exp (-100)) by (apply Rmult_le_pos; lra).
  assert (Z0 : Rabs (0 - 0) <= Rabs L * X ^ 2 * exp (-100)) by (rewrite Rminus_diag_eq by auto; rewrite Rabs_R0; auto).
  destruct (Rlt_dec rj aj) as [Lj'|]; auto.
  destruct (Req_EM_T 0 L) as [Z|_].
  { destruct (Rlt_dec rk ak); auto. rewrite <- Z. replace (0 / 1 * 1 * X ^ 2 * exp (gj * (1 / (rj - aj))) * exp (gk * (1 / (rk - ak))) - 0) with 0 by lra.
    rewrite Rabs_R0. rewrite Rmult_0_l, Rmult_0_l. lra. }
  destruct (Rlt_dec rk ak) as [Lk'|]; auto.
  set (ej := exp (gj * (1 / (rj - aj)))). set (ek := exp (gk * (1 / (rk - ak)))).
  assert (Ej : 0 < ej) by apply exp_pos. assert (Ek : 0 < ek) by apply exp_pos.
  assert (Ej1 : ej <= 1) by (apply damp_le_1; lra). assert (Ek1 : ek <= 1) by (apply damp_le_1; lra).
  assert (M : forall y, 0 <= y <= exp (-100) -> Rabs (L * X ^ 2 * y) <= Rabs L * X ^ 2 * exp (-100)).
  { intros y Y. rewrite !Rabs_mult. rewrite (Rabs_pos_eq (X ^ 2)), (Rabs_pos_eq y) by lra. apply Rmult_le_compat_l; lra. }
  destruct (Rlt_dec (rj - aj) _) as [|Nj].
  - destruct (Rlt_dec (rk - ak) _) as [|Nk].
    + match goal with |- Rabs ?y <= _ => replace y with 0 by (unfold X; field) end. rewrite Rabs_R0. auto.
    + assert (ek <= exp (-100)) by (apply in_window; lra).
      match goal with |- Rabs ?y <= _ => replace y with (L * X ^ 2 * (ej * ek)) by field end. apply M. split; [apply Rmult_le_pos; lra|].
      apply Rle_trans with (1 * ek); [apply Rmult_le_compat_r; lra|lra].
  - assert (ej <= exp (-100)) by (apply in_window; lra).
    match goal with |- Rabs ?y <= _ => replace y with (L * X ^ 2 * (ej * ek)) by (destruct (Rlt_dec (rk - ak) _); field) end.
    apply M. split; [apply Rmult_le_pos; lra|]. apply Rle_trans with (ej * 1); [apply Rmult_le_compat_l; lra|lra].
Qed.
End SW.
