(** 17 significant digits identify a double precision number. *)
From Coq Require Import ZArith QArith Qabs Qpower Qcanon Lia Lqa.
From Verif Require Import TabSpec.
Open Scope Q_scope.

Lemma pow_pos : forall b e, 0 < b -> 0 < Qpower b e.
Proof. intros b e H. apply Qpower_0_lt. exact H. Qed.
Lemma pow_plus : forall b a c, 0 < b -> Qpower b (a + c) == Qpower b a * Qpower b c.
Proof. intros b a c H. apply Qpower_plus. intro E. rewrite E in H. discriminate. Qed.
Lemma pow_Z : forall b e, (0 <= e)%Z -> Qpower (inject_Z b) e == inject_Z (b ^ e).
Proof. intros. rewrite Qpower.Zpower_Qpower by assumption. reflexivity. Qed.

Lemma gap_int : forall m m' : Z, m <> m' -> 1 <= Qabs (inject_Z m - inject_Z m').
Proof.
  intros m m' D. unfold Qminus. rewrite <- inject_Z_opp, <- inject_Z_plus. 
  change (Qabs (inject_Z (m + - m'))) with (inject_Z (Z.abs (m + - m'))).
  change 1 with (inject_Z 1). rewrite <- Zle_Qle. lia.
Qed.
Lemma big_gap : forall a b c : Q, 0 <= c -> c <= a -> b <= c - 1 -> 0 <= b -> 1 <= c ->
  a <= c * (a - b).
Proof. intros. nra. Qed.

Lemma scale : forall h N g P, 0 < P -> h <= N * g -> h * P <= N * (g * P).
Proof. intros. rewrite Qmult_assoc. apply Qmult_le_compat_r; lra. Qed.

(** Two different binary64 numbers differ by at least |x| / 2^53. *)
Lemma gap : forall x z, binary64 x -> binary64 z -> ~ x == z ->
  Qabs x <= inject_Z (2 ^ 53) * Qabs (x - z).
Proof.
  intros x z [m [e [Hm Ex]]] [m' [e' [Hm' Ez]]] D.
  destruct (Z.le_gt_cases e e') as [L|L].
  - pose proof (pow_pos 2 e eq_refl) as P.
    set (M := (m' * 2 ^ (e' - e))%Z).
    assert (Ez' : z == inject_Z M * Qpower 2 e).
    { rewrite Ez. unfold M. rewrite inject_Z_mult, <- pow_Z by lia.
      replace e' with ((e' - e) + e)%Z at 1 by lia. rewrite pow_plus by reflexivity.
      change (inject_Z 2) with 2. ring. }
    assert (m <> M). { intro E. apply D. rewrite Ex, Ez', E. reflexivity. }
    pose proof (gap_int m M H) as G.
    assert (A : Qabs (x - z) == Qabs (inject_Z m - inject_Z M) * Qpower 2 e).
    { rewrite Ex, Ez'. setoid_replace (inject_Z m * Qpower 2 e - inject_Z M * Qpower 2 e)
        with ((inject_Z m - inject_Z M) * Qpower 2 e) by ring.
      rewrite Qabs_Qmult, (Qabs_pos (Qpower 2 e)) by lra. reflexivity. }
    assert (B : Qabs x == inject_Z (Z.abs m) * Qpower 2 e).
    { rewrite Ex, Qabs_Qmult, (Qabs_pos (Qpower 2 e)) by lra. reflexivity. }
    assert (C : inject_Z (Z.abs m) <= inject_Z (2 ^ 53)) by (rewrite <- Zle_Qle; lia).
    rewrite A, B. set (N := inject_Z (2 ^ 53)) in *. assert (0 <= N) by (unfold N; compute; discriminate).
    set (g := Qabs (inject_Z m - inject_Z M)) in *. apply scale; [exact P|].
    apply (Qle_trans _ N); [exact C|]. clearbody g N. nra.
  - pose proof (pow_pos 2 e' eq_refl) as P.
    set (M := (m * 2 ^ (e - e'))%Z).
    assert (Ex' : x == inject_Z M * Qpower 2 e').
    { rewrite Ex. unfold M. rewrite inject_Z_mult, <- pow_Z by lia.
      replace e with ((e - e') + e')%Z at 1 by lia. rewrite pow_plus by reflexivity.
      change (inject_Z 2) with 2. ring. }
    assert (NE : M <> m'). { intro E. apply D. rewrite Ex', Ez, E. reflexivity. }
    assert (A : Qabs (x - z) == Qabs (inject_Z M - inject_Z m') * Qpower 2 e').
    { rewrite Ex', Ez. setoid_replace (inject_Z M * Qpower 2 e' - inject_Z m' * Qpower 2 e')
        with ((inject_Z M - inject_Z m') * Qpower 2 e') by ring.
      rewrite Qabs_Qmult, (Qabs_pos (Qpower 2 e')) by lra. reflexivity. }
    assert (B : Qabs x == inject_Z (Z.abs M) * Qpower 2 e').
    { rewrite Ex', Qabs_Qmult, (Qabs_pos (Qpower 2 e')) by lra. reflexivity. }
    rewrite A, B.
    assert (K : inject_Z (Z.abs M) <= inject_Z (2 ^ 53) * Qabs (inject_Z M - inject_Z m')).
    { unfold Qminus. rewrite <- inject_Z_opp, <- inject_Z_plus.
      change (Qabs (inject_Z (M + - m'))) with (inject_Z (Z.abs (M + - m'))).
      rewrite <- inject_Z_mult, <- Zle_Qle.
      clear - Hm' NE. change (2 ^ 53)%Z with 9007199254740992%Z in *. clearbody M.
      destruct (Z.le_gt_cases (Z.abs M) 9007199254740992); lia. }
    apply scale; [exact P|exact K].
Qed.

Lemma pow10_16 : forall E, inject_Z (2 ^ 53) * Qpower 10 (E - 16) < Qpower 10 E.
Proof.
  intro E. replace E with ((E - 16) + 16)%Z at 2 by lia. rewrite pow_plus by reflexivity.
  pose proof (pow_pos 10 (E - 16) eq_refl) as P.
  assert (inject_Z (2 ^ 53) < Qpower 10 16) by reflexivity.
  set (a := inject_Z (2 ^ 53)) in *. set (b := Qpower 10 16) in *. clearbody a b. nra.
Qed.

Lemma digits17 : forall x d y, binary64 x -> prints_e 16 x d -> reads d y -> y == x.
Proof.
  intros x d y Bx [[X0 D0]|[E [m [L [U [Dm N]]]]]] [By R].
  - specialize (R x Bx). rewrite D0, X0 in R. 
    setoid_replace (0 - 0) with 0 in R by ring. change (Qabs 0) with 0 in R.
    pose proof (Qabs_nonneg (0 - y)). rewrite X0.
    assert (A : Qabs (0 - y) == 0) by lra.
    apply Qabs_Qle_condition in R. lra.
  - destruct (Qeq_dec x y) as [Q|D]; [symmetry; exact Q|exfalso].
    pose proof (gap x y Bx By D) as G. pose proof (pow10_16 E) as P.
    specialize (R x Bx).
    assert (T : Qabs (x - y) <= Qabs (x - d) + Qabs (d - y)).
    { setoid_replace (x - y) with ((x - d) + (d - y)) by ring. apply Qabs_triangle. }
    rewrite (Qabs_Qminus d x) in R.
    set (u := Qpower 10 (E - 16)) in *. set (N0 := inject_Z (2 ^ 53)) in *.
    assert (0 < N0) by reflexivity. clearbody u N0.
    set (g := Qabs (x - y)) in *. set (r := Qabs (x - d)) in *.
    assert (g <= u) by lra. nra.
Qed.

(** The same for canonical rationals *)
Lemma digits17_c : forall (x d y : Qc), binary64 x -> prints_e 16 x d -> reads d y -> y = x.
Proof. intros. apply Qc_is_canon. eapply digits17; eassumption. Qed.
