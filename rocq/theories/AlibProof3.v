(** The library of analytic functions: statements of the theorems. *)
From Coq Require Import Reals List Arith ZArith Bool String Lia Lra.
From Verif Require Import LoopUtil AlibModel AlibProof AlibProof2 FuncModel.
Import ListNotations.
Local Open Scope R_scope.

Theorem only_declared_all : forall pw dp_cut b name k f, In (name, k, f) (function_list b) ->
  forall r p q, (forall i, (i < k)%nat -> p i = q i) ->
  avalue pw (FuncModel.ms_value dp_cut) (FuncModel.buck_value dp_cut) f r p = avalue pw (FuncModel.ms_value dp_cut) (FuncModel.buck_value dp_cut) f r q.
Proof.
  intros pw dp b name k f I. apply (only_declared pw (FuncModel.ms_value dp) (FuncModel.buck_value dp)) with (b := b); [| |exists name; auto].
  - intros r p q H. unfold FuncModel.ms_value, FuncModel.ms_init. rewrite !(H 0%nat), !(H 1%nat), !(H 2%nat) by lia. auto.
  - intros r p q H. unfold FuncModel.buck_value, FuncModel.buck_init. rewrite !(H 0%nat), !(H 1%nat), !(H 2%nat) by lia. auto.
Qed.

Theorem punish_names : forall b ns, (forall n, In n ns -> In n (map (fun e => fst (fst e)) (function_list b))) ->
  let r := punish_indices ns 0 [] [] in
  (forall k, In k (fst r) <-> nth_error ns k = Some "eopp"%string \/ nth_error ns k = Some "eopp_exp"%string) /\
  (forall k, In k (snd r) <-> nth_error ns k = Some "universal"%string).
Proof.
  intros b ns H. cbv zeta. destruct (punish_spec ns 0 [] []) as [A B]. cbv zeta in A, B. rewrite A, B. cbn [app].
  assert (N : forall n, In n ns -> (starts "eopp" n = true <-> n = "eopp"%string \/ n = "eopp_exp"%string) /\
    ((starts "universal" n && negb (starts "eopp" n))%bool = true <-> n = "universal"%string)).
  { intros n I. apply H in I. destruct b as [c s t m nt].
    assert (E : forall l : list string, Forall (fun n => (starts "eopp" n = (String.eqb n "eopp" || String.eqb n "eopp_exp") /\ (starts "universal" n && negb (starts "eopp" n)) = String.eqb n "universal")%bool) l ->
      In n l -> (starts "eopp" n = true <-> n = "eopp"%string \/ n = "eopp_exp"%string) /\ ((starts "universal" n && negb (starts "eopp" n))%bool = true <-> n = "universal"%string)).
    { intros l F J. rewrite Forall_forall in F. destruct (F n J) as [-> ->]. rewrite orb_true_iff, !String.eqb_eq. tauto. }
    revert I. apply E. destruct c, s, t, m; unfold function_list; cbn [COULOMB STIWEB TERSOFF TERSOFFMOD app map fst snd]; repeat (constructor; [split; vm_compute; reflexivity|]); constructor. }
  assert (NE : forall k x, nth_error ns k = Some x <-> (k < List.length ns)%nat /\ nth k ns ""%string = x).
  { intros k x. split.
    - intros E. split; [apply nth_error_Some; congruence|]. apply nth_error_nth. auto.
    - intros [L <-]. apply nth_error_nth'. auto. }
  split; intros k; rewrite filter_In, in_seq, Nat.sub_0_r.
  - split.
    + intros [[_ L] S]. assert (I : In (nth k ns ""%string) ns) by (apply nth_In; lia). apply (N _ I) in S. destruct S as [S|S]; [left|right]; apply NE; split; auto; lia.
    + intros Q. assert (L : (k < List.length ns)%nat) by (destruct Q as [Q|Q]; apply NE in Q; lia). split; [lia|].
      apply N; [apply nth_In; lia|]. destruct Q as [Q|Q]; apply NE in Q; destruct Q as [_ Q]; auto.
  - split.
    + intros [[_ L] S]. assert (I : In (nth k ns ""%string) ns) by (apply nth_In; lia). apply (N _ I) in S. apply NE; split; auto; lia.
    + intros Q. apply NE in Q. destruct Q as [L Q]. split; [lia|]. apply N; [apply nth_In; lia|auto].
Qed.
(** an eopp_exp potential inside its bounds is punished: its decay constant is below its exponent *)
Theorem punish_eopp_exp : exists params : nat -> R, let l := punish_indices ["eopp_exp"%string] 0 [] [] in
  (forall i, (i < 6)%nat -> 0 <= params i <= 10) /\
  psum (apot_punish 6 (fun i => i) (fun _ => 0) (fun _ => 10) 0 0 1 (fun _ => 0%nat) (fst l) (snd l) params (fun _ => 0)) = 9 /\
  eopp_exp_value Rpower 1 params = exp (- params 1%nat) + cos 0.
Proof.
  exists (arr_of [1; 1; 1; 5; 0; 0]). assert (IB : forall i, (i < 6)%nat -> 0 <= arr_of [1; 1; 1; 5; 0; 0] i <= 10).
  { intros i H. do 6 (destruct i as [|i]; [unfold arr_of; cbn [nth]; lra|]). lia. }
  split; [exact IB|]. split.
  - change (punish_indices ["eopp_exp"%string] 0 [] []) with ([0%nat], @nil nat). cbn [fst snd]. unfold apot_punish.
    assert (Z : for_up 0 6 (punish_bounds (fun i => i) (fun _ => 0) (fun _ => 10) 0 (arr_of [1; 1; 1; 5; 0; 0])) (mk_punished 0 (fun _ => 0) false) = mk_punished 0 (fun _ => 0) false).
    { apply (for_up_inv (fun _ s => s = mk_punished 0 (fun _ => 0) false)); [lia|auto|]. intros i t Hi ->. pose proof (IB i ltac:(lia)) as [B1 B2]. unfold punish_bounds.
      destruct (Rlt_dec _ 0); [exfalso; lra|]. destruct (Rlt_dec 10 _); [exfalso; lra|]. auto. }
    rewrite Z. unfold punish_eopp, arr_of. cbn [fold_left Nat.add nth].
    destruct (Rlt_dec (1 - 5) 0); [cbn [psum]; lra|exfalso; lra].
  - unfold eopp_exp_value, arr_of; cbn [nth]. assert (P1 : forall a, Rpower 1 a = 1) by (intros; unfold Rpower; rewrite ln_1, Rmult_0_r, exp_0; auto).
    rewrite P1. replace (0 * 1 + 0) with 0 by ring. replace (- (1) * 1) with (- (1)) by ring. field.
Qed.

(** all relations *)
Theorem relations : forall pw, (forall x y, 0 < x -> pw x y = Rpower x y) ->
  (forall r p, gljm_value pw r p = gen_lj_value pw r p + p 5%nat * mishin_value pw r (fun i => p (6 + i)%nat)) /\
  (forall r p, kawamura_mix_value r p = kawamura_value r p + morse_value r (arr_of [p 2%nat * p 9%nat; p 10%nat; p 11%nat])) /\
  (forall r p, r <> 0 -> kawamura_value r p = p 0%nat * p 1%nat / r +
     born_value r (arr_of [p 2%nat * (p 5%nat + p 6%nat); p 5%nat + p 6%nat; p 3%nat + p 4%nat; p 7%nat * p 8%nat; 0])) /\
  (forall r p, double_morse_value r p = morse_value r p + morse_value r (fun i => p (3 + i)%nat) + p 6%nat) /\
  (forall r p, p 6%nat = 0 -> meopp_value pw r p = eopp_value pw r p) /\
  (forall r p, eopp_value pw r p = power_decay_value pw r p + power_decay_value pw r (fun i => p (2 + i)%nat) * cos (p 4%nat * r + p 5%nat)) /\
  (forall r p, eopp_exp_value pw r p = exp_decay_value r p + power_decay_value pw r (fun i => p (2 + i)%nat) * cos (p 4%nat * r + p 5%nat)) /\
  (forall r a k phi n, csw2_value pw r (arr_of [a; k; phi; n]) = csw_value pw r (arr_of [a * cos phi; - (a * sin phi); k; n])) /\
  (forall r p, exp_plus_value r p = exp_decay_value r p + p 2%nat) /\
  (forall r a b c, mexp_decay_value r (arr_of [a; b; c]) = exp_decay_value r (arr_of [a * exp (b * c); b])) /\
  (forall r a n, 0 < r -> power_decay_value pw r (arr_of [a; n]) = power_value pw r (arr_of [a; - n])) /\
  (forall r a n, 0 < r -> 0 < a -> softshell_value pw r (arr_of [a; n]) = power_decay_value pw r (arr_of [pw a n; n])) /\
  (forall r eps sg, 0 < r -> 0 < sg -> lj_value r (arr_of [eps; sg]) = gen_lj_value pw r (arr_of [- eps; 12; 6; Rpower 2 (1 / 6) * sg; 0])) /\
  (forall r a b c, c <> 0 -> AlibModel.ms_value r (arr_of [a; b; c]) = morse_value r (arr_of [a; b / (2 * c); c])) /\
  (forall r p, 0 < r -> stiweb_2_value pw r p = (power_decay_value pw r (arr_of [p 0%nat; p 2%nat]) - power_decay_value pw r (arr_of [p 1%nat; p 3%nat])) * vas_value r (fun i => p (4 + i)%nat)) /\
  (forall r p, stiweb_3_value r p = vas_value r p) /\
  (forall r p, sheng_F_value pw r p = power_value pw r p + p 2%nat * r + p 3%nat) /\
  (forall r p, sheng_rho_value pw r p = if Rlt_dec (145 / 100) r then lj_value r (fun i => p (3 + i)%nat) else power_value pw r p + p 2%nat) /\
  (forall r a b, harmonic_value r (arr_of [a; b]) = parabola_value r (arr_of [a; - 2 * a * b; a * b * b])) /\
  (forall t p, 0 <= t <= PI -> acosharmonic_value (cos t) p = harmonic_value t p) /\
  (forall r a b c, r <> 0 -> AlibModel.buck_value r (arr_of [a; b; c]) = born_value r (arr_of [a; b; 0; c * b ^ 6; 0])) /\
  (forall r a, const_value r (arr_of [a]) = parabola_value r (arr_of [0; 0; a])) /\
  (forall r a b, 0 < r -> 0 < b -> sqrt_value r (arr_of [a; b]) = power_value pw r (arr_of [a / sqrt b; 1 / 2])) /\
  (forall r p, strmm_value r p = 2 * mexp_decay_value r (arr_of [p 0%nat; p 1%nat / 2; p 4%nat]) -
     p 2%nat * (1 + p 3%nat * (r - p 4%nat)) * mexp_decay_value r (arr_of [1; p 3%nat; p 4%nat])) /\
  (forall r p, 0 < r -> vpair_value pw r p = 144 / 10 * (power_decay_value pw r p -
     exp_decay_value r (arr_of [(p 4%nat * (p 3%nat) ^ 2 + p 5%nat * (p 2%nat) ^ 2 / r ^ 4) / 2; / p 6%nat]))) /\
  (forall r p, sheng_phi1_value r p = p 0%nat * exp (- p 1%nat * r ^ 2) + p 2%nat * exp (- p 3%nat * (r - p 4%nat) ^ 2)) /\
  (forall r p, sheng_phi2_value r p = p 0%nat * exp (- p 1%nat * r ^ 2) + p 2%nat / (p 2%nat ^ 2 + (r - p 3%nat) ^ 2)) /\
  (forall r p, double_exp_value r p = p 0%nat * exp (- p 1%nat * (r - p 2%nat) ^ 2) + mexp_decay_value r (arr_of [1; p 3%nat; p 4%nat])).
Proof.
  intros pw PW.
  repeat match goal with |- _ /\ _ => split end.
  - apply r_gljm. - apply r_kawamura_mix. - apply r_kawamura. - apply r_double_morse. - apply r_meopp. - apply r_eopp. - apply r_eopp_exp. - apply r_csw2.
  - apply r_exp_plus. - apply r_mexp_decay. - apply r_power_decay; auto. - apply r_softshell; auto. - apply r_lj; auto. - apply r_ms. - apply r_stiweb_2; auto.
  - apply r_stiweb_3. - apply r_sheng_F. - apply r_sheng_rho. - apply r_harmonic. - apply r_acosharmonic. - apply r_buck. - apply r_const. - apply r_sqrt; auto.
  - apply r_strmm. - apply r_vpair. - apply r_sheng_phi1. - apply r_sheng_phi2. - apply r_double_exp.
Qed.
