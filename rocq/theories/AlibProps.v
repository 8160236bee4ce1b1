(** C140-C144: the library of analytic functions. *)
From Coq Require Import Reals List Arith ZArith Bool String Lia Lra.
From Verif Require Import AlibModel AlibProof AlibProof2 AlibProof3 AlibSpec AlibProof4 FuncModel.
Import ListNotations.
Local Open Scope R_scope.

(** C140.  The table of functions is made without an error in every build; a name gives the
    number of parameters and the function of its line in the list, any other name -1. *)
Theorem C140_table : forall b, exists t, initialize_analytic_potentials b = Some t /\
  (forall name k f, In (name, k, f) (function_list b) -> apot_get_num_parameters t name = Z.of_nat k /\ function_pointer t name = Some f) /\
  (forall name, ~ In name (map (fun e => fst (fst e)) (function_list b)) -> apot_get_num_parameters t name = (-1)%Z /\ function_pointer t name = None).
Proof. exact table_lookup. Qed.
Print Assumptions C140_table.
Theorem C140_assigned : forall b ns fs, assign_pointers (function_list b) ns = Some fs <->
  Forall2 (fun n f => exists k, In (n, k, f) (function_list b)) ns fs.
Proof. exact assigned. Qed.
Print Assumptions C140_assigned.
(** A function looks at no parameter beyond the number in its line. *)
Theorem C140_parameters : forall pw dp_cut b name k f, In (name, k, f) (function_list b) ->
  forall r p q, (forall i, (i < k)%nat -> p i = q i) ->
  avalue pw (FuncModel.ms_value dp_cut) (FuncModel.buck_value dp_cut) f r p = avalue pw (FuncModel.ms_value dp_cut) (FuncModel.buck_value dp_cut) f r q.
Proof. exact only_declared_all. Qed.
Print Assumptions C140_parameters.
(** Every name belongs to the function and the number of parameters of the documentation, *)
Theorem C140_named : forall b name k f, In (name, k, f) (function_list b) ->
  k = snd (documented (ntypes b) f) /\
  (name = fst (documented (ntypes b) f) \/ COULOMB b = true /\ without_charges f = Some name).
Proof. exact table_named. Qed.
Print Assumptions C140_named.
(** and every function of the build has a name. *)
Theorem C140_complete : forall b f,
  (match f with AlibModel.Stiweb2 | AlibModel.Stiweb3 | AlibModel.Lambda => STIWEB b = true
              | AlibModel.TersoffPot | AlibModel.TersoffMix => TERSOFF b = true /\ TERSOFFMOD b = false
              | AlibModel.TersoffModPot => TERSOFF b = true /\ TERSOFFMOD b = true
              | AlibModel.MsEs | AlibModel.BuckEs => COULOMB b = true | _ => True end) ->
  exists name k, In (name, k, f) (function_list b).
Proof. exact table_complete. Qed.
Print Assumptions C140_complete.
Example C140_ex : In ("gljm"%string, 12%nat, Gljm) (function_list (mk_abuild false false false false 2)) /\
  In ("lambda"%string, 6%nat, Lambda) (function_list (mk_abuild false true false false 2)) /\
  apot_get_num_parameters (function_list (mk_abuild true false false false 1)) "ms_non_es" = 3%Z /\
  apot_get_num_parameters (function_list (mk_abuild false false false false 1)) "ms_non_es" = (-1)%Z.
Proof. repeat split; try (vm_compute; reflexivity); vm_compute; tauto. Qed.

(** C141.  Relations between the functions. *)
Theorem C141_relations : forall pw, (forall x y, 0 < x -> pw x y = Rpower x y) ->
  (forall r p, gljm_value pw r p = gen_lj_value pw r p + p 5%nat * mishin_value pw r (fun i => p (6 + i)%nat)) /\
  (forall r p, kawamura_mix_value r p = kawamura_value r p + morse_value r (arr_of [p 2%nat * p 9%nat; p 10%nat; p 11%nat])) /\
  (forall r p, r <> 0 -> kawamura_value r p = p 0%nat * p 1%nat / r +
     born_value r (arr_of [p 2%nat * (p 5%nat + p 6%nat); p 5%nat + p 6%nat; p 3%nat + p 4%nat; p 7%nat * p 8%nat; 0])) /\
  (forall r p, double_morse_value r p = morse_value r p + morse_value r (fun i => p (3 + i)%nat) + p 6%nat) /\
  (forall r p, p 6%nat = 0 -> meopp_value pw r p = eopp_value pw r p) /\
  (forall r p, eopp_value pw r p = power_decay_value pw r p + power_decay_value pw r (fun i => p (2 + i)%nat) * cos (p 4%nat * r + p 5%nat)) /\
  (forall r p, eopp_exp_value pw r p = exp_decay_value r p + power_decay_value pw r (fun i => p (2 + i)%nat) * cos (p 4%nat * r + p 5%nat)) /\
  (forall r a k phi n, csw2_value pw r (arr_of [a; k; phi; n]) = csw_value pw r (arr_of [a * cos phi; - (a * sin phi); k; n])) /\
  (forall r p, exp_plus_value r p = exp_decay_value r p + p 2%nat) /\
  (forall r a b c, mexp_decay_value r (arr_of [a; b; c]) = exp_decay_value r (arr_of [a * exp (b * c); b])) /\
  (forall r a n, 0 < r -> power_decay_value pw r (arr_of [a; n]) = power_value pw r (arr_of [a; - n])) /\
  (forall r a n, 0 < r -> 0 < a -> softshell_value pw r (arr_of [a; n]) = power_decay_value pw r (arr_of [pw a n; n])) /\
  (forall r eps sg, 0 < r -> 0 < sg -> lj_value r (arr_of [eps; sg]) = gen_lj_value pw r (arr_of [- eps; 12; 6; Rpower 2 (1 / 6) * sg; 0])) /\
  (forall r a b c, c <> 0 -> AlibModel.ms_value r (arr_of [a; b; c]) = morse_value r (arr_of [a; b / (2 * c); c])) /\
  (forall r p, 0 < r -> stiweb_2_value pw r p = (power_decay_value pw r (arr_of [p 0%nat; p 2%nat]) - power_decay_value pw r (arr_of [p 1%nat; p 3%nat])) * vas_value r (fun i => p (4 + i)%nat)) /\
  (forall r p, stiweb_3_value r p = vas_value r p) /\
  (forall r p, sheng_F_value pw r p = power_value pw r p + p 2%nat * r + p 3%nat) /\
  (forall r p, sheng_rho_value pw r p = if Rlt_dec (145 / 100) r then lj_value r (fun i => p (3 + i)%nat) else power_value pw r p + p 2%nat) /\
  (forall r a b, harmonic_value r (arr_of [a; b]) = parabola_value r (arr_of [a; - 2 * a * b; a * b * b])) /\
  (forall t p, 0 <= t <= PI -> acosharmonic_value (cos t) p = harmonic_value t p) /\
  (forall r a b c, r <> 0 -> AlibModel.buck_value r (arr_of [a; b; c]) = born_value r (arr_of [a; b; 0; c * b ^ 6; 0])) /\
  (forall r a, const_value r (arr_of [a]) = parabola_value r (arr_of [0; 0; a])) /\
  (forall r a b, 0 < r -> 0 < b -> sqrt_value r (arr_of [a; b]) = power_value pw r (arr_of [a / sqrt b; 1 / 2])) /\
  (forall r p, strmm_value r p = 2 * mexp_decay_value r (arr_of [p 0%nat; p 1%nat / 2; p 4%nat]) -
     p 2%nat * (1 + p 3%nat * (r - p 4%nat)) * mexp_decay_value r (arr_of [1; p 3%nat; p 4%nat])) /\
  (forall r p, 0 < r -> vpair_value pw r p = 144 / 10 * (power_decay_value pw r p -
     exp_decay_value r (arr_of [(p 4%nat * (p 3%nat) ^ 2 + p 5%nat * (p 2%nat) ^ 2 / r ^ 4) / 2; / p 6%nat]))) /\
  (forall r p, sheng_phi1_value r p = p 0%nat * exp (- p 1%nat * r ^ 2) + p 2%nat * exp (- p 3%nat * (r - p 4%nat) ^ 2)) /\
  (forall r p, sheng_phi2_value r p = p 0%nat * exp (- p 1%nat * r ^ 2) + p 2%nat / (p 2%nat ^ 2 + (r - p 3%nat) ^ 2)) /\
  (forall r p, double_exp_value r p = p 0%nat * exp (- p 1%nat * (r - p 2%nat) ^ 2) + mexp_decay_value r (arr_of [1; p 3%nat; p 4%nat])).
Proof. exact relations. Qed.
Print Assumptions C141_relations.
Example C141_ex : (forall x y, 0 < x -> Rpower x y = Rpower x y) /\ meopp_value Rpower 1 (arr_of [1; 2; 3; 4; 0; 0; 0]) = 4.
Proof.
  split; [auto|]. unfold meopp_value, arr_of; cbn [nth]. assert (P1 : forall a, Rpower 1 a = 1) by (intros; unfold Rpower; rewrite ln_1, Rmult_0_r, exp_0; auto).
  replace (1 - 0) with 1 by ring. rewrite !P1. replace (0 * 1 + 0) with 0 by ring. rewrite cos_0. field.
Qed.

(** C142.  Minima, zeros and reference points. *)
Theorem C142_lj : forall r eps sg, r <> 0 -> 0 < eps ->
  - eps <= lj_value r (arr_of [eps; sg]) /\ (lj_value r (arr_of [eps; sg]) = - eps <-> r ^ 6 = 2 * sg ^ 6) /\
  (sg <> 0 -> (lj_value r (arr_of [eps; sg]) = 0 <-> r ^ 2 = sg ^ 2)).
Proof. exact lj_min. Qed.
Print Assumptions C142_lj.
Theorem C142_morse : forall r d a r0, 0 < d -> a <> 0 ->
  - d <= morse_value r (arr_of [d; a; r0]) /\ (morse_value r (arr_of [d; a; r0]) = - d <-> r = r0).
Proof. exact morse_min. Qed.
Print Assumptions C142_morse.
Theorem C142_universal : forall f n m k, m <> n -> let p := arr_of [f; n; m; k] in
  universal_value Rpower 1 p = f + k /\ derivable_pt_lim (fun r => universal_value Rpower r p) 1 k.
Proof. exact universal_one. Qed.
Print Assumptions C142_universal.
Theorem C142_gen_lj : forall v n m r0 w, 0 < r0 -> m <> n -> let p := arr_of [v; n; m; r0; w] in
  gen_lj_value Rpower r0 p = v + w /\ derivable_pt_lim (fun r => gen_lj_value Rpower r p) r0 0.
Proof. exact gen_lj_ref. Qed.
Print Assumptions C142_gen_lj.
Theorem C142_poly_5 : forall p r, poly_5_value 1 p = p 0%nat /\
  derivable_pt_lim (fun r => poly_5_value r p) r (p 1%nat * (r - 1) + 3 * p 2%nat * (r - 1) ^ 2 + 4 * p 3%nat * (r - 1) ^ 3 + 5 * p 4%nat * (r - 1) ^ 4).
Proof. exact poly_5_slope. Qed.
Print Assumptions C142_poly_5.
Theorem C142_bjs : forall f g k, let p := arr_of [f; g; k] in
  bjs_value Rpower 0 p = 0 /\ bjs_value Rpower 1 p = f + k /\ derivable_pt_lim (fun r => bjs_value Rpower r p) 1 k.
Proof. exact bjs_one. Qed.
Print Assumptions C142_bjs.
(** the value set for density zero is the limit *)
Theorem C142_bjs_zero : forall f g k, 0 < g -> forall eps, 0 < eps -> exists d, 0 < d /\
  forall r, 0 <= r < d -> Rabs (bjs_value Rpower r (arr_of [f; g; k])) < eps.
Proof. exact bjs_zero. Qed.
Print Assumptions C142_bjs_zero.
(** The bond function of Vashishta and of Stillinger and Weber falls to zero at its radius, *)
Theorem C142_vas : forall g c, 0 < g -> (forall r, r < c -> 0 < vas_value r (arr_of [g; c]) < 1) /\
  forall eps, 0 < eps -> exists d, 0 < d /\ forall r, c - d < r < c -> vas_value r (arr_of [g; c]) < eps.
Proof. exact (fun g c H => conj (fun r => vas_range r g c H) (vas_limit g c H)). Qed.
Print Assumptions C142_vas.
(** but it is not zero beyond. *)
Theorem C142_vas_refuted : exists r p, 0 < p 0%nat /\ p 1%nat < r /\ 1 < vas_value r p.
Proof. exact vas_beyond_ex. Qed.
Print Assumptions C142_vas_refuted.
(** The density of Sheng jumps at 1.45. *)
Theorem C142_sheng_rho_refuted : forall pw, exists p, sheng_rho_value pw (145 / 100) p = 1 /\ forall r, 145 / 100 < r -> sheng_rho_value pw r p = 0.
Proof. exact sheng_rho_jump. Qed.
Print Assumptions C142_sheng_rho_refuted.
Example C142_ex : lj_value 1 (arr_of [1; 1]) = 0 /\ morse_value 2 (arr_of [3; 1; 2]) = - 3.
Proof.
  split; [unfold lj_value, arr_of; cbn [nth]; field|]. unfold morse_value, arr_of; cbn [nth]. replace (- (2) * 1 * (2 - 2)) with 0 by ring.
  replace (- (1) * (2 - 2)) with 0 by ring. rewrite exp_0. ring.
Qed.

(** C143.  apot_gradient: exact for parabolas; for a function with a third derivative of at
    most M the error is at most M h^2 / 6 with h = 0.0001. *)
Theorem C143_parabola : forall r p, apot_gradient r (fun x => parabola_value x p) = 2 * p 0%nat * r + p 1%nat.
Proof. exact gradient_parabola. Qed.
Print Assumptions C143_parabola.
Theorem C143_bound : forall (f f1 f2 f3 : R -> R) r M,
  (forall x, r - 1 / 10000 <= x <= r + 1 / 10000 -> derivable_pt_lim f x (f1 x) /\ derivable_pt_lim f1 x (f2 x) /\ derivable_pt_lim f2 x (f3 x) /\ Rabs (f3 x) <= M) ->
  Rabs (apot_gradient r f - f1 r) <= M * (1 / 10000) ^ 2 / 6.
Proof. exact gradient_bound. Qed.
Print Assumptions C143_bound.
Example C143_ex : forall x, derivable_pt_lim (fun x => x ^ 3) x (INR 3 * x ^ 2) /\ apot_gradient 1 (fun x => x ^ 3) = 3 + (1 / 10000) ^ 2.
Proof. intros x. split; [apply (derivable_pt_lim_pow x 3)|]. unfold apot_gradient. field. Qed.

(** C144.  The punishment for eopp (universal) is used for the functions whose name starts
    like that: eopp and eopp_exp (universal). *)
Theorem C144_names : forall b ns, (forall n, In n ns -> In n (map (fun e => fst (fst e)) (function_list b))) ->
  let r := punish_indices ns 0 [] [] in
  (forall k, In k (fst r) <-> nth_error ns k = Some "eopp"%string \/ nth_error ns k = Some "eopp_exp"%string) /\
  (forall k, In k (snd r) <-> nth_error ns k = Some "universal"%string).
Proof. exact punish_names. Qed.
Print Assumptions C144_names.
(** For eopp_exp it compares a decay constant with an exponent: a potential inside its bounds
    is punished. *)
Theorem C144_eopp_exp_refuted : exists params : nat -> R, let l := punish_indices ["eopp_exp"%string] 0 [] [] in
  (forall i, (i < 6)%nat -> 0 <= params i <= 10) /\
  psum (apot_punish 6 (fun i => i) (fun _ => 0) (fun _ => 10) 0 0 1 (fun _ => 0%nat) (fst l) (snd l) params (fun _ => 0)) = 9 /\
  eopp_exp_value Rpower 1 params = exp (- params 1%nat) + cos 0.
Proof. exact punish_eopp_exp. Qed.
Print Assumptions C144_eopp_exp_refuted.
Example C144_ex : punish_indices ["lj"; "eopp"; "universal"; "meopp"; "eopp_exp"]%string 0 [] [] = ([1; 4], [2])%nat.
Proof. vm_compute. reflexivity. Qed.
