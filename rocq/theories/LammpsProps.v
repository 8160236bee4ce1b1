(** C50, C51, C52, C84, C85: LAMMPS export. *)
From Coq Require Import Reals ZArith List Lra Lia.
From Verif Require Import Vec PairIndexModel SplineModel SplineSpec LammpsModel LammpsSpec LammpsProof LammpsProof2 LammpsProof3 LammpsProof4 LammpsProof5.
Import ListNotations.
Local Open Scope R_scope.

(** C50.  The two-body function: for every file written (delta > 0, B not 0). *)
Theorem C50_two_body : forall pow0 V lam n pr, (forall x, pr x = x) -> forall file i j, write_sw pow0 pr V n lam = Some file ->
  (i < n)%nat -> (j < n)%nat -> sw_good V (col n i j) ->
  exists e, sw_of (lookup file i j j) = Some e /\ forall r, 0 < r -> sw_phi2 e r = sw_v2 pow0 V (col n i j) r.
Proof. exact sw_two_body. Qed.
Print Assumptions C50_two_body.
(** The three-body function if a1 = a2 for both pairs, outside of the small window below the
    cutoff where the fit replaces the exponential by zero; inside the difference is at most
    exp(-100) of the angular factor. *)
Theorem C50_three_body : forall pow0 V lam n pr, (forall x, pr x = x) -> forall file i j k, write_sw pow0 pr V n lam = Some file ->
  (i < n)%nat -> (j < n)%nat -> (k < n)%nat -> sw_good V (col n i j) -> sw_good V (col n i k) ->
  same_cutoff V n (col n i j) -> same_cutoff V n (col n i k) ->
  exists ijk ijj ikk, sw_of (lookup file i j k) = Some ijk /\ sw_of (lookup file i j j) = Some ijj /\ sw_of (lookup file i k k) = Some ikk /\
  forall rj rk c, clear_of V n (col n i j) rj -> clear_of V n (col n i k) rk ->
    sw_phi3 ijk ijj ikk rj rk c = sw_v3 V lam n i j k rj rk c.
Proof. exact sw_three_body. Qed.
Print Assumptions C50_three_body.
Theorem C50_three_body_close : forall pow0 V lam n pr, (forall x, pr x = x) -> forall file i j k, write_sw pow0 pr V n lam = Some file ->
  (i < n)%nat -> (j < n)%nat -> (k < n)%nat -> sw_good V (col n i j) -> sw_good V (col n i k) ->
  same_cutoff V n (col n i j) -> same_cutoff V n (col n i k) ->
  0 < V (pcol n + col n i j)%nat 0%nat -> 0 < V (pcol n + col n i k)%nat 0%nat ->
  exists ijk ijj ikk, sw_of (lookup file i j k) = Some ijk /\ sw_of (lookup file i j j) = Some ijj /\ sw_of (lookup file i k k) = Some ikk /\
  forall rj rk c, Rabs (sw_phi3 ijk ijj ikk rj rk c - sw_v3 V lam n i j k rj rk c) <= Rabs (lam i j k) * (c + 1 / 3) ^ 2 * exp (-100).
Proof. exact sw_three_body_close. Qed.
Print Assumptions C50_three_body_close.
(** Only the first pair is checked for a1 = a2: with two types a file with a different
    three-body function is written. *)
Theorem C50_refuted : forall pow0, exists V lam n file,
  write_sw pow0 (fun x => x) V n lam = Some file /\
  (forall i j, (i < n)%nat -> (j < n)%nat -> sw_good V (col n i j)) /\
  exists i j k ijk ijj ikk rj rk c,
    sw_of (lookup file i j k) = Some ijk /\ sw_of (lookup file i j j) = Some ijj /\ sw_of (lookup file i k k) = Some ikk /\
    0 < rj /\ 0 < rk /\ sw_phi3 ijk ijj ikk rj rk c = 0 /\ sw_v3 V lam n i j k rj rk c > 0.
Proof. exact sw_second_pair. Qed.
Print Assumptions C50_refuted.
(** Even for one type, six digits are not enough: the ideal angle has an energy. *)
Theorem C50_digits_refuted : forall pow0 pr, six_digits pr -> exists V lam file e,
  write_sw pow0 pr V 1 lam = Some file /\ sw_good V (col 1 0 0) /\ same_cutoff V 1 (col 1 0 0) /\
  sw_of (lookup file 0 0 0) = Some e /\
  sw_phi3 e e e 1 1 (-1 / 3) > 0 /\ sw_v3 V lam 1 0 0 0 1 1 (-1 / 3) = 0.
Proof. exact sw_digits. Qed.
Print Assumptions C50_digits_refuted.
Theorem C50_degenerate_refuted : forall pow0 pr V n lam file i j k, write_sw pow0 pr V n lam = Some file ->
  (i < n)%nat -> (j < n)%nat -> (k < n)%nat -> V (col n i j) 1%nat = 0 -> sw_of (lookup file i j k) = None.
Proof. exact sw_degenerate. Qed.
Print Assumptions C50_degenerate_refuted.
Example C50_ex : exists file, write_sw (fun _ _ => 0) (fun x => x) (sw_ex 2 2) 2 (fun _ _ _ => 1) = Some file /\
  sw_good (sw_ex 2 2) (col 2 0 1) /\ same_cutoff (sw_ex 2 2) 2 (col 2 0 1) /\ clear_of (sw_ex 2 2) 2 (col 2 0 1) (3 / 2).
Proof.
  unfold write_sw. destruct (Req_EM_T _ _) as [|N]; [|exfalso; apply N; reflexivity]. eexists. split; [reflexivity|].
  unfold sw_good, same_cutoff, clear_of, sw_ex. change (col 2 0 1) with 1%nat. change (pcol 2) with 3%nat. simpl. repeat split; lra.
Qed.

(** C51.  The cutoff function for every number of types ... *)
Theorem C51_cutoff : forall V n omega chi i j, (i < n)%nat -> (j < n)%nat -> V (col n i j) 10%nat < V (col n i j) 9%nat ->
  exists e, ts_of (lookup (write_ts (fun x => x) V n omega chi) i j j) = Some e /\ forall r, ts_fC e r = ts_f V (col n i j) r.
Proof. exact ts_cutoff. Qed.
Print Assumptions C51_cutoff.
(** ... and the energy of every bond in every environment, if the pairs of the central type
    have the same cutoffs and omega and chi is one (in particular one type). *)
Theorem C51_energy_partial : forall pow0, (forall y, 0 < y -> pow0 0 y = 0) -> forall V n omega chi i, (i < n)%nat ->
  (forall j, (j < n)%nat -> ts_good V omega (col n i j)) ->
  (forall c, 0 <= omega c) -> (forall c, chi c = 1) -> uniform V n omega i ->
  exists ent : nat -> nat -> ts_entry,
    (forall j k, (j < n)%nat -> (k < n)%nat -> ts_of (lookup (write_ts (fun x => x) V n omega chi) i j k) = Some (ent j k)) /\
    forall l cosjk j, (j < length l)%nat -> (forall e, In e l -> (k_typ e < n)%nat) ->
      let tj := k_typ (nth j l (mk_nbk 0 0)) in
      lbond (cpow pow0) (as_pairs l) cosjk (ent tj tj) (ent tj) j = ts_bond pow0 V n omega i j l cosjk.
Proof. exact ts_same_bond. Qed.
Print Assumptions C51_energy_partial.
(** chi is exported but does not act in the fit; the line of i j k carries omega and the
    cutoffs of the pair i j instead of i k. *)
Theorem C51_chi_refuted : forall pow0, (forall y, 0 < y -> pow0 0 y = 0) -> ts_differs pow0 (ts_ex 3 2 3 2) 2 (mix_ex 1) (mix_ex (1 / 2)).
Proof. exact ts_chi. Qed.
Print Assumptions C51_chi_refuted.
Theorem C51_omega_refuted : forall pow0, (forall y, 0 < y -> pow0 0 y = 0) -> ts_differs pow0 (ts_ex 3 2 3 2) 2 (mix_ex (1 / 2)) (mix_ex 1).
Proof. exact ts_omega. Qed.
Print Assumptions C51_omega_refuted.
Theorem C51_cutoffs_refuted : forall pow0, (forall y, 0 < y -> pow0 0 y = 0) -> ts_differs pow0 (ts_ex 5 (9 / 2) 3 2) 2 (mix_ex 1) (mix_ex 1).
Proof. exact ts_cutoffs. Qed.
Print Assumptions C51_cutoffs_refuted.
(** tersoff/mod *)
Theorem C51_mod_cutoff : forall V n i j, (i < n)%nat -> (j < n)%nat -> V (col n i j) 14%nat < V (col n i j) 15%nat -> V (col n i j) 5%nat <> 0 ->
  exists e, tm_of (lookup (write_tm (fun x => x) V n) i j j) = Some e /\ forall r, tm_fC e r = tm_f V (col n i j) r.
Proof. exact tm_cutoff. Qed.
Print Assumptions C51_mod_cutoff.
Theorem C51_mod_energy_partial : forall pow0 V n i, (i < n)%nat ->
  (forall j, (j < n)%nat -> V (col n i j) 14%nat < V (col n i j) 15%nat /\ V (col n i j) 5%nat <> 0) -> tm_uniform V n i ->
  exists ent : nat -> nat -> tm_entry,
    (forall j k, (j < n)%nat -> (k < n)%nat -> tm_of (lookup (write_tm (fun x => x) V n) i j k) = Some (ent j k)) /\
    forall l cosjk j, (j < length l)%nat -> (forall e, In e l -> (k_typ e < n)%nat) ->
      let tj := k_typ (nth j l (mk_nbk 0 0)) in
      mbond (cpow pow0) (as_pairs l) cosjk (ent tj tj) (ent tj) j = tm_bond pow0 V n i j l cosjk.
Proof. exact tm_same_bond. Qed.
Print Assumptions C51_mod_energy_partial.
Theorem C51_mod_cutoffs_refuted : forall pow0, (forall y, 0 < y -> pow0 0 y = 0) ->
  exists i (ent : nat -> nat -> tm_entry) l cosjk j, (i < 2)%nat /\ (j < length l)%nat /\
    (forall j, (j < 2)%nat -> tm_ex (col 2 i j) 14%nat < tm_ex (col 2 i j) 15%nat /\ tm_ex (col 2 i j) 5%nat <> 0) /\
    (forall j k, (j < 2)%nat -> (k < 2)%nat -> tm_of (lookup (write_tm (fun x => x) tm_ex 2) i j k) = Some (ent j k)) /\
    (forall e, In e l -> (k_typ e < 2)%nat /\ 0 < k_r e) /\
    let tj := k_typ (nth j l (mk_nbk 0 0)) in
    mbond (cpow pow0) (as_pairs l) cosjk (ent tj tj) (ent tj) j <> tm_bond pow0 tm_ex 2 i j l cosjk.
Proof. exact tm_cutoffs. Qed.
Print Assumptions C51_mod_cutoffs_refuted.
Example C51_ex : (forall j, (j < 2)%nat -> ts_good (ts_ex 3 2 3 2) (mix_ex 1) (col 2 0 j)) /\ uniform (ts_ex 3 2 3 2) 2 (mix_ex 1) 0.
Proof.
  split; [apply good_ex; lra|]. intros j k _ _. unfold ts_ex, mix_ex. destruct (Nat.eqb (col 2 0 j) 0), (Nat.eqb (col 2 0 k) 0), (Nat.eqb (col 2 0 j) 1), (Nat.eqb (col 2 0 k) 1); simpl; auto.
Qed.

(** C52.  Analytic potentials: the third column is the (smoothed) function and the fourth
    the negative derivative at a point closer than one step. *)
Theorem C52_analytic : forall V cut smooth plotmin begin endr steps w d,
  (1 < steps)%nat -> (if Req_EM_T plotmin 0 then begin else plotmin) < endr ->
  In w (apot_table V cut smooth plotmin begin endr steps) ->
  let dr := (endr - (if Req_EM_T plotmin 0 then begin else plotmin)) / (INR steps - 1) in
  (forall x, w_r w - dr <= x <= w_r w + dr -> derivable_pt_lim (curve V cut smooth) x (d x)) ->
  w_e w = curve V cut smooth (w_r w) /\ exists x, w_r w - dr < x < w_r w + dr /\ w_f w = - d x.
Proof. exact apot_force. Qed.
Print Assumptions C52_analytic.
(** Tabulated potentials: every row has the value and the derivative itself ... *)
Theorem C52_tabulated : forall c xi, equidistant c -> forall steps, (1 < steps)%nat -> 1 / 10 ^ 6 <= (endr c - begin c) / (INR steps - 1) ->
  exists l, tab_table (splint_comb_ed c xi) (begin c) (endr c) steps = Some l /\ length l = steps /\
    forall w, In w l -> begin c <= w_r w < endr c /\ splint_ed c xi (w_r w) = Some (w_e w) /\ splint_grad_ed c xi (w_r w) = Some (w_f w).
Proof. exact tab_table_rows. Qed.
Print Assumptions C52_tabulated.
(** ... not its negative. *)
Theorem C52_refuted : exists c xi l w g, equidistant c /\ updated_ed c xi 1 0 /\
  tab_table (splint_comb_ed c xi) (begin c) (endr c) 11 = Some l /\ In w l /\
  splint_grad_ed c xi (w_r w) = Some g /\ w_f w = g /\ w_f w <> - g.
Proof. exact tab_force_refuted. Qed.
Print Assumptions C52_refuted.
Example C52_ex : let w := mk_row 1 1 2 (- (3 - 1) / (2 * 1)) in In w (apot_table (fun r => r + 1) (fun _ => 0) false 0 1 2 2) /\
  derivable_pt_lim (curve (fun r => r + 1) (fun _ => 0) false) (w_r w) 1.
Proof.
  split.
  - unfold apot_table. destruct (Req_EM_T 0 0); [|tauto]. simpl. left. replace (1 + 1 - 1) with 1 by lra. replace ((2 - 1) / 1) with 1 by lra.
    replace ((2 - 1) / (1 + 1 - 1)) with 1 by lra. f_equal; lra.
  - intros eps He. exists (mkposreal 1 Rlt_0_1). intros h Hh _. unfold curve. simpl.
    replace ((1 + h + 1 - (1 + 1)) / h - 1) with 0 by (field; auto). rewrite Rabs_R0. auto.
Qed.

(** C84.  setfl blocks of analytic potentials: number i is the value at i dr (times r for the
    pair functions). *)
Theorem C84_analytic : forall fv cut smooth by_r dr steps i, (i < steps)%nat -> dr <> 0 -> fv 0 <> None ->
  nth_error (apot_block fv cut smooth by_r dr steps) i =
  Some (option_map (fun v => scale_r by_r (INR i * dr) (if smooth then v * cut (INR i * dr) else v)) (fv (INR i * dr))).
Proof. exact apot_block_values. Qed.
Print Assumptions C84_analytic.
(** The blocks of the pair functions are in the order of the format. *)
Theorem C84_order : forall n, pair_blocks n = map (fun q => col n (fst q) (snd q)) (setfl_pairs n).
Proof. exact pair_blocks_order. Qed.
Print Assumptions C84_order.
(** Equidistant tables that begin after the first step are never written: the program stops. *)
Theorem C84_tabulated_refuted : forall c xi adp by_r eps dr steps, (2 <= steps)%nat -> 0 <= eps -> begin c <> 0 -> dr < begin c ->
  tab_block (splint_ed c xi) (begin c) adp by_r eps dr steps = None.
Proof. exact tab_block_stops. Qed.
Print Assumptions C84_tabulated_refuted.
(** The step in the header is rounded to six decimals. *)
Theorem C84_step_refuted : forall pf : R -> R, (forall x, exists m : Z, pf x = IZR m / 10 ^ 6) ->
  exists endr steps, (1 < steps)%nat /\ pf (endr / (INR steps - 1)) <> endr / (INR steps - 1).
Proof. exact header_step. Qed.
Print Assumptions C84_step_refuted.
Example C84_ex : apot_block (fun r => Some (r + 1)) (fun _ => 0) false true 1 2 = [Some (0 * (0 + 1)); Some ((0 + 1) * (0 + 1 + 1))].
Proof. unfold apot_block. simpl. destruct (Req_EM_T 0 0); [|tauto]. destruct (Req_EM_T (0 + 1) 0); [lra|]. reflexivity. Qed.

(** C85.  Dipole and quadrupole functions: the order differs for three types, and analytic
    functions are multiplied by r. *)
Theorem C85_order_partial : forall n, (n <= 2)%nat ->
  dipole_blocks n = map (fun q => (pcol n + 2 * n + col n (fst q) (snd q))%nat) (setfl_pairs n) /\
  quad_blocks n = map (fun q => (2 * (pcol n + n) + col n (fst q) (snd q))%nat) (setfl_pairs n).
Proof. exact adp_order_small. Qed.
Print Assumptions C85_order_partial.
Theorem C85_order_refuted : dipole_blocks 3 <> map (fun q => (pcol 3 + 2 * 3 + col 3 (fst q) (snd q))%nat) (setfl_pairs 3) /\
  quad_blocks 3 <> map (fun q => (2 * (pcol 3 + 3) + col 3 (fst q) (snd q))%nat) (setfl_pairs 3).
Proof. exact adp_order_refuted. Qed.
Print Assumptions C85_order_refuted.
Theorem C85_scaled_refuted : forall u cut dr steps i, (i < steps)%nat -> dr <> 0 ->
  nth_error (adp_apot_block (fun r => Some (u r)) cut false dr steps) i = Some (Some (INR i * dr * u (INR i * dr))).
Proof. exact adp_scaled. Qed.
Print Assumptions C85_scaled_refuted.
