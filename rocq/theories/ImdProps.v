(** IMD export: C122 - C125. *)
From Coq Require Import Reals ZArith List Bool String.
From Verif Require Import PairIndexModel SplineModel FuncModel ImdModel ImdSpec ImdProof2 ImdProof3 ImdProof4.
Import ListNotations.
Local Open Scope R_scope.

(** C122: the files of a kind of potential exist, and the tables over the squared distance hold
    the functions of the right columns, for all numbers of types and steps, all potentials and
    whatever the arrays r2begin, ... held before. *)
Theorem C122_tables_partial : forall APOT n N plotmin extend pt tab fv smooth aend lastp len k a,
  (k = KMeam -> APOT = false /\ forall i, (i < n)%nat -> listed (pt (2 * n_pairs n + 2 * n + i)%nat) /\ (last (pt (2 * n_pairs n + 2 * n + i)%nat) < len)%nat) ->
  let table files name lin col := forall f, In (name, f) files ->
    square_table f n N (fun i j => first_distance APOT plotmin extend pt (col i j)) (fun i j => endr (pt (col i j)))
      (fun i j => function APOT lin pt tab fv smooth aend lastp (col i j)) in
  exists files, write_imd APOT n N plotmin extend pt tab fv smooth aend lastp len k a = Some files /\ map fst files = file_names k /\
    table files "phi"%string (match k with KMeam => true | _ => false end) (pair_no n) /\
    table files "rho"%string true (fun _ j => n_pairs n + j)%nat /\
    table files "upot"%string false (fun i j => n_pairs n + 2 * n + pair_no n i j)%nat /\
    table files "wpot"%string false (fun i j => 2 * n_pairs n + 2 * n + pair_no n i j)%nat /\
    table files "f_meam"%string true (fun i j => n_pairs n + 2 * n + pair_no n i j)%nat /\
    (forall f, In ("F"%string, f) files -> plain_table f n N
       (fun i => let c := (n_pairs n + n + i)%nat in if APOT then 0 else begin (pt c) - extend * step (pt c))
       (fun i => let c := (n_pairs n + n + i)%nat in if APOT then endr (pt c) else endr (pt c) + extend * step (pt c))
       (fun i x => let c := (n_pairs n + n + i)%nat in
          if APOT then fv c x else splint_ne_lin (pt c) tab x + (if Rlt_dec (endr (pt c)) x then 500 * (x - endr (pt c)) ^ 3 else 0))) /\
    (forall f, In ("g_meam"%string, f) files -> plain_table f n N
       (fun i => begin (pt (2 * n_pairs n + 2 * n + i)%nat)) (fun i => endr (pt (2 * n_pairs n + 2 * n + i)%nat))
       (fun i => splint_ne (pt (2 * n_pairs n + 2 * n + i)%nat) tab)).
Proof. exact imd_tables. Qed.
Print Assumptions C122_tables_partial.
Example C122_ex : (KMeam = KMeam -> false = false /\ forall i, (i < 1)%nat -> listed (straight (2 * n_pairs 1 + 2 * 1 + i)%nat) /\ (last (straight (2 * n_pairs 1 + 2 * 1 + i)%nat) < 20)%nat) /\
  exists f, In ("g_meam"%string, f) (match write_imd false 1 2 0 1 straight (fun k => INR k) (fun _ _ => 0) (fun _ => false) (fun _ => 0) (fun _ => 0) 20 KMeam nolims with Some l => l | None => [] end).
Proof. exact imd_ex. Qed.
(** All values of a table, the last one too, are those of the function if it is smoothed or
    ends with zero ... *)
Theorem C122_whole_partial : forall APOT n N plotmin extend pt tab fv smooth aend lastp len k a files name lin col f,
  (0 < N)%nat ->
  (k = KMeam -> APOT = false /\ forall i, (i < n)%nat -> listed (pt (2 * n_pairs n + 2 * n + i)%nat) /\ (last (pt (2 * n_pairs n + 2 * n + i)%nat) < len)%nat) ->
  write_imd APOT n N plotmin extend pt tab fv smooth aend lastp len k a = Some files ->
  In (name, lin, col) [("phi"%string, match k with KMeam => true | _ => false end, pair_no n); ("rho"%string, true, (fun _ j => n_pairs n + j)%nat);
     ("upot"%string, false, (fun i j => n_pairs n + 2 * n + pair_no n i j)%nat); ("wpot"%string, false, (fun i j => 2 * n_pairs n + 2 * n + pair_no n i j)%nat);
     ("f_meam"%string, true, (fun i j => n_pairs n + 2 * n + pair_no n i j)%nat)] ->
  In (name, f) files ->
  (forall i j, (i < n)%nat -> (j < n)%nat -> let c := col i j in 0 <= endr (pt c) /\
     if APOT then smooth c = true /\ aend c = endr (pt c) else function APOT lin pt tab fv smooth aend lastp c (endr (pt c)) = 0) ->
  square_table_of f n N (fun i j => first_distance APOT plotmin extend pt (col i j)) (fun i j => endr (pt (col i j)))
    (fun i j => function APOT lin pt tab fv smooth aend lastp (col i j)).
Proof. exact imd_whole. Qed.
Print Assumptions C122_whole_partial.
(** ... but not for a function without smoothing: the last number is 0. *)
Theorem C122_last_value_refuted : exists n N plotmin extend pt tab fv smooth aend lastp len f, (0 < N)%nat /\
  write_imd true n N plotmin extend pt tab fv smooth aend lastp len KPair nolims = Some [("phi"%string, f)] /\
  (forall c, aend c = endr (pt c) /\ 0 <= endr (pt c)) /\
  ~ square_table_of f n N (fun i j => first_distance true plotmin extend pt (pair_no n i j)) (fun i j => endr (pt (pair_no n i j)))
      (fun i j => analytic fv smooth aend lastp (pair_no n i j)).
Proof. exact last_value. Qed.
Print Assumptions C122_last_value_refuted.

(** C123: for analytic MEAM potentials the export reads behind the end of opt_pot.table
    (up to 300 parameters for each function, up to 100 global ones). *)
Theorem C123_meam_analytic_refuted : forall n N plotmin extend pt tab fv smooth aend lastp npar globals a,
  (0 < n)%nat -> (forall i, (npar i <= 300)%nat) -> (globals <= 100)%nat ->
  write_imd true n N plotmin extend pt tab fv smooth aend lastp (opt_len npar (n * (n + 4)) globals) KMeam a = None.
Proof. exact meam_analytic. Qed.
Print Assumptions C123_meam_analytic_refuted.
Example C123_ex : opt_len (fun _ => 3%nat) (1 * (1 + 4)) 0 = 25%nat /\ calc_first (g_col 1 0) = 2010%nat.
Proof. vm_compute. auto. Qed.

(** C124: charges and parameters for electrostatics. *)
Theorem C124_charges_partial : forall n charge last_charge names number values dp_cut kappa aend s V,
  (0 < n)%nat -> s = "ms"%string \/ s = "buck"%string -> (3 <= number)%nat ->
  (forall i, (i < number)%nat -> nth_error names i = Some s) ->
  (forall i, (i < number)%nat -> exists v, nth_error values i = Some v /\ forall p, (p < 3)%nat -> nth_error v p = Some (V i p)) ->
  exists f, write_charges n charge last_charge names number values dp_cut kappa aend = Some f /\
    List.length (w_charge f) = n /\ (forall i, (i < n)%nat -> nth_error (w_charge f) i = Some (if Nat.eqb i (n - 1) then last_charge else charge i)) /\
    w_kind f = Some s /\ (forall p, (p < 3)%nat -> nth_error (w_par f) p = Some (map (fun i => V i p) (seq 0 number))) /\
    w_ew_rcut f = dp_cut /\ w_ew_kappa f = kappa /\ w_r_cut f = repeat (aend 0%nat) (n_pairs n).
Proof. exact charges_lines. Qed.
Print Assumptions C124_charges_partial.
Example C124_ex : (forall i, (i < 3)%nat -> nth_error ["buck"; "buck"; "buck"]%string i = Some "buck"%string) /\
  (forall i, (i < 3)%nat -> exists v, nth_error [[1; 2; 3]; [1; 2; 3]; [1; 2; 3]] i = Some v /\ forall p, (p < 3)%nat -> nth_error v p = Some (nth p [1; 2; 3] 0)).
Proof. exact charges_ex. Qed.
(** with one type of atoms names[1] is read, which does not exist *)
Theorem C124_one_type_refuted : forall s charge last_charge values number dp_cut kappa aend, s = "ms"%string \/ s = "buck"%string ->
  write_charges 1 charge last_charge [s] number values dp_cut kappa aend = None.
Proof. exact one_type_outside. Qed.
Print Assumptions C124_one_type_refuted.
(** the cutoff of the first pair is written for all *)
Theorem C124_cutoffs_refuted : exists n names number values (aend : nat -> R) f,
  write_charges n (fun _ => 1) (-1) names number values 10 (1/10) aend = Some f /\ w_r_cut f <> map aend (seq 0 (n_pairs n)).
Proof. exact cutoffs_lost. Qed.
Print Assumptions C124_cutoffs_refuted.
(** only three names are looked at: other functions are written as Morse-Stretch, or read
    outside of their parameters *)
Theorem C124_kind_refuted :
  (exists n names number values f,
     write_charges n (fun _ => 1) (-1) names number values 10 (1/10) (fun _ => 5) = Some f /\ w_kind f = Some "ms"%string /\ In "morse"%string names /\ number = n_pairs n) /\
  (exists n names number values,
     write_charges n (fun _ => 1) (-1) names number values 10 (1/10) (fun _ => 5) = None /\ number = n_pairs n /\ List.length names = number /\ List.length values = number).
Proof. exact (conj other_kind few_parameters). Qed.
Print Assumptions C124_kind_refuted.

(** C125: parameters of Stillinger-Weber and Tersoff potentials; [V c p] is parameter p of column c. *)
Theorem C125_stiweb : forall n V,
  (forall key blk y, In (key, blk, y) sw_keys -> exists l, line_of (write_sw n V (2 * n_pairs n + 1)) key = Some l /\ pair_numbers n l (fun c => V (blk * n_pairs n + c)%nat y)) /\
  exists l, line_of (write_sw n V (2 * n_pairs n + 1)) "stiweb_la" = Some l /\ List.length l = (n_pairs n * n)%nat /\
    forall i j k, (i < n)%nat -> (j < n)%nat -> (k < n)%nat ->
      nth_error l (pair_no n j k * n + i) = Some (V (2 * n_pairs n)%nat (i * n_pairs n + pair_no n j k)%nat).
Proof. exact sw_lines. Qed.
Print Assumptions C125_stiweb.
Theorem C125_tersoff : forall n V,
  (forall key blk y, In (key, blk, y) ters_keys -> exists l, line_of (write_ters n V) key = Some l /\ pair_numbers n l (fun c => V (blk * n_pairs n + c)%nat y)) /\
  ((1 < n)%nat -> forall key y, In (key, y) [("ters_chi"%string, 0%nat); ("ters_om"%string, 1%nat)] ->
    exists l, line_of (write_ters n V) key = Some l /\ List.length l = (n * (n - 1) / 2)%nat /\
      forall a b, (a < b)%nat -> (b < n)%nat -> nth_error l (pair_no n a b - (a + 1)) = Some (V (n_pairs n + (pair_no n a b - (a + 1)))%nat y)) /\
  ((n <= 1)%nat -> line_of (write_ters n V) "ters_chi" = None /\ line_of (write_ters n V) "ters_om" = None).
Proof. exact ters_lines. Qed.
Print Assumptions C125_tersoff.
Theorem C125_tersoffmod : forall n V key blk y, In (key, blk, y) mod_keys ->
  exists l, line_of (write_mod n V) key = Some l /\ pair_numbers n l (fun c => V (blk * n_pairs n + c)%nat y).
Proof. exact mod_lines. Qed.
Print Assumptions C125_tersoffmod.
Example C125_ex : line_of (write_sw 2 (fun c p => INR (10 * c + p)) 7) "stiweb_ga" = Some (map INR [30; 40; 50]%nat) /\
  line_of (write_sw 2 (fun c p => INR (10 * c + p)) 7) "stiweb_la" = Some (map INR [60; 63; 61; 64; 62; 65]%nat).
Proof. split; reflexivity. Qed.
