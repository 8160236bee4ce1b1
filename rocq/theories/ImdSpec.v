(** What an IMD potential file has to contain. *)
From Coq Require Import Reals ZArith List String.
From Verif Require Import PairIndexModel SplineModel FuncModel ImdModel.
Import ListNotations.
Local Open Scope R_scope.

(** number of the unordered pair of types (C01) and of all pairs *)
Definition pair_no (n i j : nat) : nat := Z.to_nat (pair_index (Z.of_nat n) (Z.of_nat i) (Z.of_nat j)).
Definition n_pairs (n : nat) : nat := Z.to_nat (paircol (Z.of_nat n)).

(** A table over the square of the distance, for the ordered pairs of n types: for the pair
    (i,j) squares of the first and last distance, the step, N values of the function v i j
    at distances equidistant in the square, and the number 0 at the last distance. *)
Definition square_table (f : file) (n N : nat) (first last : nat -> nat -> R) (v : nat -> nat -> R -> R) : Prop :=
  header f = (n * n)%nat /\ List.length (info f) = (n * n)%nat /\ List.length (data f) = (n * n)%nat /\
  forall i j, (i < n)%nat -> (j < n)%nat ->
    let b := first i j * first i j in let e := last i j * last i j in let st := (e - b) / INR N in
    nth_error (info f) (i * n + j) = Some (b, e, st) /\
    exists d, nth_error (data f) (i * n + j) = Some d /\ List.length d = S N /\
      (forall k, (k < N)%nat -> nth_error d k = Some (v i j (sqrt (b + INR k * st)))) /\
      nth_error d N = Some 0.
(** ... all values, the last included, are those of the function *)
Definition square_table_of (f : file) (n N : nat) (first last : nat -> nat -> R) (v : nat -> nat -> R -> R) : Prop :=
  square_table f n N first last v /\
  forall i j d, (i < n)%nat -> (j < n)%nat -> nth_error (data f) (i * n + j) = Some d ->
    let b := first i j * first i j in let e := last i j * last i j in
    forall k, (k <= N)%nat -> nth_error d k = Some (v i j (sqrt (b + INR k * ((e - b) / INR N)))).
(** A table of functions of one type: N + 1 equidistant values *)
Definition plain_table (f : file) (n N : nat) (first last : nat -> R) (v : nat -> R -> R) : Prop :=
  header f = n /\ List.length (info f) = n /\ List.length (data f) = n /\
  forall i, (i < n)%nat -> let st := (last i - first i) / INR N in
    nth_error (info f) i = Some (first i, last i, st) /\
    exists d, nth_error (data f) i = Some d /\ List.length d = S N /\
      forall k, (k <= N)%nat -> nth_error d k = Some (v i (first i + INR k * st)).

(** The functions of the potential: analytic, with the cutoff factor where it is smoothed, or a
    spline, continued as a cubic or ([lin]) as a straight line. *)
Definition analytic (fv : nat -> R -> R) (smooth : nat -> bool) (aend h : nat -> R) (c : nat) (r : R) : R :=
  fv c r * (if smooth c then apot_cutoff r (aend c) (h c) else 1).
Definition function (APOT lin : bool) (pt : nat -> column) (tab : arr) (fv : nat -> R -> R) (smooth : nat -> bool) (aend h : nat -> R) (c : nat) : R -> R :=
  if APOT then analytic fv smooth aend h c else if lin then splint_ne_lin (pt c) tab else splint_ne (pt c) tab.
(** first distance of a table: plotmin or 0.1 for analytic potentials, else [extend] steps
    before the table of the potential, but not negative *)
Definition first_distance (APOT : bool) (plotmin extend : R) (pt : nat -> column) (c : nat) : R :=
  if APOT then (if Req_EM_T plotmin 0 then 1 / 10 else plotmin) else Rmax (begin (pt c) - extend * step (pt c)) 0.
Definition file_names (k : kind) : list string :=
  (match k with KPair => ["phi"] | KEam => ["phi"; "rho"; "F"] | KAdp => ["phi"; "rho"; "F"; "upot"; "wpot"]
  | KMeam => ["phi"; "rho"; "F"; "f_meam"; "g_meam"] end)%string.

(** Keywords of IMD and the parameters of potfit they stand for: block of columns (0: pairs,
    1: second block of pairs), number of the parameter in the column. *)
Definition sw_keys : list (string * nat * nat) :=
  ([("stiweb_a", 0, 0); ("stiweb_b", 0, 1); ("stiweb_p", 0, 2); ("stiweb_q", 0, 3); ("stiweb_de", 0, 4); ("stiweb_a1", 0, 5);
    ("stiweb_ga", 1, 0); ("stiweb_a2", 1, 1)]%string)%nat.
Definition ters_keys : list (string * nat * nat) :=
  ([("ters_a", 0, 0); ("ters_b", 0, 1); ("ters_la", 0, 2); ("ters_mu", 0, 3); ("ters_ga", 0, 4); ("ters_n", 0, 5); ("ters_c", 0, 6);
    ("ters_d", 0, 7); ("ters_h", 0, 8); ("ters_r_cut", 0, 9); ("ters_r0", 0, 10)]%string)%nat.
Definition mod_keys : list (string * nat * nat) :=
  ([("ters_a", 0, 0); ("ters_b", 0, 1); ("ters_la", 0, 2); ("ters_mu", 0, 3); ("ters_eta", 0, 4); ("ters_delta", 0, 5); ("ters_alpha", 0, 6);
    ("ters_beta", 0, 7); ("ters_c1", 0, 8); ("ters_c2", 0, 9); ("ters_c3", 0, 10); ("ters_c4", 0, 11); ("ters_c5", 0, 12); ("ters_h", 0, 13);
    ("ters_r0", 0, 14); ("ters_r_cut", 0, 15)]%string)%nat.
(** the line of a keyword *)
Definition line_of (out : list (string * list R)) (key : string) : option (list R) :=
  option_map snd (find (fun kl => String.eqb (fst kl) key) out).
(** one number for each pair of types *)
Definition pair_numbers (n : nat) (l : list R) (p : nat -> R) : Prop :=
  List.length l = n_pairs n /\ forall a b, (a < n)%nat -> (b < n)%nat -> nth_error l (pair_no n a b) = Some (p (pair_no n a b)).
