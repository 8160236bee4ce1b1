(** Tabulated potential files: C41, C42, C82; decimals: C43 (values). *)
From Coq Require Import List ZArith QArith Qcanon Arith Bool.
From Verif Require Import TabModel TabSpec TabProof TabProof2 TabProof3 TabProof4 TabProof5 TabSpec2 TabProof6.
Import ListNotations.
Close Scope Q_scope.
Close Scope Qc_scope.
Open Scope nat_scope.

(** C41.  A double precision number printed with "%.16e" and read with "%lf" is the same. *)
Theorem C41_digits : forall x d y : Q, binary64 x -> prints_e 16 x d -> reads d y -> Qeq y x.
Proof. exact digits17. Qed.
Print Assumptions C41_digits.

(** C41, format 3.  [pr] and [rd] are any conversions as required by the C standard; [t] are
    the values after the fit.  The whole table (points, values, gradients, free parameters) is
    the same after writing and reading.  All builds but ANG. *)
Theorem C41_format3 : forall (pr rd : Qc -> Qc) coord resc,
  (forall x : Qc, binary64 x -> prints_e 16 x (pr x)) -> (forall d : Qc, reads d (rd d)) ->
  forall b n f p t, b <> Ang -> read rd coord resc b n f = Done p -> f_fmt f = 3 ->
  binary_flags (invar p) -> length t = length (table p) -> Forall (fun v : Qc => binary64 v) t ->
  read rd coord resc b n (write3 pr (with_table p t)) = Done (with_table p t).
Proof.
  exact (fun pr rd coord resc Hp Hr b n f p t A => roundtrip3 pr rd coord resc Hp Hr b n f p t (kinds3_all b n A)).
Qed.
Print Assumptions C41_format3.
Example C41_ex3 : forall (rd : Qc -> Qc) coord resc, exists p, read rd coord resc Pairs 1 ex3 = Done p /\ idx p = [0; 1; 2; 3].
Proof. exact ex3_read. Qed.

(** C41, format 4, pair, EAM and ADP builds *)
Theorem C41_format4 : forall (pr rd : Qc -> Qc) resc,
  (forall x : Qc, binary64 x -> prints_e 16 x (pr x)) -> (forall d : Qc, reads d (rd d)) ->
  forall coord b n f p t, b = Pairs \/ b = Eam \/ b = Adp -> read rd coord resc b n f = Done p -> f_fmt f = 4 ->
  binary_flags (invar p) -> length t = length (table p) -> Forall (fun v : Qc => binary64 v) t ->
  read rd coord resc b n (write4 pr (with_table p t)) = Done (with_table p t).
Proof.
  exact (fun pr rd resc Hp Hr coord b n f p t A => roundtrip4 pr rd resc Hp Hr coord b n f p t (kinds4_all b n A)).
Qed.
Print Assumptions C41_format4.
Example C41_ex4 : forall (rd : Qc -> Qc) coord resc, (forall d : Qc, reads d (rd d)) ->
  exists p, read rd coord resc Pairs 1 ex4 = Done p /\ idx p = [0; 2; 3].
Proof. exact ex4_read. Qed.

(** C41 for what write_pot_table_potfit leaves of a format 3 potential: it is in format 4
    (C42_refuted); pair, EAM and ADP builds read the same data from it if the sampling points
    increase, and pair and EAM builds have the same free parameters. *)
Theorem C41_through : forall (pr rd : Qc -> Qc) coord resc,
  (forall x : Qc, binary64 x -> prints_e 16 x (pr x)) -> (forall d : Qc, reads d (rd d)) ->
  forall b n f p t, b = Pairs \/ b = Eam \/ b = Adp ->
  read rd coord resc b n f = Done p -> f_fmt f = 3 -> binary_flags (invar p) ->
  length t = length (table p) -> Forall (fun v : Qc => binary64 v) t ->
  (forall i, i < ncols p -> proper p i) ->
  exists p', read rd coord resc b n (write4 pr (with_table p t)) = Done p' /\
    same_data (with_table p t) p' /\ (b <> Adp -> idx p' = idx p).
Proof. exact through. Qed.
Print Assumptions C41_through.
(** ADP: the last value of every quadrupole function, fixed before, is free afterwards. *)
Theorem C41_adp_refuted : forall (pr rd : Qc -> Qc) coord resc,
  (forall x : Qc, binary64 x -> prints_e 16 x (pr x)) -> (forall d : Qc, reads d (rd d)) ->
  forall n f p t i,
  read rd coord resc Adp n f = Done p -> f_fmt f = 3 -> binary_flags (invar p) ->
  length t = length (table p) -> Forall (fun v : Qc => binary64 v) t -> (forall i, i < ncols p -> proper p i) ->
  2 * (paircol n + n) <= i < npots Adp n -> nth i (invar p) 0%Z = 0%Z ->
  exists p', read rd coord resc Adp n (write4 pr (with_table p t)) = Done p' /\
    ~ In (nth i (last_ p) 0) (idx p) /\ In (nth i (last_ p) 0) (idx p').
Proof. exact adp_freed. Qed.
Print Assumptions C41_adp_refuted.
(** A flag of 2 fixes a potential but is not written; read back the potential is free. *)
Theorem C41_flag_refuted : forall pr p, p_fmt p = 3 -> invar p = [2%Z] -> have_invar p = false ->
  f_inv (write3 pr p) = None /\ header 1 None = Done [0%Z].
Proof. exact flag_lost. Qed.
Print Assumptions C41_flag_refuted.

(** C42.  Format 4 is kept. *)
Theorem C42_format4 : forall pr p, p_fmt p = 4 -> exists f, left_over pr p = Some f /\ f_fmt f = 4.
Proof. exact left4. Qed.
Print Assumptions C42_format4.
(** Every potential read in format 3 is left in format 4. *)
Theorem C42_refuted : forall pr p, p_fmt p = 3 -> left_over pr p = Some (write4 pr p) /\ f_fmt (write4 pr p) = 4.
Proof. exact left3. Qed.
Print Assumptions C42_refuted.

(** C43.  Eight decimals, as written for analytic potentials, do not keep a value. *)
Theorem C43_value_refuted : binary64 (Qpower 2 (-40)) /\ prints_f 8 (Qpower 2 (-40)) 0 /\
  forall y, reads 0 y -> ~ Qeq y (Qpower 2 (-40)).
Proof. exact eight_decimals. Qed.
Print Assumptions C43_value_refuted.

(** C82.  All columns are read, with these builds. *)
Theorem C82_columns3 : forall b n, b <> Ang -> length (kinds3 b n) = npots b n.
Proof. exact kinds3_all. Qed.
Print Assumptions C82_columns3.
Theorem C82_columns4 : forall b n, b = Pairs \/ b = Eam \/ b = Adp -> length (kinds4 b n) = npots b n.
Proof. exact kinds4_all. Qed.
Print Assumptions C82_columns4.
(** Then the values that take part in the fit are these. *)
Theorem C82_free3 : forall (rd : Qc -> Qc) coord resc, (forall d : Qc, reads d (rd d)) ->
  forall b n f p i j, b <> Ang -> read rd coord resc b n f = Done p -> f_fmt f = 3 ->
  i < npots b n -> nth i (first p) 0 <= j <= nth i (last_ p) 0 ->
  (In j (idx p) <-> nth i (invar p) 0%Z = 0%Z /\ fixed3 b n i (nth i (first p) 0) (nth i (last_ p) 0) j = false).
Proof. exact all_free3. Qed.
Print Assumptions C82_free3.
Example C82_meam_ex : exists p, read (fun d => d) (fun b e nv j => q0) true Meam 1 meam_file = Done p /\
  first p = [2; 6; 10; 14; 18] /\ last_ p = [3; 7; 11; 15; 19] /\ idx p = [2; 6; 10; 11; 18; 19].
Proof. exact meam_read. Qed.
Theorem C82_free4 : forall (rd : Qc -> Qc) coord resc, (forall d : Qc, reads d (rd d)) ->
  forall b n f p i j, b = Pairs \/ b = Eam \/ b = Adp -> read rd coord resc b n f = Done p -> f_fmt f = 4 ->
  i < npots b n -> nth i (first p) 0 <= j <= nth i (last_ p) 0 ->
  (In j (idx p) <-> nth i (invar p) 0%Z = 0%Z /\ fixed4 b n i (nth i (last_ p) 0) j = false).
Proof. exact all_free4. Qed.
Print Assumptions C82_free4.
(** The gradients at the ends take part if their bits in the #G line are set. *)
Theorem C82_gradients : forall (rd : Qc -> Qc) coord resc, (forall d : Qc, reads d (rd d)) ->
  forall b n f p i, (f_fmt f = 3 /\ b <> Ang) \/ (f_fmt f = 4 /\ (b = Pairs \/ b = Eam \/ b = Adp)) -> read rd coord resc b n f = Done p ->
  i < npots b n -> (0 <= nth i (gradient p) 0 <= 3)%Z ->
  (In (nth i (first p) 0 - 2) (idx p) <-> nth i (invar p) 0%Z = 0%Z /\ (nth i (gradient p) 0%Z = 2%Z \/ nth i (gradient p) 0%Z = 3%Z)) /\
  (In (nth i (first p) 0 - 1) (idx p) <-> nth i (invar p) 0%Z = 0%Z /\ (nth i (gradient p) 0%Z = 1%Z \/ nth i (gradient p) 0%Z = 3%Z)).
Proof. exact all_gradients. Qed.
Print Assumptions C82_gradients.
(** C94.  Without a #G line the ends have these gradients: 1e30 (natural spline) or zero. *)
Theorem C94_defaults : forall (rd : Qc -> Qc) coord resc, (forall d : Qc, reads d (rd d)) ->
  forall b n f p i, (f_fmt f = 3 /\ b <> Ang) \/ (f_fmt f = 4 /\ (b = Pairs \/ b = Eam \/ b = Adp)) -> read rd coord resc b n f = Done p ->
  f_grad f = None -> i < npots b n ->
  at_ (table p) (nth i (first p) 0 - 2) = (if natural_left b n i then e30 rd else q0) /\
  at_ (table p) (nth i (first p) 0 - 1) = (if natural_right b n i then e30 rd else q0).
Proof. exact all_defaults. Qed.
Print Assumptions C94_defaults.
(** MEAM and ANG in format 4 and TBEAM with two types: the columns behind are not read; they
    stay zero and nothing of them is optimised. *)
Theorem C82_lost4_refuted : forall (rd : Qc -> Qc) coord resc, (forall d : Qc, reads d (rd d)) ->
  forall b n f p i, b = Meam \/ b = Ang \/ (b = Tbeam /\ n = 2) ->
  read rd coord resc b n f = Done p -> f_fmt f = 4 ->
  (match b with Tbeam => 10 | _ => paircol n end) <= i < npots b n ->
  ncols p = npots b n /\ at_ (begin_ p) i = q0 /\ at_ (end_ p) i = q0 /\
  forall j, start p i <= j -> at_ (table p) j = q0 /\ ~ In j (idx p).
Proof. exact lost4. Qed.
Print Assumptions C82_lost4_refuted.
(** ANG in format 3 *)
Theorem C82_ang_refuted : forall (rd : Qc -> Qc) coord resc, (forall d : Qc, reads d (rd d)) ->
  forall n f p i, read rd coord resc Ang n f = Done p -> f_fmt f = 3 ->
  paircol n <= i < npots Ang n ->
  forall j, start p i <= j -> at_ (table p) j = q0 /\ ~ In j (idx p).
Proof. exact lost3. Qed.
Print Assumptions C82_ang_refuted.
(** TBEAM in format 4: four types cannot be read without leaving the arrays; with one type the
    embedding function is read as a density (last value fixed) and the density of the other
    band as an embedding function (last value free). *)
Theorem C82_tbeam4_refuted : forall (rd : Qc -> Qc) coord resc, (forall d : Qc, reads d (rd d)) ->
  forall f p, f_fmt f = 4 -> read rd coord resc Tbeam 4 f <> Done p.
Proof. exact tbeam4_overrun. Qed.
Print Assumptions C82_tbeam4_refuted.
Theorem C82_tbeam1_refuted : forall (rd : Qc -> Qc) coord resc, (forall d : Qc, reads d (rd d)) ->
  forall f p, f_fmt f = 4 -> read rd coord resc Tbeam 1 f = Done p ->
  (forall i, i < 5 -> nth i (first p) 0 <= nth i (last_ p) 0) -> Forall (eq 0%Z) (invar p) ->
  ~ In (nth 2 (last_ p) 0) (idx p) /\ In (nth 3 (last_ p) 0) (idx p).
Proof. exact tbeam1_kinds. Qed.
Print Assumptions C82_tbeam1_refuted.
