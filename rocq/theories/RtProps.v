(** Analytic potential files: what is written can be read, and what is kept; C43. *)
From Coq Require Import Reals ZArith List Bool String Ascii Lia Lra.
From Verif Require Import LoopUtil ApotModel RtModel RtSpec RtProof RtProof2 RtProof3 RtProof4.
Import ListNotations.
Local Open Scope R_scope.

(** C43.  The file of a legal table is read without an error; names, functions, smooth
    cutoffs and the order are kept, numbers are those printed, a parameter is fixed exactly if
    its printed limits agree, bound parameters get the values of their global parameter. *)
Theorem C43_readable : forall pr opt num_params els rmin t n, legal num_params t -> filled t -> ntypes_of t n ->
  exists t', read_table num_params opt (cp_of t) None n (List.length (t_pots t)) (write_table pr els rmin None t) = Some t' /\ tab_back pr opt els t t'.
Proof. exact trip_ok. Qed.
Print Assumptions C43_readable.

(** Nothing changes if all numbers fit into the format. *)
Theorem C43_exact : forall pr, (forall k x, decimals k x (pr k x)) -> forall opt num_params els rmin t n, legal num_params t -> filled t -> ntypes_of t n -> sound opt els t ->
  read_table num_params opt (cp_of t) None n (List.length (t_pots t)) (write_table pr els rmin None t) = Some t.
Proof. exact trip_exact. Qed.
Print Assumptions C43_exact.

(** A second round trip changes nothing. *)
Theorem C43_stable : forall pr, (forall k x, decimals k x (pr k x)) -> forall opt num_params els rmin t n, legal num_params t -> filled t -> ntypes_of t n -> ordered t ->
  exists t', read_table num_params opt (cp_of t) None n (List.length (t_pots t)) (write_table pr els rmin None t) = Some t' /\
             read_table num_params opt (cp_of t') None n (List.length (t_pots t')) (write_table pr els rmin None t') = Some t'.
Proof. exact trip_stable'. Qed.
Print Assumptions C43_stable.

(** Errors of one parameter: half a unit of the last digit; fixed parameters stay fixed, free
    ones stay free if their limits are more than one unit apart. *)
Theorem C43_errors : forall pr, (forall k x, decimals k x (pr k x)) -> forall opt kv kb p a, p_min p <= p_max p -> back pr opt kv kb p a ->
  Rabs (p_min p - p_min a) <= 1 / 2 / 10 ^ kb /\ Rabs (p_max p - p_max a) <= 1 / 2 / 10 ^ kb /\
  (p_min p = p_max p -> p_inv a = true) /\
  (p_min p + 1 / 10 ^ kb < p_max p -> p_inv a = false) /\
  (opt = false -> Rabs (p_val p - p_val a) <= 1 / 2 / 10 ^ kv).
Proof. exact back_errors. Qed.
Print Assumptions C43_errors.

(** Refuted: a free parameter may come back as a fixed one, *)
Theorem C43_free_refuted : exists num_params t, legal num_params t /\ filled t /\ ordered t /\ (exists q p, In q (t_pots t) /\ In p (w_pars q) /\ p_inv p = false /\ p_min p < p_val p < p_max p) /\
  forall pr, (forall k x, decimals k x (pr k x)) -> forall opt els rmin n, exists t',
  read_table num_params opt (cp_of t) None n (List.length (t_pots t)) (write_table pr els rmin None t) = Some t' /\
  forall q p, In q (t_pots t') -> In p (w_pars q) -> p_inv p = true.
Proof. exact free_refuted. Qed.
Print Assumptions C43_free_refuted.

(** a value inside its limits may be moved by four thousand units of its last digit, *)
Theorem C43_moved_refuted : exists num_params t, legal num_params t /\ filled t /\ ordered t /\
  (exists q p, In q (t_pots t) /\ In p (w_pars q) /\ p_min p <= p_val p <= p_max p /\ p_val p = 4000 / 10 ^ 8) /\
  forall pr, (forall k x, decimals k x (pr k x)) -> forall els rmin n, exists t',
  read_table num_params true (cp_of t) None n (List.length (t_pots t)) (write_table pr els rmin None t) = Some t' /\
  forall q p, In q (t_pots t') -> In p (w_pars q) -> p_val p = 0.
Proof. exact moved_refuted. Qed.
Print Assumptions C43_moved_refuted.

(** and with charges no file that is written can be read, as the line "ratio" is missing *)
Theorem C43_elstat_refuted : forall pr opt num_params els rmin t e n nd k,
  (e_charges e <> [] -> p_name (hd (Par "" 0 0 0 false) (e_charges e)) <> "ratio"%string) -> e_last_name e <> "ratio"%string -> t_cp t = None ->
  read_table num_params opt false (Some nd) n k (write_table pr els rmin (Some e) t) = None.
Proof. exact elstat_unreadable. Qed.
Print Assumptions C43_elstat_refuted.

(** A table that was read has global parameters only if a function uses them. *)
Theorem C43_unused_globals : forall num_params opt cp el n l k t,
  (forall q p, In q (t_pots t) -> In p (w_pars q) -> has_bang (p_name p) = false) -> read_table num_params opt cp el n k l = Some t -> t_globals t = None.
Proof. exact unused_lost. Qed.
Print Assumptions C43_unused_globals.

(** a table with a chemical potential, a global parameter, a bound and a fixed parameter *)
Example ex_trip : (forall k x, decimals k x (nearest k x)) /\ legal np ex /\ filled ex /\ ntypes_of ex 1 /\ sound true (fun _ => "Cu"%string) ex /\ ordered ex.
Proof. exact (conj nearest_ok (conj ex_legal (conj ex_filled (conj ex_ntypes (conj ex_sound ex_ordered))))). Qed.
Example ex_errors : back nearest false 8 4 (Par "D" (1/10) 0 1 false) (check_value false (printed nearest 8 4 (Par "D" (1/10) 0 1 false))) /\ 0 <= 1.
Proof. split; [apply back_ok|lra]. Qed.
Example ex_elstat : p_name (hd (Par "" 0 0 0 false) [Par "charge_O" 1 0 2 false]) <> "ratio"%string /\ "charge_Si"%string <> "ratio"%string.
Proof. split; discriminate. Qed.
