(** Angles of the three-body models: init_angles (config.c:1368-1505), update_slots for
    angles (config.c:635-672) and the loops that use them (force_stiweb.c:232-316,
    force_tersoff.c:226-249 and 560-590, force_meam.c:401-425 and 578-656,
    force_ang.c:351-449). *)
From Coq Require Import Reals ZArith List Bool Arith.
From Verif Require Import SplineModel.
Import ListNotations.
Local Open Scope R_scope.

(** angle_t without g, dg; a new entry is zero except for cos (memset) *)
Record angle := Ang { a_cos : R; a_slot : nat; a_shift : R; a_step : R }.
Definition new_angle (c : R) : angle := Ang c 0 0 0.

(** STIWEB and MEAM; TERSOFF and TERSOFFMOD; ANG, where [ins j]: neighbour j lies inside of
    the cutoff of its f function *)
Inductive kind := Half | Full | Within (ins : nat -> bool).

Section Atom.
Variable n : nat.                   (* num_neigh *)
Variable dotp : nat -> nat -> R.    (* scalar product of the directions of neighbours j, k *)
Variable checked : bool.            (* format 0 or 3: test of the range of the cosine *)

(** outer and inner loop with their conditions: 1380-1391, 1451-1459 *)
Definition outer (m : kind) : list nat :=
  match m with
  | Half => seq 0 (n - 1)
  | Full => seq 0 n
  | Within ins => filter ins (seq 0 (n - 1))
  end.
Definition inner (m : kind) (j : nat) : list nat :=
  match m with
  | Half => seq (j + 1) (n - (j + 1))
  | Full => filter (fun k => negb (Nat.eqb j k)) (seq 0 n)
  | Within ins => filter ins (seq (j + 1) (n - (j + 1)))
  end.
(** angle_part and ijk_start (zero until set) *)
Record angles := Angles { parts : list angle; start : nat -> nat }.
(** [None]: error(1, "cos out of range, it is strange!") *)
Definition store (j : nat) (st : option angles) (k : nat) : option angles :=
  match st with
  | None => None
  | Some s =>
      let c := dotp j k in
      if (checked && (if Rlt_dec (1 / 10 ^ 10) (Rabs c - 1) then true else false))%bool then None
      else Some (Angles (parts s ++ [new_angle c]) (start s))
  end.
Definition mark (j : nat) (st : option angles) : option angles :=
  match st with
  | None => None
  | Some s => Some (Angles (parts s) (fun i => if Nat.eqb i j then List.length (parts s) else start s i))
  end.
Definition init_angles (m : kind) : option angles :=
  fold_left (fun st j => fold_left (store j) (inner m j) (mark j st)) (outer m) (Some (Angles [] (fun _ => 0%nat))).

(** ** Uses: the triples visited and the angle read for each ([None]: outside of the block) *)
Definition use := (nat * nat * option angle)%type.
(** force_stiweb.c:232-249; [a j]: r < a2 *)
Definition use_stiweb (a : nat -> bool) (s : angles) : list use :=
  fold_left (fun l j =>
    let ijk := start s j in
    if a j then
      snd (fold_left (fun (p : nat * list use) k => (S (fst p), snd p ++ [(j, k, nth_error (parts s) (fst p))]))
        (seq (j + 1) (n - (j + 1))) (ijk, l))
    else l) (seq 0 (n - 1)) [].
(** force_tersoff.c:226-249, 560-590; [a j]: r < S and B <> 0 *)
Definition use_tersoff (a : nat -> bool) (s : angles) : list use :=
  fold_left (fun l j =>
    if a j then
      snd (fold_left (fun (p : nat * list use) k =>
             if Nat.eqb k j then p else (S (fst p), snd p ++ [(j, k, nth_error (parts s) (fst p))]))
        (seq 0 n) (start s j, l))
    else l) (seq 0 n) [].
(** force_meam.c:401-425 *)
Definition use_meam (s : angles) : list use :=
  snd (fold_left (fun (p : nat * list use) j =>
    fold_left (fun (p : nat * list use) k => (S (fst p), snd p ++ [(j, k, nth_error (parts s) (fst p))]))
      (seq (j + 1) (n - (j + 1))) p) (seq 0 (n - 1)) (0%nat, [])).
(** force_ang.c:351-449 *)
Definition use_ang (ins : nat -> bool) (s : angles) : list use :=
  snd (fold_left (fun (p : nat * list use) j =>
    if ins j then
      fold_left (fun (p : nat * list use) k =>
          if ins k then (S (fst p), snd p ++ [(j, k, nth_error (parts s) (fst p))]) else p)
        (seq (j + 1) (n - (j + 1))) p
    else p) (seq 0 (n - 1)) (0%nat, [])).
End Atom.

(** update_slots for angles, config.c:635-672 (APOT builds only); [off]: 1.1 for MEAM,
    -begin for ANG *)
Definition angle_slots (c : column) (off : R) (x : angle) : angle :=
  let rr := a_cos x + off in
  let k := trunc (rr * invstep c) in
  Ang (a_cos x) (k + first c) ((rr - INR k * step c) * invstep c) (step c).
(** g and dg: splint_comb_dir(&calc_pot, xi, angle->slot, angle->shift, angle->step, ..);
    [None]: division by a zero step *)
Definition angle_g (d2 xi : arr) (x : angle) : R := splint_dir d2 xi (a_slot x) (a_shift x) (a_step x).
Definition angle_dg (d2 xi : arr) (x : angle) : option R :=
  if Req_EM_T (a_step x) 0 then None else Some (splint_grad_dir d2 xi (a_slot x) (a_shift x) (a_step x)).
(** an angle as the force routines of MEAM and ANG find it *)
Definition prepared (apot : bool) (c : column) (off : R) (x : angle) : angle :=
  if apot then angle_slots c off x else x.
