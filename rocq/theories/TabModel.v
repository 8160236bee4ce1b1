(** Reading and writing of tabulated potentials (formats 3 and 4).
    A file is its header and the sequence of the numbers after the header; white space is not
    modelled.  Numbers are rationals in lowest terms; infinities and NaN are not modelled.
    Counts (%d in the info block) are not negative.  step and invstep are functions of begin,
    end and the number of values and are not stored.  Malloc sets the memory to zero
    (memory.c:79).  Messages, element names (#C) and the type line (#T) are not modelled. *)
From Coq Require Import List ZArith QArith Qcanon Bool Arith.
Import ListNotations.
Close Scope Q_scope.
Close Scope Qc_scope.
Open Scope nat_scope.

Inductive outcome (A : Type) := Done (a : A) | Fail | Undefined.
Arguments Done {A} a.
Arguments Fail {A}.
Arguments Undefined {A}.
Definition bind {A B : Type} (o : outcome A) (f : A -> outcome B) : outcome B :=
  match o with Done a => f a | Fail => Fail | Undefined => Undefined end.

(** Builds with tabulated potentials, wscript:53-100.  [Pairs] also stands for coulomb,
    [Eam] for eam_coulomb and eam_dipole, [Ang] for ang_elstat. *)
Inductive build := Pairs | Eam | Tbeam | Adp | Meam | Ang.
(** The loops of the readers; [KF true]: first function f of MEAM *)
Inductive kind := KPair | KRho | KEmb | KRhoS | KEmbS | KDip | KQuad | KF (first : bool) | KG.

(** potential_input.c:78 *)
Definition paircol (n : nat) : nat := n * (n + 1) / 2.
(** potential_input.c:203-236 *)
Definition npots (b : build) (n : nat) : nat :=
  match b with
  | Pairs => paircol n
  | Eam => paircol n + 2 * n
  | Tbeam => paircol n + 2 * n + 2 * n
  | Adp => 3 * paircol n + 2 * n
  | Meam => 2 * paircol n + 3 * n
  | Ang => 2 * paircol n + n
  end.
(** potential_input_f3.c:104-418: the loops in their order; none for ANG after the pairs *)
Definition kinds3 (b : build) (n : nat) : list kind :=
  repeat KPair (paircol n) ++
  match b with
  | Pairs | Ang => []
  | Eam => repeat KRho n ++ repeat KEmb n
  | Tbeam => repeat KRho n ++ repeat KEmb n ++ repeat KRhoS n ++ repeat KEmbS n
  | Adp => repeat KRho n ++ repeat KEmb n ++ repeat KDip (paircol n) ++ repeat KQuad (paircol n)
  | Meam => repeat KRho n ++ repeat KEmb n ++
            map (fun i => KF (i =? 0)) (seq 0 (paircol n)) ++ repeat KG n
  end.
(** potential_input_f4.c:98-315; den_count and emb_count, lines 139-150 *)
Definition kinds4 (b : build) (n : nat) : list kind :=
  repeat KPair (paircol n) ++
  match b with
  | Pairs | Ang | Meam => []
  | Eam => repeat KRho n ++ repeat KEmb n
  | Tbeam => repeat KRho (if n =? 1 then n + 1 else n * (n + 1) / 2) ++ repeat KEmb (2 * n)
  | Adp => repeat KRho n ++ repeat KEmb n ++ repeat KDip (paircol n) ++ repeat KQuad (paircol n)
  end.

(** a number as printed: %d or %.16e *)
Inductive tok := TInt (k : nat) | TNum (d : Qc).
(** #F, #I and #G lines *)
Record file := File { f_fmt : nat; f_num : nat; f_inv : option (list Z); f_grad : option (list Z);
                      f_toks : list tok }.
(** opt_pot, g_pot.format_type, invar_pot, have_invar, gradient *)
Record pot := Pot {
  p_fmt : nat; ncols : nat; invar : list Z; have_invar : bool; gradient : list Z;
  begin_ : list Qc; end_ : list Qc; first : list nat; last_ : list nat;
  table : list Qc; xcoord : list Qc; idx : list nat }.
Definition with_table (p : pot) (t : list Qc) : pot :=
  Pot (p_fmt p) (ncols p) (invar p) (have_invar p) (gradient p) (begin_ p) (end_ p) (first p) (last_ p)
      t (xcoord p) (idx p).

Section Tab.
(** conversion to decimal (%.16e) and from decimal (%lf) *)
Variable pr : Qc -> Qc.
Variable rd : Qc -> Qc.
(** begin + j * step with step = (end - begin) / (nvals - 1), in the arithmetic of the machine *)
Variable coord : Qc -> Qc -> nat -> nat -> Qc.
(** RESCALE *)
Variable resc : bool.

Definition num (t : tok) : Qc := match t with TInt k => rd (Q2Qc (inject_Z (Z.of_nat k))) | TNum d => rd d end.
Definition c1 : Qc := Q2Qc 1.
Definition e30 : Qc := rd (Q2Qc (inject_Z (10 ^ 30))).
Definition q0 : Qc := Q2Qc 0.
Definition ltq (a b : Qc) : bool := if Qlt_le_dec a b then true else false.

(** first and last, potential_input_f3.c:83-89; [s]: first of the next column *)
Fixpoint layout (s : nat) (nv : list nat) : list (nat * nat) :=
  match nv with
  | [] => []
  | k :: r => (s, s + k - 1) :: layout (s + k - 1 + 3) r
  end.
(** len, potential_input_f3.c:90 *)
Fixpoint total (nv : list nat) : nat := match nv with [] => 0 | k :: r => k + 2 + total r end.

(** potential_input_f3.c:120-127: free gradients; [l]: position of the first *)
Definition grad_idx (inv g : Z) (l : nat) : list nat :=
  (if (inv =? 0)%Z && negb (Z.shiftr g 1 =? 0)%Z then [l] else []) ++
  (if (inv =? 0)%Z && negb (Z.rem g 2 =? 0)%Z then [l + 1] else []).
(** potential_input_f3.c:136, 211, 383-390, 414: is value [j] of [nv] free *)
Definition free3 (k : kind) (nv j : nat) : bool :=
  match k with
  | KPair | KRho | KRhoS | KDip | KQuad | KF false => j <? nv - 1
  | KF true => (j <? nv - 1) && negb (j =? 0)
  | KEmb | KEmbS | KG => true
  end.
(** potential_input_f4.c:125, 180, 221, 267, 308 *)
Definition free4 (k : kind) (nv j : nat) : bool :=
  match k with
  | KPair | KRho | KDip => j <? nv - 1
  | _ => true
  end.
Definition val_idx (free : nat -> nat -> bool) (inv : Z) (nv l : nat) : list nat :=
  flat_map (fun j => if (inv =? 0)%Z && free nv j then [l + j] else []) (seq 0 nv).
(** gradients if there is no #G line *)
Definition def_grad (k : kind) : list Qc :=
  match k with
  | KPair | KRho | KRhoS | KDip | KF _ => [e30; q0]
  | KEmb | KEmbS | KQuad => [e30; e30]
  | KG => [q0; q0]
  end.

(** [k] times fscanf("%lf") *)
Fixpoint take_nums (k : nat) (ts : list tok) : outcome (list Qc * list tok) :=
  match k with
  | O => Done ([], ts)
  | S k' => match ts with
            | [] => Fail
            | t :: r => bind (take_nums k' r) (fun s => Done (num t :: fst s, snd s))
            end
  end.
Definition take_grad (hg : bool) (k : kind) (ts : list tok) : outcome (list Qc * list tok) :=
  if hg then take_nums 2 ts else Done (def_grad k, ts).
(** potential_input_f3.c:186-192, f4.c:229-235 *)
Definition gauge_ok (b e : Qc) : bool := resc || negb (ltq c1 b || ltq e c1).

(** The loops of potential_input_f3.c:104-418; [cs]: begin, end, nvals, invar, gradient of the
    columns not yet read; [l] the running position; results: table, xcoord, idx, rest *)
Fixpoint cols3 (hg : bool) (ks : list kind) (cs : list (Qc * Qc * nat * Z * Z)) (l : nat) (ts : list tok)
  : outcome (list Qc * list Qc * list nat * list tok) :=
  match ks with
  | [] => Done ([], [], [], ts)
  | k :: kr =>
      match cs with
      | [] => Undefined
      | (b, e, nv, inv, g) :: cr =>
          if (match k with KEmb => negb (gauge_ok b e) | _ => false end) then Fail else
          bind (take_grad hg k ts) (fun s1 =>
          bind (take_nums nv (snd s1)) (fun s2 =>
          bind (cols3 hg kr cr (l + 2 + nv) (snd s2)) (fun s =>
          let '(t, x, ix, r) := s in
          Done (fst s1 ++ fst s2 ++ t,
                [q0; q0] ++ map (coord b e nv) (seq 0 nv) ++ x,
                grad_idx inv g l ++ val_idx (free3 k) inv nv (l + 2) ++ ix, r))))
      end
  end.
(** the info block, potential_input_f3.c:75-91 *)
Fixpoint info3 (n : nat) (ts : list tok) : outcome (list (Qc * Qc * nat) * list tok) :=
  match n with
  | O => Done ([], ts)
  | S n' =>
      match ts with
      | tb :: te :: TInt k :: r => bind (info3 n' r) (fun s => Done ((num tb, num te, k) :: fst s, snd s))
      | _ => Fail
      end
  end.

(** header lines #I and #G, potential_input.c:296-354; Malloc: 0 *)
Definition header (n : nat) (o : option (list Z)) : outcome (list Z) :=
  match o with
  | None => Done (repeat 0%Z n)
  | Some l => if length l <? n then Fail else Done (firstn n l)
  end.
Definition any_one (l : list Z) : bool := existsb (fun z => (z =? 1)%Z) l.
Definition pad (n : nat) (l : list Qc) : list Qc := l ++ repeat q0 (n - length l).
Definition is_some {A} (o : option A) : bool := match o with Some _ => true | None => false end.

Definition join (i : Qc * Qc * nat) (v g : Z) : Qc * Qc * nat * Z * Z := (i, v, g).
Fixpoint zip3 (is : list (Qc * Qc * nat)) (vs gs : list Z) : list (Qc * Qc * nat * Z * Z) :=
  match is, vs, gs with
  | i :: is, v :: vs, g :: gs => join i v g :: zip3 is vs gs
  | _, _, _ => []
  end.

(** potential_input_f3.c:67-424 *)
Definition read3 (b : build) (n : nat) (f : file) : outcome pot :=
  bind (header (f_num f) (f_inv f)) (fun iv =>
  bind (header (f_num f) (f_grad f)) (fun gr =>
  bind (info3 (f_num f) (f_toks f)) (fun s =>
  let nv := map snd (fst s) in
  let lay := layout 2 nv in
  bind (cols3 (is_some (f_grad f)) (kinds3 b n) (zip3 (fst s) iv gr) 0 (snd s)) (fun c =>
  let '(t, x, ix, _) := c in
  Done (Pot 3 (f_num f) iv (is_some (f_inv f) && any_one iv) gr
          (map (fun i => fst (fst i)) (fst s)) (map (fun i => snd (fst i)) (fst s))
          (map fst lay) (map snd lay) (pad (total nv) t) (pad (total nv) x) ix))))).

(** fscanf("%lf %lf"): abscissa and value; [lax]: only one item is asked for
    (potential_input_f4.c:212, 299), the value stays zero *)
Definition take_pair (lax : bool) (ts : list tok) : outcome (Qc * Qc * list tok) :=
  match ts with
  | x :: v :: r => Done (num x, num v, r)
  | [x] => if lax then Done (num x, q0, []) else Fail
  | [] => Fail
  end.
(** [prev]: abscissa before; must increase, potential_input_f4.c:123 *)
Fixpoint take_pairs (lax : bool) (k : nat) (prev : option Qc) (ts : list tok)
  : outcome (list (Qc * Qc) * list tok) :=
  match k with
  | O => Done ([], ts)
  | S k' =>
      bind (take_pair lax ts) (fun s =>
      let '(x, v, r) := s in
      if (match prev with Some p => negb (ltq p x) | None => false end) then Fail else
      bind (take_pairs lax k' (Some x) r) (fun s' => Done ((x, v) :: fst s', snd s')))
  end.
Definition lax4 (k : kind) : bool := match k with KEmb | KQuad => true | _ => false end.
(** The loops of potential_input_f4.c:98-315; [cs]: nvals, invar, gradient.  A column without
    values is read outside of its range (lines 130-131): counted as undefined.
    Results: begin and end, table, xcoord, idx, rest *)
Fixpoint cols4 (hg : bool) (ks : list kind) (cs : list (nat * Z * Z)) (l : nat) (ts : list tok)
  : outcome (list (Qc * Qc) * list Qc * list Qc * list nat * list tok) :=
  match ks with
  | [] => Done (map (fun _ => (q0, q0)) cs, [], [], [], ts)
  | k :: kr =>
      match cs with
      | [] => Undefined
      | (nv, inv, g) :: cr =>
          bind (take_grad hg k ts) (fun s1 =>
          bind (take_pairs (lax4 k) nv None (snd s1)) (fun s2 =>
          match fst s2 with
          | [] => Undefined
          | (b, _) :: _ =>
              let e := fst (last (fst s2) (q0, q0)) in
              if (match k with KEmb => negb (gauge_ok b e) | _ => false end) then Fail else
              bind (cols4 hg kr cr (l + 2 + nv) (snd s2)) (fun s =>
              let '(be, t, x, ix, r) := s in
              Done ((b, e) :: be, fst s1 ++ map snd (fst s2) ++ t, [q0; q0] ++ map fst (fst s2) ++ x,
                    grad_idx inv g l ++ val_idx (free4 k) inv nv (l + 2) ++ ix, r))
          end))
      end
  end.
(** potential_input_f4.c:75-88 *)
Fixpoint info4 (n : nat) (ts : list tok) : outcome (list nat * list tok) :=
  match n with
  | O => Done ([], ts)
  | S n' =>
      match ts with
      | TInt k :: r => bind (info4 n' r) (fun s => Done (k :: fst s, snd s))
      | _ => Fail
      end
  end.
Fixpoint zip2 (is : list nat) (vs gs : list Z) : list (nat * Z * Z) :=
  match is, vs, gs with
  | i :: is, v :: vs, g :: gs => (i, v, g) :: zip2 is vs gs
  | _, _, _ => []
  end.
(** potential_input_f4.c:62-321 *)
Definition read4 (b : build) (n : nat) (f : file) : outcome pot :=
  bind (header (f_num f) (f_inv f)) (fun iv =>
  bind (header (f_num f) (f_grad f)) (fun gr =>
  bind (info4 (f_num f) (f_toks f)) (fun s =>
  let nv := fst s in
  let lay := layout 2 nv in
  bind (cols4 (is_some (f_grad f)) (kinds4 b n) (zip2 nv iv gr) 0 (snd s)) (fun c =>
  let '(be, t, x, ix, _) := c in
  Done (Pot 4 (f_num f) iv (is_some (f_inv f) && any_one iv) gr
          (map fst be) (map snd be) (map fst lay) (map snd lay)
          (pad (total nv) t) (pad (total nv) x) ix))))).

(** read_pot_table and read_pot_line_F, potential_input.c:67-149, 155-261 *)
Definition read (b : build) (n : nat) (f : file) : outcome pot :=
  if negb (f_num f =? npots b n) then Fail
  else match f_fmt f with 3 => read3 b n f | 4 => read4 b n f | _ => Fail end.

(** ** Writing *)
Definition at_ (l : list Qc) (j : nat) : Qc := nth j l q0.
Definition dbl (v : Qc) : tok := TNum (pr v).
Definition inv_line (p : pot) : option (list Z) := if have_invar p then Some (invar p) else None.
(** potential_output.c:268-375 (without the plot file) *)
Definition write3 (p : pot) : file :=
  File 3 (ncols p) (inv_line p) (Some (gradient p))
    (flat_map (fun i => [dbl (at_ (begin_ p) i); dbl (at_ (end_ p) i);
                         TInt (nth i (last_ p) 0 + 1 - nth i (first p) 0)]) (seq 0 (ncols p)) ++
     flat_map (fun i =>
       let f := nth i (first p) 0 in
       [dbl (at_ (table p) (f - 2)); dbl (at_ (table p) (f - 1))] ++
       map (fun j => dbl (at_ (table p) j)) (seq f (nth i (last_ p) 0 + 1 - f))) (seq 0 (ncols p))).
(** potential_output.c:383-482 *)
Definition write4 (p : pot) : file :=
  File 4 (ncols p) (inv_line p) (Some (gradient p))
    (map (fun i => TInt (nth i (last_ p) 0 + 1 - nth i (first p) 0)) (seq 0 (ncols p)) ++
     flat_map (fun i =>
       let f := nth i (first p) 0 in
       [dbl (at_ (table p) (f - 2)); dbl (at_ (table p) (f - 1))] ++
       flat_map (fun j => [dbl (at_ (xcoord p) j); dbl (at_ (table p) j)])
                (seq f (nth i (last_ p) 0 + 1 - f))) (seq 0 (ncols p))).
(** potential_output.c:50-68: the files written under the same name one after the other; no
    break between formats 3 and 4 *)
Definition write_potfit (p : pot) : list file :=
  match p_fmt p with
  | 3 => [write3 p; write4 p]
  | 4 => [write4 p]
  | _ => []
  end.
(** what is in the file afterwards *)
Definition left_over (p : pot) : option file :=
  match rev (write_potfit p) with [] => None | f :: _ => Some f end.
End Tab.
