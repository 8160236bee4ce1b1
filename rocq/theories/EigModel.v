(** The main routine of uncertainty quantification: repeated Hessians, their eigenvalues,
    files of the members (uq.c:72-262, 780-889).
    Real arithmetic as in UqModel.  The LAPACK routines dsyevx and dgesvd are oracles: functions
    of the matrix handed over, giving the contents of all output arrays.  Not modelled: text of
    the output, the interval (vl, vu) (range = 'A': dsyevx does not read it), MIN_STEP. *)
From Coq Require Import Reals List Arith Bool ZArith.
From Verif Require Import LoopUtil UqModel.
Import ListNotations.
Open Scope R_scope.

Definition mat := nat -> nat -> R.

(** ** LAPACK.  C arrays: row k of a column-major (Fortran) matrix of leading dimension n is
    column k there; [mat] is indexed as in C *)
(** output of dsyevx: A on exit, M, W, Z, INFO *)
Record syout := SY { sy_a : mat; sy_m : Z; sy_w : vec; sy_z : mat; sy_info : Z }.
(** output of dgesvd: A on exit, S, U, INFO *)
Record svout := SV { sv_a : mat; sv_s : vec; sv_u : mat; sv_info : Z }.

Section Eig.
(** opt_pot.idxlen *)
Variable n : nat.
Variable cost : vec -> R.
(** the perturbations found by calc_hessian (hess_bracketing) for parameters and cost *)
Variable pertf : vec -> R -> vec.

(** ** uq.c:91-106 *)
Inductive hres := HDone (h : mat) (x : vec) (c : R) (calls : nat) | HTooMany (x : vec) (c : R) | HNoEnd.
(** the while loop; [cnt]: hess_counter *)
Fixpoint again (fuel cnt : nat) (r : mat * vec * R * bool) : hres :=
  let '(h, x, c, flag) := r in
  match fuel with
  | O => HNoEnd
  | S fuel' =>
      if flag then
        if (cnt =? 10)%nat then HTooMany x c
        else again fuel' (S cnt) (calc_hessian n cost (pertf x c) x c h)
      else HDone h x c cnt
  end.
Definition hessians (fuel : nat) (h0 : mat) (x : vec) (c : R) : hres :=
  again fuel 1 (calc_hessian n cost (pertf x c) x c h0).

(** ** Eigenvalues *)
Variable syevx : mat -> syout.
Variable gesvd : mat -> svout.
(** [a]: contents of hessian; [v], [w]: of v_0, eigenvalues *)
Record estate := ES { e_a : mat; e_v : mat; e_w : vec }.

(** uq.c:786-824; [None]: error.  Result: m and the arrays *)
Definition calc_h0_eigenvectors (s : estate) : option (Z * estate) :=
  let o := syevx (e_a s) in
  let s' := ES (sy_a o) (sy_z o) (sy_w o) in
  if (sy_info o =? 0)%Z then Some (sy_m o, s')
  else if (0 <? sy_info o)%Z then Some ((Z.of_nat n - sy_m o)%Z, s')
  else None.
(** uq.c:832-889 *)
Definition calc_svd (s : estate) : option (Z * estate) :=
  let o := gesvd (e_a s) in
  if (sv_info o =? 0)%Z then Some (Z.of_nat n, ES (sv_a o) (sv_u o) (sv_s o)) else None.

Inductive eres := EDone (v : mat) (w : vec) (rounds : nat) | EError | ENoEnd.
(** uq.c:134-158; [k]: rounds so far (not in the code) *)
Fixpoint eig_loop (use_svd : Z) (fuel : nat) (k : nat) (m count : Z) (s : estate) : eres :=
  match fuel with
  | O => ENoEnd
  | S fuel' =>
      if (m <? Z.of_nat n)%Z then
        if (use_svd =? 1)%Z then
          match calc_svd s with
          | None => EError
          | Some (m', s') => eig_loop use_svd fuel' (S k) m' count s'
          end
        else
          match calc_h0_eigenvectors s with
          | None => EError
          | Some (m', s') =>
              if (10 <? count)%Z then
                match calc_svd s' with
                | None => EError
                | Some (m'', s'') =>
                    if negb (m'' =? Z.of_nat n)%Z then EError
                    else eig_loop use_svd fuel' (S k) m'' (count + 1) s''
                end
              else eig_loop use_svd fuel' (S k) m' (count + 1) s'
          end
      else EDone (e_v s) (e_w s) k
  end.
(** uq.c:119-128: m = 0, count = 0; [v0], [w0]: contents after allocation *)
Definition eigen (use_svd : Z) (fuel : nat) (h v0 : mat) (w0 : vec) : eres :=
  eig_loop use_svd fuel 0 0 0 (ES h v0 w0).
(** uq.c:160-168: numbers of the warnings *)
Definition warned (w : vec) : list nat :=
  for_up 0 n (fun i l => if Rlt_dec (w i) 0 then l ++ [i] else l) [].

(** ** Members *)
Variables resc temp : R.
(** uq.c:85-87 *)
Definition eig_max_used (eig_max : R) : R := if Req_EM_T eig_max 0 then 1 else eig_max.

(** uq.c:241-261: the files, number and parameters.  [i] counts the lines after the first *)
Fixpoint files (write_ensemble : Z) (c0 : R) (i : Z) (l : list line) : list (Z * vec) :=
  match l with
  | [] => []
  | y :: l' =>
      if Rlt_dec (l_cost y) c0 then (i + 1, l_x y)%Z :: files write_ensemble c0 (i + 1) l'
      else if (negb (write_ensemble =? 0) && (Z.rem (i + 1) write_ensemble =? 0))%Z
           then (i + 1, l_x y)%Z :: files write_ensemble c0 (i + 1) l'
           else files write_ensemble c0 (i + 1) l'
  end.

Inductive outcome :=
| Written (lines : list line) (pots : list (Z * vec)) (neg : list nat)
| Failed | NoEnd.
(** uq.c:72-262; [fuel]: moves per member; [h0], [v0], [w0]: contents after allocation *)
Definition ensemble_generation (eig_max : R) (use_svd write_ensemble : Z) (acc : nat)
    (rs : nat -> vec) (us : nat -> R) (fuel : nat) (h0 v0 : mat) (w0 x : vec) (cost_0 : R) : outcome :=
  match hessians 11 h0 x cost_0 with
  | HNoEnd => NoEnd
  | HTooMany _ _ => Failed
  | HDone h x' c' _ =>
      match eigen use_svd 13 h v0 w0 with
      | ENoEnd => NoEnd
      | EError => Failed
      | EDone v w _ =>
          match ensemble n cost (eig_max_used eig_max) resc temp v c' rs us fuel acc x' w with
          | None => NoEnd
          | Some l => Written l (files write_ensemble c' 0 (tl l)) (warned w)
          end
      end
  end.
End Eig.
