(** The file formats and formulas of the LAMMPS manual (pair styles sw, tersoff,
    tersoff/mod, table, eam/alloy, adp), independent of the export code. *)
From Coq Require Import Reals List Bool.
From Verif Require Import Vec.
Import ListNotations.
Local Open Scope R_scope.

(** Lines of a file: three elements and numbers ([None]: not a number) *)
Definition entry_line : Type := (nat * nat * nat) * list (option R).
Definition lookup (file : list entry_line) (i j k : nat) : option (list (option R)) :=
  match filter (fun l => let '(a, b, c) := fst l in (Nat.eqb a i && Nat.eqb b j && Nat.eqb c k)%bool) file with
  | [l] => Some (snd l)
  | _ => None
  end.
Fixpoint numbers (l : list (option R)) : option (list R) :=
  match l with
  | [] => Some []
  | Some x :: t => match numbers t with Some m => Some (x :: m) | None => None end
  | None :: _ => None
  end.

(** ** pair_style sw *)
Record sw_entry := mk_sw { l_eps : R; l_sigma : R; l_a : R; l_lambda : R; l_gamma : R; l_cos0 : R; l_A : R; l_B : R; l_p : R; l_q : R }.
(** "epsilon sigma a lambda gamma costheta0 A B p q tol" *)
Definition sw_of (l : option (list (option R))) : option sw_entry :=
  match l with
  | None => None
  | Some l => match numbers l with
    | Some [eps; sigma; a; lambda; gamma; cos0; A; B; p; q; _] => Some (mk_sw eps sigma a lambda gamma cos0 A B p q)
    | _ => None
    end
  end.
(** phi2 = A eps [B (sigma/r)^p - (sigma/r)^q] exp(sigma / (r - a sigma)) for r < a sigma *)
Definition sw_phi2 (e : sw_entry) (r : R) : R :=
  if Rlt_dec r (l_a e * l_sigma e)
  then l_A e * l_eps e * (l_B e * Rpower (l_sigma e / r) (l_p e) - Rpower (l_sigma e / r) (l_q e)) *
       exp (l_sigma e / (r - l_a e * l_sigma e))
  else 0.
(** exp(gamma sigma / (r - a sigma)) *)
Definition sw_damp (e : sw_entry) (r : R) : R := exp (l_gamma e * l_sigma e / (r - l_a e * l_sigma e)).
(** lambda eps [cos theta - cos theta0]^2 and the two factors; sigma, a, gamma from the
    entries ijj and ikk, lambda, eps, costheta0 from the entry ijk *)
Definition sw_phi3 (ijk ijj ikk : sw_entry) (rj rk c : R) : R :=
  if Rlt_dec rj (l_a ijj * l_sigma ijj) then
    if Rlt_dec rk (l_a ikk * l_sigma ikk) then
      l_lambda ijk * l_eps ijk * (c - l_cos0 ijk) ^ 2 * sw_damp ijj rj * sw_damp ikk rk
    else 0
  else 0.

(** ** pair_style tersoff *)
Record ts_entry := mk_ts { t_m : R; t_gamma : R; t_lambda3 : R; t_c : R; t_d : R; t_cos0 : R; t_n : R; t_beta : R;
  t_lambda2 : R; t_B : R; t_R : R; t_D : R; t_lambda1 : R; t_A : R }.
(** "m, gamma, lambda3, c, d, costheta0, n, beta, lambda2, B, R, D, lambda1, A" *)
Definition ts_of (l : option (list (option R))) : option ts_entry :=
  match l with
  | None => None
  | Some l => match numbers l with
    | Some [m; g; l3; c; d; h; n; beta; l2; B; RR; D; l1; A] => Some (mk_ts m g l3 c d h n beta l2 B RR D l1 A)
    | _ => None
    end
  end.
Definition ts_fC (e : ts_entry) (r : R) : R :=
  if Rlt_dec r (t_R e - t_D e) then 1
  else if Rlt_dec (t_R e + t_D e) r then 0
  else 1 / 2 - 1 / 2 * sin (PI / 2 * ((r - t_R e) / t_D e)).
Definition ts_gth (e : ts_entry) (c : R) : R :=
  t_gamma e * (1 + t_c e ^ 2 / t_d e ^ 2 - t_c e ^ 2 / (t_d e ^ 2 + (c - t_cos0 e) ^ 2)).
Section Ters.
Variable pw : R -> R -> R.      (* x to the power y *)
(** A neighbour: type and distance; [cosjk j k] cosine of the angle at the central atom *)
Variable nbs : list (nat * R).
Variable cosjk : nat -> nat -> R.
Definition others (j : nat) : list nat := filter (fun k => negb (Nat.eqb k j)) (seq 0 (length nbs)).
Definition nb_typ (j : nat) : nat := fst (nth j nbs (0%nat, 0)).
Definition nb_r (j : nat) : R := snd (nth j nbs (0%nat, 0)).
(** zeta_ij = sum over k of fC(r_ik) g(theta) exp[lambda3^m (r_ij - r_ik)^m], all with the
    entry ijk *)
Definition lzeta (E : nat -> ts_entry) (j : nat) : R :=
  rsumf (fun k => let e := E (nb_typ k) in
    ts_fC e (nb_r k) * ts_gth e (cosjk j k) * exp (pw (t_lambda3 e) (t_m e) * pw (nb_r j - nb_r k) (t_m e)))
    (others j).
(** E_ij / 2 = 1/2 fC(r) [A exp(-lambda1 r) - b B exp(-lambda2 r)] with the entry ijj and
    b = (1 + beta^n zeta^n)^(-1/2n); [E k]: entry ijk for k of type k *)
Definition lbond (ijj : ts_entry) (E : nat -> ts_entry) (j : nat) : R :=
  let b := pw (1 + pw (t_beta ijj) (t_n ijj) * pw (lzeta E j) (t_n ijj)) (- 1 / (2 * t_n ijj)) in
  1 / 2 * (ts_fC ijj (nb_r j) * (t_A ijj * exp (- t_lambda1 ijj * nb_r j) - b * (t_B ijj * exp (- t_lambda2 ijj * nb_r j)))).

(** ** pair_style tersoff/mod *)
Record tm_entry := mk_tm { m_beta : R; m_alpha : R; m_h : R; m_eta : R; m_dummy : R; m_lambda2 : R; m_B : R; m_R : R; m_D : R;
  m_lambda1 : R; m_A : R; m_n : R; m_c1 : R; m_c2 : R; m_c3 : R; m_c4 : R; m_c5 : R }.
(** "beta, alpha, h, eta, beta_ters, lambda2, B, R, D, lambda1, A, n, c1, c2, c3, c4, c5" *)
Definition tm_of (l : option (list (option R))) : option tm_entry :=
  match l with
  | None => None
  | Some l => match numbers l with
    | Some [beta; alpha; h; eta; bt; l2; B; RR; D; l1; A; n; c1; c2; c3; c4; c5] =>
        Some (mk_tm beta alpha h eta bt l2 B RR D l1 A n c1 c2 c3 c4 c5)
    | _ => None
    end
  end.
Definition tm_fC (e : tm_entry) (r : R) : R :=
  if Rlt_dec r (m_R e - m_D e) then 1
  else if Rlt_dec (m_R e + m_D e) r then 0
  else 1 / 2 - 9 / 16 * sin (PI / 2 * ((r - m_R e) / m_D e)) - 1 / 16 * sin (3 * PI / 2 * ((r - m_R e) / m_D e)).
(** g = c1 + g_o g_a *)
Definition tm_gth (e : tm_entry) (c : R) : R :=
  m_c1 e + m_c2 e * (m_h e - c) ^ 2 / (m_c3 e + (m_h e - c) ^ 2) * (1 + m_c4 e * exp (- (m_c5 e * (m_h e - c) ^ 2))).
Definition mzeta (E : nat -> tm_entry) (j : nat) : R :=
  rsumf (fun k => let e := E (nb_typ k) in
    tm_fC e (nb_r k) * tm_gth e (cosjk j k) * exp (m_alpha e * pw (nb_r j - nb_r k) (m_beta e)))
    (others j).
(** b = (1 + zeta^eta)^(-1/2n) *)
Definition mbond (ijj : tm_entry) (E : nat -> tm_entry) (j : nat) : R :=
  let b := pw (1 + pw (mzeta E j) (m_eta ijj)) (- 1 / (2 * m_n ijj)) in
  1 / 2 * (tm_fC ijj (nb_r j) * (m_A ijj * exp (- m_lambda1 ijj * nb_r j) - b * (m_B ijj * exp (- m_lambda2 ijj * nb_r j)))).
End Ters.

(** Numbers with finitely many decimals *)
Definition decimal (x : R) : Prop := exists m e : BinNums.Z, x = IZR m * powerRZ 10 e.

(** setfl and adp files: the pairs (i, j) of the blocks, i >= j, in the order
    (1,1), (2,1), (2,2), (3,1), ... *)
Definition setfl_pairs (n : nat) : list (nat * nat) :=
  flat_map (fun i => map (fun j => (i, j)) (seq 0 (i + 1))) (seq 0 n).
