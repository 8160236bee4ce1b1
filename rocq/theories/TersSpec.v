(** Tersoff functions as in the literature. *)
From Coq Require Import Reals List Bool.
From Verif Require Import Vec NbrModel PairModel PairSpec ThreeSpec BoSpec.
Local Open Scope R_scope.

(** Parameters of a pair of types. *)
Record ters := mk_ters { t_A : R; t_B : R; t_lambda : R; t_mu : R; t_gamma : R; t_n : R; t_c : R; t_d : R; t_h : R; t_S : R; t_R : R; t_omega : R }.
Section Functions.
Variable pw : R -> R -> R.   (* the power function *)
Variable par : nat -> nat -> ters.
Definition reach (s t : nat) (r : R) : bool := if Rlt_dec r (t_S (par s t)) then true else false.
Definition fc (s t : nat) (r : R) : R := let w := par s t in
  if Rlt_dec r (t_S w) then (if Rlt_dec r (t_R w) then 1 else 1/2 + 1/2 * cos (PI * (r - t_R w) / (t_S w - t_R w))) else 0.
Definition fc' (s t : nat) (r : R) : R := let w := par s t in
  if Rlt_dec r (t_S w) then (if Rlt_dec r (t_R w) then 0 else - (1/2) * (PI / (t_S w - t_R w)) * sin (PI * (r - t_R w) / (t_S w - t_R w))) else 0.
Definition repel (s t : nat) (r : R) : R := let w := par s t in fc s t r * (t_A w * exp (- t_lambda w * r)).
Definition repel' (s t : nat) (r : R) : R := let w := par s t in (fc' s t r - t_lambda w * fc s t r) * (t_A w * exp (- t_lambda w * r)).
(** half of it, as every bond is counted from both of its ends *)
Definition attract (s t : nat) (r : R) : R := let w := par s t in - (1/2) * (fc s t r * (t_B w * exp (- t_mu w * r))).
Definition attract' (s t : nat) (r : R) : R := let w := par s t in - (1/2) * ((fc' s t r - t_mu w * fc s t r) * (t_B w * exp (- t_mu w * r))).
Definition angle (s t : nat) (x : R) : R := let w := par s t in
  1 + t_c w * t_c w / (t_d w * t_d w) - t_c w * t_c w / (t_d w * t_d w + (t_h w - x) * (t_h w - x)).
Definition angle' (s t : nat) (x : R) : R := let w := par s t in
  - 2 * (t_c w * t_c w) * (t_h w - x) / (t_d w * t_d w + (t_h w - x) * (t_h w - x)) / (t_d w * t_d w + (t_h w - x) * (t_h w - x)).
Definition order (s t : nat) (z : R) : R := let w := par s t in pw (1 + pw (t_gamma w * z) (t_n w)) (-1 / (2 * t_n w)).
Definition order' (s t : nat) (z : R) : R := let w := par s t in
  if Req_EM_T z 0 then 0 else - (order s t z * pw (t_gamma w * z) (t_n w) / (2 * z * (1 + pw (t_gamma w * z) (t_n w)))).
Definition around (i j k : nat) (r1 r2 x : R) : R := fc i k r2 * t_omega (par i k) * angle i j x.
Definition around1 (i j k : nat) (r1 r2 x : R) : R := 0.
Definition around2 (i j k : nat) (r1 r2 x : R) : R := fc' i k r2 * t_omega (par i k) * angle i j x.
Definition aroundc (i j k : nat) (r1 r2 x : R) : R := fc i k r2 * t_omega (par i k) * angle' i j x.
End Functions.

(** ** Modified Tersoff functions *)
Record tmod := mk_tmod { m_A : R; m_B : R; m_lambda : R; m_mu : R; m_eta : R; m_delta : R; m_alpha : R; m_beta : R;
  m_c1 : R; m_c2 : R; m_c3 : R; m_c4 : R; m_c5 : R; m_h : R; m_R1 : R; m_R2 : R }.
Section Modified.
Variable pw : R -> R -> R.
Variable par : nat -> nat -> tmod.
Definition mreach (s t : nat) (r : R) : bool := if Rlt_dec r (m_R2 (par s t)) then true else false.
Definition mfc (s t : nat) (r : R) : R := let w := par s t in let y := PI * (r - m_R1 w) / (m_R2 w - m_R1 w) in
  if Rlt_dec r (m_R2 w) then (if Rlt_dec r (m_R1 w) then 1 else 1/2 + 9/16 * cos y - 1/16 * cos (3 * y)) else 0.
Definition mfc' (s t : nat) (r : R) : R := let w := par s t in let y := PI * (r - m_R1 w) / (m_R2 w - m_R1 w) in
  if Rlt_dec r (m_R2 w) then (if Rlt_dec r (m_R1 w) then 0 else (- (9/16) * sin y + 3/16 * sin (3 * y)) * (PI / (m_R2 w - m_R1 w))) else 0.
Definition mrepel (s t : nat) (r : R) : R := let w := par s t in mfc s t r * (m_A w * exp (- m_lambda w * r)).
Definition mrepel' (s t : nat) (r : R) : R := let w := par s t in (mfc' s t r - m_lambda w * mfc s t r) * (m_A w * exp (- m_lambda w * r)).
Definition mattract (s t : nat) (r : R) : R := let w := par s t in - (1/2) * (mfc s t r * (m_B w * exp (- m_mu w * r))).
Definition mattract' (s t : nat) (r : R) : R := let w := par s t in - (1/2) * ((mfc' s t r - m_mu w * mfc s t r) * (m_B w * exp (- m_mu w * r))).
Definition mangle (s t : nat) (x : R) : R := let w := par s t in let y := m_h w - x in
  m_c1 w + m_c2 w * (y * y) / (m_c3 w + y * y) * (1 + m_c4 w * exp (- m_c5 w * (y * y))).
Definition mangle' (s t : nat) (x : R) : R := let w := par s t in let y := m_h w - x in
  - (m_c2 w * (2 * y * m_c3 w) / (m_c3 w + y * y) / (m_c3 w + y * y) * (1 + m_c4 w * exp (- m_c5 w * (y * y))))
  + m_c2 w * (y * y) / (m_c3 w + y * y) * (2 * m_c5 w * y * (m_c4 w * exp (- m_c5 w * (y * y)))).
Definition morder (s t : nat) (z : R) : R := let w := par s t in pw (1 + pw z (m_eta w)) (- m_delta w).
Definition morder' (s t : nat) (z : R) : R := let w := par s t in
  if Req_EM_T z 0 then 0 else - (m_eta w * m_delta w * morder s t z * pw z (m_eta w) / ((1 + pw z (m_eta w)) * z)).
Definition spread (i j : nat) (r1 r2 : R) : R := let w := par i j in exp (m_alpha w * pw (r1 - r2) (m_beta w)).
Definition spread' (i j : nat) (r1 r2 : R) : R := let w := par i j in m_alpha w * (m_beta w * pw (r1 - r2) (m_beta w - 1)) * spread i j r1 r2.
Definition maround (i j k : nat) (r1 r2 x : R) : R := mfc i k r2 * mangle i j x * spread i j r1 r2.
Definition maround1 (i j k : nat) (r1 r2 x : R) : R := mfc i k r2 * mangle i j x * spread' i j r1 r2.
Definition maround2 (i j k : nat) (r1 r2 x : R) : R := mfc' i k r2 * mangle i j x * spread i j r1 r2 - mfc i k r2 * mangle i j x * spread' i j r1 r2.
Definition maroundc (i j k : nat) (r1 r2 x : R) : R := mfc i k r2 * mangle' i j x * spread i j r1 r2.
End Modified.
