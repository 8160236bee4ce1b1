(** Uncertainty quantification (uq.c) and normal deviates (random.c).
    Real arithmetic; costs are real numbers (no NaN).  The free parameters
    opt_pot.table[opt_pot.idx[i]] are the vector [x]; [cost] is calc_forces as a function of
    them (evaluation does not change the parameters).  Printing is not modelled. *)
From Coq Require Import Reals List Arith Bool ZArith Floats.SpecFloat.
From Verif Require Import LoopUtil.
Import ListNotations.
Open Scope R_scope.

Definition vec := nat -> R.
Definition upd (x : vec) (i : nat) (v : R) : vec := fun k => if (k =? i)%nat then v else x k.

(** ** random.c:81-104 *)
(** static have_number, nd2; number of uniforms used so far *)
Record nstate := NS { have : bool; nd2 : R; used : nat }.
(** [u]: the uniform random numbers; the do-while loop with [fuel] attempts;
    result: x1, x2, sqr and the uniforms used *)
Fixpoint polar (u : nat -> R) (fuel k : nat) : option (R * R * R * nat) :=
  match fuel with
  | O => None
  | S fuel' =>
      let x1 := 2 * u k - 1 in
      let x2 := 2 * u (S k) - 1 in
      let sqr := x1 * x1 + x2 * x2 in
      if Rge_dec sqr 1 then polar u fuel' (S (S k))
      else if Req_EM_T sqr 0 then polar u fuel' (S (S k))
      else Some (x1, x2, sqr, S (S k))
  end.
(** checked operations: [None] for arguments outside of the domain *)
Definition log_c (x : R) : option R := if Rlt_dec 0 x then Some (ln x) else None.
Definition div_c (a b : R) : option R := if Req_EM_T b 0 then None else Some (a / b).
Definition sqrt_c (x : R) : option R := if Rle_dec 0 x then Some (sqrt x) else None.
Inductive drawn := Value (r : R) (s : nstate) | NoEnd | Invalid.
Definition normdist (u : nat -> R) (fuel : nat) (s : nstate) : drawn :=
  if have s then Value (nd2 s) (NS false (nd2 s) (used s))
  else match polar u fuel (used s) with
       | None => NoEnd
       | Some (x1, x2, sqr, k) =>
           match log_c sqr with
           | None => Invalid
           | Some l =>
               match div_c (-2 * l) sqr with
               | None => Invalid
               | Some q =>
                   match sqrt_c q with
                   | None => Invalid
                   | Some cnst => Value (x1 * cnst) (NS true (x2 * cnst) k)
                   end
               end
           end
       end.

Section Uq.
(** opt_pot.idxlen *)
Variable n : nat.
Variable cost : vec -> R.

(** ** Hessian, uq.c:505-778 *)
(** uq.c:52: VERY_LARGE *)
Definition very_large : R := 10 ^ 12.

(** stored better fit: parameters and cost (new_cost_param_values) *)
Definition better := (vec * R)%type.
(** uq.c:594-601 and the three copies: [c0] is *cost *)
Definition note (c0 : R) (x : vec) (c : R) (b : better) : better :=
  if Rlt_dec c c0 then if Rlt_dec c (snd b) then (x, c) else b else b.

(** uq.c:571-580 *)
Definition dist (pert x : vec) : vec := fun j => if Req_EM_T (x j) 0 then pert j else pert j * x j.

Record hstate := HS { hx : vec; hb : better; hm : nat -> nat -> R }.
Definition seth (h : nat -> nat -> R) (i j : nat) (v : R) : nat -> nat -> R :=
  fun a b => if ((a =? i) && (b =? j))%nat%bool then v else h a b.

(** uq.c:588-643 *)
Definition diag (c0 : R) (d : vec) (i : nat) (s : hstate) : hstate :=
  let xp := upd (hx s) i (hx s i + d i) in
  let cp := cost xp in
  let b1 := note c0 xp cp (hb s) in
  let xm := upd xp i (xp i - 2 * d i) in
  let cm := cost xm in
  let b2 := note c0 xm cm b1 in
  let xr := upd xm i (xm i + d i) in
  HS xr b2 (seth (hm s) i i ((cp - 2 * c0 + cm) / (d i * d i))).

(** uq.c:655-728; the costs of (+,+) and (-,-) are not compared with the best *)
Definition offdiag (c0 : R) (d : vec) (i j : nat) (s : hstate) : hstate :=
  let x1 := upd (hx s) i (hx s i + d i) in
  let xpp := upd x1 j (x1 j + d j) in
  let cpp := cost xpp in
  let xpm := upd xpp j (xpp j - 2 * d j) in
  let cpm := cost xpm in
  let b1 := note c0 xpm cpm (hb s) in
  let x2 := upd xpm i (xpm i - 2 * d i) in
  let xmp := upd x2 j (x2 j + 2 * d j) in
  let cmp := cost xmp in
  let b2 := note c0 xmp cmp b1 in
  let xmm := upd xmp j (xmp j - 2 * d j) in
  let cmm := cost xmm in
  let x3 := upd xmm i (xmm i + d i) in
  let xr := upd x3 j (x3 j + d j) in
  let v := (cpp + cmm - cpm - cmp) / (4 * d i * d j) in
  HS xr b2 (seth (seth (hm s) i j v) j i v).

(** the result: matrix, parameters, cost, flag *)
Definition calc_hessian (pert x : vec) (c0 : R) (h0 : nat -> nat -> R) :
    (nat -> nat -> R) * vec * R * bool :=
  let d := dist pert x in
  let s0 := HS x ((fun _ => 0), very_large) h0 in
  let s1 := for_up 0 n (diag c0 d) s0 in
  let s2 := for_up 0 n (fun i => for_up (S i) n (offdiag c0 d i)) s1 in
  if Req_EM_T (snd (hb s2)) very_large then (hm s2, hx s2, c0, false)
  else (hm s2, fst (hb s2), snd (hb s2), true).

(** The same three changes of a parameter in binary64 arithmetic, uq.c:591, 603, 615:
    p += d; p -= 2 * d; p += d *)
Definition restore64 (p d : spec_float) : spec_float :=
  let two := S754_finite false 4503599627370496 (-51) in
  let p1 := SFadd 53 1024 p d in
  let p2 := SFsub 53 1024 p1 (SFmul 53 1024 two d) in
  SFadd 53 1024 p2 d.

(** ** Perturbation search, uq.c:274-377 *)
(** uq.c:483-497 *)
Definition pert_cost (x : vec) (index : nat) (pert : R) : R := cost (upd x index (x index * (1 + pert))).
(** uq.c:302-306; result: pert, pert_cost *)
Fixpoint shrink (x : vec) (index : nat) (aim : R) (fuel : nat) (p c : R) : option (R * R) :=
  match fuel with
  | O => None
  | S fuel' => if Rlt_dec aim c then shrink x index aim fuel' (p / 10) (pert_cost x index (p / 10))
               else Some (p, c)
  end.
(** uq.c:314-327; result: lb, ub *)
Fixpoint grow (x : vec) (index : nat) (aim : R) (fuel : nat) (lb p c : R) : option (R * R) :=
  match fuel with
  | O => None
  | S fuel' => if Rlt_dec c aim then grow x index aim fuel' p (p * 10) (pert_cost x index (p * 10))
               else Some (lb, p)
  end.
(** uq.c:274-327: the first bracket *)
Definition first_bracket (x : vec) (index : nat) (aim : R) (neg : bool) (fuel : nat) : option (R * R) :=
  let p := if neg then - (1 / 1000000) else 1 / 1000000 in
  match shrink x index aim fuel p (pert_cost x index p) with
  | None => None
  | Some (p, c) => grow x index aim fuel p p c
  end.

(** ** Monte Carlo, uq.c:898-1037 (without MIN_STEP) *)
(** eig_max, acc_rescaling, uq_temp *)
Variables eig_max resc temp : R.

(** uq.c:968-975 *)
Definition min_pos (w : vec) : R :=
  for_up 0 n (fun j m => if Rlt_dec 0 (w j) then if Rlt_dec (w j) m then w j else m else m) very_large.
(** uq.c:961-994, one eigenvalue *)
Definition clip (i : nat) (w : vec) : vec :=
  let w1 := if Rlt_dec (w i) 0
            then let m := min_pos w in
                 upd w i (if Rle_dec (Rabs (w i)) m then Rabs (w i) else m)
            else w in
  let w2 := if Rlt_dec (w1 i) eig_max then upd w1 i eig_max else w1 in
  upd w2 i (Rabs (w2 i)).
(** uq.c:961-997; [r]: the normal deviates of this move; result w, lambda *)
Definition scales (r w : vec) : vec * vec :=
  for_up 0 n (fun i s =>
    let w' := clip i (fst s) in
    (w', upd (snd s) i (1 / sqrt (w' i) * (sqrt resc * r i)))) (w, fun _ => 0).
(** uq.c:1002-1011 *)
Definition moved (v0 : nat -> vec) (lambda x : vec) : vec :=
  for_up 0 n (fun i x =>
    upd x i (x i + for_up 0 n (fun j a => a + v0 j i * lambda j) 0)) x.
(** uq.c:943-1037; [u]: the uniform deviate; result: parameters, w, cost_before, decision *)
Definition mc_moves (v0 : nat -> vec) (c0 : R) (r : vec) (u : R) (x w : vec) (cb : R) :
    vec * vec * R * bool :=
  let s := scales r w in
  let x' := moved v0 (snd s) x in
  let ca := cost x' in
  if Rlt_dec (ca - cb) 0 then (x', fst s, ca, true)
  else if Rle_dec u (exp (- (INR n * (ca - cb)) / (2 * c0 * temp))) then (x', fst s, ca, true)
  else (x', fst s, cb, false).
(** uq.c:898-935; [rs], [us]: deviates of the k-th move of the run; [k]: moves so far;
    [cnt]: count.  Result: parameters, w, cost, weight, moves so far *)
Fixpoint mc_sample (v0 : nat -> vec) (c0 : R) (rs : nat -> vec) (us : nat -> R)
    (fuel k cnt : nat) (old w : vec) (cb : R) : option (vec * vec * R * nat * nat) :=
  match fuel with
  | O => None
  | S fuel' =>
      let '(x', w', cb', acc) := mc_moves v0 c0 (rs k) (us k) old w cb in
      if acc then Some (x', w', cb', S cnt, S k)
      else mc_sample v0 c0 rs us fuel' (S k) (S cnt) old w' cb'
  end.
(** The output: lines with parameters and cost, then weight and attempts, uq.c:195-232 *)
Record line := Line { l_x : vec; l_cost : R; l_weight : nat; l_attempts : nat }.
(** uq.c:205-259: [acc] further moves; [x], [c]: the line begun; result: finished lines *)
Fixpoint members (v0 : nat -> vec) (c0 : R) (rs : nat -> vec) (us : nat -> R)
    (fuel acc k weight attempts : nat) (x w : vec) (c : R) : option (list line) :=
  match acc with
  | O => Some [Line x c weight (attempts + weight)]
  | S acc' =>
      match mc_sample v0 c0 rs us fuel k 0 x w c with
      | None => None
      | Some (x', w', c', weight', k') =>
          match members v0 c0 rs us fuel acc' k' weight' (attempts + weight') x' w' c' with
          | None => None
          | Some l => Some (Line x c weight' (attempts + weight') :: l)
          end
      end
  end.
(** uq.c:180-259: weight = 1, pot_attempts = 0 *)
Definition ensemble (v0 : nat -> vec) (c0 : R) (rs : nat -> vec) (us : nat -> R)
    (fuel acc : nat) (x w : vec) : option (list line) :=
  members v0 c0 rs us fuel acc 0 1 0 x w c0.
End Uq.
