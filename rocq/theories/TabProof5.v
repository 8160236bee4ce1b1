(** Builds whose files are not read back as written; examples. *)
From Coq Require Import List ZArith QArith Qcanon Qabs Bool Arith Lia Lqa.
From Verif Require Import TabModel TabSpec TabProof TabProof2 TabProof3 TabProof4.
Import ListNotations.
Close Scope Q_scope.
Close Scope Qc_scope.
Open Scope nat_scope.

Lemma nth_repeat_app : forall (A : Type) (x : A) m l i d, m <= i -> nth i (repeat x m ++ l) d = nth (i - m) l d.
Proof. intros A x m l i d H. rewrite app_nth2; rewrite repeat_length; [reflexivity|exact H]. Qed.
Lemma nth_repeat_in : forall (A : Type) (x : A) m i d, i < m -> nth i (repeat x m) d = x.
Proof. intros A x m. induction m as [|m IH]; intros [|i] d H; try lia; [reflexivity|]. cbn. apply IH. lia. Qed.
Lemma quad_kind : forall n i, 2 * (paircol n + n) <= i < npots Adp n -> nth i (kinds3 Adp n) KPair = KQuad.
Proof.
  intros n i H. unfold kinds3, npots in *. rewrite !nth_repeat_app by lia. apply nth_repeat_in. lia.
Qed.

Section Conforming.
Variables (pr rd : Qc -> Qc) (coord : Qc -> Qc -> nat -> nat -> Qc) (resc : bool).
Hypothesis Hpr : forall x : Qc, binary64 x -> prints_e 16 x (pr x).
Hypothesis Hrd : forall d : Qc, reads d (rd d).

Lemma rd_exact : forall d : Qc, binary64 d -> rd d = d.
Proof.
  intros d H. destruct (Hrd d) as [_ N]. specialize (N d H). apply Qc_is_canon.
  assert (E : Qeq (Qabs (d - d)) 0) by (setoid_replace (d - d)%Q with 0%Q by ring; reflexivity).
  rewrite E in N. apply Qabs_Qle_condition in N. lra.
Qed.
Lemma small_B : forall k : nat, k < 100 -> B (Q2Qc (inject_Z (Z.of_nat k))).
Proof.
  intros k H. exists (Z.of_nat k), 0%Z. split.
  - apply Z.lt_trans with 100%Z; [lia|reflexivity].
  - cbn [Q2Qc this]. rewrite Qred_correct. change (Qpower 2 0) with 1%Q. ring.
Qed.
Lemma num_small : forall k : nat, k < 100 -> num rd (TInt k) = Q2Qc (inject_Z (Z.of_nat k)).
Proof. intros k H. unfold num. apply rd_exact. apply small_B. exact H. Qed.

Lemma adp_freed : forall n f p t i,
  read rd coord resc Adp n f = Done p -> f_fmt f = 3 -> binary_flags (invar p) ->
  length t = length (table p) -> Forall B t -> (forall i, i < ncols p -> proper p i) ->
  2 * (paircol n + n) <= i < npots Adp n -> nth i (invar p) 0%Z = 0%Z ->
  exists p', read rd coord resc Adp n (write4 pr (with_table p t)) = Done p' /\
    ~ In (nth i (last_ p) 0) (idx p) /\ In (nth i (last_ p) 0) (idx p').
Proof.
  intros n f p t i R E F L T P HI V.
  destruct (through pr rd coord resc Hpr Hrd Adp n f p t (or_intror (or_intror eq_refl)) R E F L T P) as [p' [R' [S _]]].
  exists p'. split; [exact R'|]. unfold read in R, R'.
  destruct (Nat.eqb_spec (f_num f) (npots Adp n)) as [N|N]; [cbn [negb] in R|discriminate]. rewrite E in R.
  destruct (Nat.eqb_spec (f_num (write4 pr (with_table p t))) (npots Adp n)) as [N'|N']; [cbn [negb] in R'|discriminate].
  change (f_fmt (write4 pr (with_table p t))) with 4 in R'. cbv iota in R'.
  pose proof (kinds3_all Adp n ltac:(discriminate)) as K3.
  pose proof (kinds4_all Adp n ltac:(auto)) as K4.
  assert (LN : i < ncols p). { change (f_num (write4 pr (with_table p t))) with (ncols p) in N'. lia. }
  pose proof (P i LN) as PI. unfold proper in PI. destruct PI as [P1 _].
  destruct S as [S1 [S2 [S3 [S4 [S5 [S6 [S7 [S8 S9]]]]]]]]. cbn [with_table ncols invar first last_] in S1, S2, S6, S7.
  split.
  - intro IN. apply (free_values3 rd coord resc Hrd Adp n f p i) in IN; [|lia|exact R|exact LN|lia].
    destruct IN as [_ IN]. rewrite quad_kind in IN by exact HI. cbn [free3] in IN. apply Nat.ltb_lt in IN. lia.
  - rewrite <- S7. apply (free_values4 rd resc Hrd Adp n (write4 pr (with_table p t)) p' i);
      [lia|exact R'|lia|rewrite S6, S7; lia|].
    rewrite S2. split; [exact V|]. rewrite (kinds34 Adp n) by auto. rewrite quad_kind by exact HI. reflexivity.
Qed.

Lemma lost4 : forall b n f p i, b = Meam \/ b = Ang \/ (b = Tbeam /\ n = 2) ->
  read rd coord resc b n f = Done p -> f_fmt f = 4 ->
  (match b with Tbeam => 10 | _ => paircol n end) <= i < npots b n ->
  ncols p = npots b n /\ at_ (begin_ p) i = q0 /\ at_ (end_ p) i = q0 /\
  forall j, start p i <= j -> at_ (table p) j = q0 /\ ~ In j (idx p).
Proof.
  intros b n f p i Hb R E HI. unfold read in R.
  destruct (Nat.eqb_spec (f_num f) (npots b n)) as [N|N]; [cbn [negb] in R|discriminate]. rewrite E in R.
  assert (C : ncols p = f_num f).
  { clear - R. unfold read4 in R. destruct (header (f_num f) (f_inv f)); try discriminate.
    destruct (header (f_num f) (f_grad f)); try discriminate. cbn [bind] in R.
    destruct (info4 (f_num f) (f_toks f)) as [[nv r]| |]; try discriminate. cbn [bind] in R.
    destruct (cols4 rd resc _ _ _ _ _) as [[[[[be t] x] ix] r']| |]; try discriminate.
    cbn [bind] in R. injection R as <-. reflexivity. }
  assert (K : length (kinds4 b n) <= i).
  { destruct Hb as [->|[->|[-> ->]]]; cbv iota in HI.
    - unfold kinds4. rewrite app_length, repeat_length. cbn [length]. lia.
    - unfold kinds4. rewrite app_length, repeat_length. cbn [length]. lia.
    - change (length (kinds4 Tbeam 2)) with 10. lia. }
  split; [lia|]. apply (unread4 rd resc Hrd b n f p i R). lia.
Qed.
Lemma lost3 : forall n f p i, read rd coord resc Ang n f = Done p -> f_fmt f = 3 ->
  paircol n <= i < npots Ang n ->
  forall j, start p i <= j -> at_ (table p) j = q0 /\ ~ In j (idx p).
Proof.
  intros n f p i R E HI. unfold read in R.
  destruct (Nat.eqb_spec (f_num f) (npots Ang n)) as [N|N]; [cbn [negb] in R|discriminate]. rewrite E in R.
  assert (C : ncols p = f_num f).
  { clear - R. unfold read3 in R. destruct (header (f_num f) (f_inv f)); try discriminate.
    destruct (header (f_num f) (f_grad f)); try discriminate. cbn [bind] in R.
    destruct (info3 rd (f_num f) (f_toks f)) as [[nv r]| |]; try discriminate. cbn [bind] in R.
    destruct (cols3 rd coord resc _ _ _ _ _) as [[[[t x] ix] r']| |]; try discriminate.
    cbn [bind] in R. injection R as <-. reflexivity. }
  apply (unread3 rd coord resc Hrd Ang n f p i R).
  unfold kinds3. rewrite app_length, repeat_length. cbn [length]. lia.
Qed.
Lemma tbeam4_overrun : forall f p, f_fmt f = 4 -> read rd coord resc Tbeam 4 f <> Done p.
Proof.
  intros f p E R. unfold read in R.
  destruct (Nat.eqb_spec (f_num f) (npots Tbeam 4)) as [N|N]; [cbn [negb] in R|discriminate]. rewrite E in R.
  apply (overrun4 rd resc Hrd Tbeam 4 f p) in R; [exact R|]. rewrite N.
  change (length (kinds4 Tbeam 4)) with 28. change (npots Tbeam 4) with 26. lia.
Qed.
Lemma tbeam1_kinds : forall f p, f_fmt f = 4 -> read rd coord resc Tbeam 1 f = Done p ->
  (forall i, i < 5 -> nth i (first p) 0 <= nth i (last_ p) 0) -> Forall (eq 0%Z) (invar p) ->
  ~ In (nth 2 (last_ p) 0) (idx p) /\ In (nth 3 (last_ p) 0) (idx p).
Proof.
  intros f p E R P F. unfold read in R.
  destruct (Nat.eqb_spec (f_num f) (npots Tbeam 1)) as [N|N]; [cbn [negb] in R|discriminate]. rewrite E in R.
  change (npots Tbeam 1) with 5 in N. symmetry in N. change 5 with (length (kinds4 Tbeam 1)) in N.
  destruct (read4_is rd resc Hrd Tbeam 1 f p N R) as [nv [be [_ [_ [C _]]]]].
  rewrite <- N in C. change (length (kinds4 Tbeam 1)) with 5 in C.
  split.
  - intro IN. apply (free_values4 rd resc Hrd Tbeam 1 f p 2) in IN; [|exact N|exact R|lia|pose proof (P 2); lia].
    destruct IN as [_ IN]. change (nth 2 (kinds4 Tbeam 1) KPair) with KRho in IN. cbn [free4] in IN.
    apply Nat.ltb_lt in IN. specialize (P 2). lia.
  - apply (free_values4 rd resc Hrd Tbeam 1 f p 3); [exact N|exact R|lia|pose proof (P 3); lia|].
    split; [|reflexivity]. clear - F. generalize 3 as k. induction F as [|z l <- F IH]; intros [|k]; try reflexivity. apply IH.
Qed.
Lemma flag_lost : forall (p : pot), p_fmt p = 3 -> invar p = [2%Z] -> have_invar p = false ->
  f_inv (write3 pr p) = None /\ header 1 None = Done [0%Z].
Proof. intros p _ I H. split; [|reflexivity]. unfold write3, inv_line. cbn [f_inv]. rewrite H. reflexivity. Qed.

(** *** examples *)
Definition ex3 : file := File 3 1 None (Some [3%Z]) (map TInt [1; 3; 3; 0; 0; 7; 5; 0]).
Definition ex4 : file := File 4 1 (Some [0%Z]) (Some [2%Z]) (map TInt [3; 0; 0; 1; 7; 2; 5; 4; 0]).
Lemma ex3_read : exists p, read rd coord resc Pairs 1 ex3 = Done p /\ idx p = [0; 1; 2; 3].
Proof. eexists. split; reflexivity. Qed.
Lemma ex4_read : exists p, read rd coord resc Pairs 1 ex4 = Done p /\ idx p = [0; 2; 3].
Proof.
  unfold read, read4, ex4. cbn [f_num f_fmt f_inv f_grad f_toks map]. cbn [Nat.eqb negb npots].
  change (1 =? paircol 1) with true. cbn [negb].
  cbn [header length Nat.ltb Nat.leb firstn bind info4 fst snd is_some].
  change (kinds4 Pairs 1) with [KPair]. cbn [zip2 cols4 take_grad take_nums bind fst snd take_pairs take_pair lax4].
  rewrite !num_small by lia.
  change (negb (ltq (Q2Qc (inject_Z (Z.of_nat 1))) (Q2Qc (inject_Z (Z.of_nat 2))))) with false.
  change (negb (ltq (Q2Qc (inject_Z (Z.of_nat 2))) (Q2Qc (inject_Z (Z.of_nat 4))))) with false.
  cbn [bind fst snd]. eexists. split; reflexivity.
Qed.
End Conforming.

(** eight decimals do not identify a number: 2^-40 is printed as zero *)
Lemma eight_decimals : binary64 (Qpower 2 (-40)) /\ prints_f 8 (Qpower 2 (-40)) 0 /\
  forall y, reads 0 y -> ~ Qeq y (Qpower 2 (-40)).
Proof.
  split; [exists 1%Z, (-40)%Z; split; reflexivity|]. split.
  - exists 0%Z. split; [reflexivity|]. vm_compute. discriminate.
  - intros y [_ R] E. specialize (R 0%Q ltac:(exists 0%Z, 0%Z; split; reflexivity)).
    rewrite E in R. vm_compute in R. apply R. reflexivity.
Qed.

Lemma left4 : forall pr p, p_fmt p = 4 -> exists f, left_over pr p = Some f /\ f_fmt f = 4.
Proof. intros pr p H. exists (write4 pr p). unfold left_over, write_potfit. rewrite H. split; reflexivity. Qed.
Lemma left3 : forall pr p, p_fmt p = 3 -> left_over pr p = Some (write4 pr p) /\ f_fmt (write4 pr p) = 4.
Proof. intros pr p H. unfold left_over, write_potfit. rewrite H. split; reflexivity. Qed.
