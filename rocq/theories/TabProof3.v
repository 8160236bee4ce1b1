(** Round trip of tabulated potentials, format 4, and of format 3 written as format 4. *)
From Coq Require Import List ZArith QArith Qcanon Bool Arith Lia.
From Verif Require Import TabModel TabSpec TabProof TabProof2.
Import ListNotations.
Close Scope Q_scope.
Close Scope Qc_scope.
Open Scope nat_scope.

Notation col4 := (nat * Z * Z)%type.
Section RT4.
Variables (pr rd : Qc -> Qc) (resc : bool).
Hypothesis Hpr : forall x : Qc, binary64 x -> prints_e 16 x (pr x).
Hypothesis Hrd : forall d : Qc, reads d (rd d).

Fixpoint increasing (prev : option Qc) (xs : list Qc) : Prop :=
  match xs with
  | [] => True
  | x :: r => (match prev with Some p => negb (ltq p x) | None => false end) = false /\ increasing (Some x) r
  end.
(** abscissae and values alternating *)
Fixpoint inter (xs vs : list Qc) : list tok :=
  match xs, vs with
  | x :: xs, v :: vs => dbl pr x :: dbl pr v :: inter xs vs
  | _, _ => []
  end.
Lemma take_pairs_data : forall lax xs vs prev r, length xs = length vs -> Forall B xs -> Forall B vs ->
  increasing prev xs ->
  take_pairs rd lax (length xs) prev (inter xs vs ++ r) = Done (combine xs vs, r).
Proof.
  intro lax. induction xs as [|x xs IH]; intros [|v vs] prev r L Fx Fv I; try discriminate; [reflexivity|].
  inversion Fx; subst. inversion Fv; subst. cbn [increasing] in I. destruct I as [I1 I2].
  cbn [length take_pairs inter app take_pair bind].
  rewrite !(num_dbl pr rd Hpr Hrd) by assumption. rewrite I1, IH; [reflexivity|cbn in L; lia|assumption|assumption|exact I2].
Qed.
Lemma take_pairs_back : forall lax k prev ts ps r, take_pairs rd lax k prev ts = Done (ps, r) ->
  length ps = k /\ Forall B (map fst ps) /\ Forall B (map snd ps) /\ increasing prev (map fst ps).
Proof.
  intro lax. induction k as [|k IH]; intros prev ts ps r H; cbn [take_pairs] in H.
  - injection H as <- <-. repeat split; constructor.
  - destruct (take_pair rd lax ts) as [[[x v] r1]| |] eqn:E; try discriminate. cbn [bind] in H.
    destruct (match prev with Some p => _ | None => _ end) eqn:I; [discriminate|].
    destruct (take_pairs rd lax k (Some x) r1) as [[ps' r']| |] eqn:E2; try discriminate.
    cbn [bind fst snd] in H. injection H as <- <-.
    destruct (IH _ _ _ _ E2) as [L [F1 [F2 I2]]].
    assert (BB : B x /\ B v).
    { unfold take_pair in E. destruct ts as [|a [|c ts]]; try discriminate.
      - destruct lax; [|discriminate]. injection E as <- <- <-. split; [apply num_B; exact Hrd|apply q0_B].
      - injection E as <- <- <-. split; apply num_B; exact Hrd. }
    destruct BB. cbn [length map fst snd increasing]. repeat split; try (constructor; assumption); try assumption. lia.
Qed.
Lemma combine_fst : forall (xs vs : list Qc), length xs = length vs -> map fst (combine xs vs) = xs.
Proof. induction xs as [|x xs IH]; intros [|v vs] L; try discriminate; [reflexivity|]. cbn. f_equal. apply IH. cbn in L. lia. Qed.
Lemma combine_snd : forall (xs vs : list Qc), length xs = length vs -> map snd (combine xs vs) = vs.
Proof. induction xs as [|x xs IH]; intros [|v vs] L; try discriminate; [reflexivity|]. cbn. f_equal. apply IH. cbn in L. lia. Qed.
Lemma last_combine : forall (xs vs : list Qc) d, length xs = length vs -> xs <> [] ->
  fst (last (combine xs vs) (d, d)) = last xs d.
Proof.
  induction xs as [|x xs IH]; intros [|v vs] d L N; try discriminate; [congruence|].
  destruct xs as [|x' xs]; destruct vs as [|v' vs]; try discriminate; [reflexivity|].
  change (fst (last (combine (x' :: xs) (v' :: vs)) (d, d)) = last (x' :: xs) d).
  apply IH; [cbn in L |- *; lia|discriminate].
Qed.

Definition nv4 (c : col4) : nat := fst (fst c).
Fixpoint ix4 (ks : list kind) (cs : list col4) (l : nat) : list nat :=
  match ks, cs with
  | k :: kr, (nv, inv, g) :: cr =>
      grad_idx inv g l ++ val_idx (free4 k) inv nv (l + 2) ++ ix4 kr cr (l + 2 + nv)
  | _, _ => []
  end.
(** admissible abscissae of the columns *)
Inductive shape4 : list kind -> list col4 -> list (Qc * Qc) -> list Qc -> Prop :=
| s_nil : shape4 [] [] [] []
| s_cons : forall k kr nv inv g cr be xs x, length xs = nv -> xs <> [] -> increasing None xs -> Forall B xs ->
    (match k with KEmb => negb (gauge_ok resc (hd q0 xs) (last xs q0)) | _ => false end) = false ->
    shape4 kr cr be x ->
    shape4 (k :: kr) ((nv, inv, g) :: cr) ((hd q0 xs, last xs q0) :: be) ([q0; q0] ++ xs ++ x).

Lemma cols4_back : forall ks hg cs l ts be t x ix r, length ks = length cs ->
  cols4 rd resc hg ks cs l ts = Done (be, t, x, ix, r) ->
  shape4 ks cs be x /\ ix = ix4 ks cs l /\ Forall B t /\ length t = total (map nv4 cs).
Proof.
  induction ks as [|k kr IH]; intros hg cs l ts be t x ix r L H;
    destruct cs as [|[[nv inv] g] cr]; cbn [length] in L; try discriminate.
  - injection H as <- <- <- <- <-. repeat split; constructor.
  - cbn [cols4] in H.
    destruct (take_grad rd hg k ts) as [[g1 r1]| |] eqn:E1; try discriminate. cbn [bind fst snd] in H.
    destruct (take_pairs rd (lax4 k) nv None r1) as [[ps r2]| |] eqn:E2; try discriminate. cbn [bind fst snd] in H.
    destruct ps as [|[b v0] ps'] eqn:EP; [discriminate|]. rewrite <- EP in *.
    destruct (match k with KEmb => _ | _ => _ end) eqn:G; [discriminate|].
    destruct (cols4 rd resc hg kr cr (l + 2 + nv) r2) as [[[[[be' t'] x'] ix'] r']| |] eqn:E3; try discriminate.
    cbn [bind] in H. injection H as <- <- <- <- <-.
    destruct (IH _ _ _ _ _ _ _ _ _ (f_equal pred L) E3) as [S' [-> [F' L']]].
    destruct (take_grad_B rd Hrd _ _ _ _ _ E1) as [L1 F1].
    destruct (take_pairs_back _ _ _ _ _ _ E2) as [L2 [F2 [F3 I2]]].
    assert (EL : fst (last ps (q0, q0)) = last (map fst ps) q0).
    { clear. induction ps as [|p ps IH]; [reflexivity|]. destruct ps; [reflexivity|exact IH]. }
    assert (EH : b = hd q0 (map fst ps)) by (rewrite EP; reflexivity).
    repeat split.
    + rewrite EL, EH in *. apply s_cons; try assumption; [rewrite map_length; exact L2|rewrite EP; discriminate].
    + apply Forall_app. split; [exact F1|]. apply Forall_app. split; assumption.
    + rewrite !app_length, L1, map_length, L2, L'. cbn [map total]. unfold nv4 at 2. cbn [fst snd]. lia.
Qed.

(** the data part of format 4 *)
Fixpoint d4 (nv : list nat) (t x : list Qc) : list tok :=
  match nv with
  | [] => []
  | k :: r => map (dbl pr) (firstn 2 t) ++ inter (firstn k (skipn 2 x)) (firstn k (skipn 2 t)) ++
              d4 r (skipn (k + 2) t) (skipn (k + 2) x)
  end.
Lemma shape4_read : forall ks cs be x, shape4 ks cs be x -> forall l t r,
  Forall B t -> length t = total (map nv4 cs) ->
  cols4 rd resc true ks cs l (d4 (map nv4 cs) t x ++ r) = Done (be, t, x, ix4 ks cs l, r).
Proof.
  intros ks cs be x H. induction H as [|k kr nv inv g cr be xs x L NE I F G S IH]; intros l t r FT LT.
  - destruct t; [reflexivity|discriminate].
  - cbn [map total] in LT. unfold nv4 at 1 in LT. cbn [fst snd] in LT.
    cbn [map d4]. change (nv4 (nv, inv, g)) with nv. cbn [cols4].
    set (t1 := firstn 2 t). set (t2 := firstn nv (skipn 2 t)). set (t3 := skipn (nv + 2) t).
    assert (E3 : t3 = skipn nv (skipn 2 t)) by (unfold t3; rewrite skipn_skipn; reflexivity).
    assert (ET : t = t1 ++ t2 ++ t3) by (rewrite E3; unfold t1, t2; rewrite !firstn_skipn; reflexivity).
    assert (L1 : length t1 = 2) by (unfold t1; rewrite firstn_length; lia).
    assert (L2 : length t2 = nv) by (unfold t2; rewrite firstn_length, skipn_length; lia).
    assert (L3 : length t3 = total (map nv4 cr)) by (unfold t3; rewrite !skipn_length; lia).
    assert (X2 : firstn nv (skipn 2 ([q0; q0] ++ xs ++ x)) = xs).
    { cbn [app skipn]. rewrite firstn_app, L, Nat.sub_diag. cbn [firstn]. rewrite app_nil_r, <- L. apply firstn_all. }
    assert (X3 : skipn (nv + 2) ([q0; q0] ++ xs ++ x) = x).
    { rewrite Nat.add_comm. cbn [app skipn plus]. rewrite skipn_app, L, Nat.sub_diag. cbn [skipn].
      rewrite <- L, skipn_all. reflexivity. }
    rewrite X2, X3. clearbody t1 t2 t3. subst t.
    apply Forall_app in FT. destruct FT as [F1 FT]. apply Forall_app in FT. destruct FT as [F2 F3].
    rewrite <- !app_assoc. unfold take_grad. rewrite <- L1 at 1. rewrite (take_nums_dbl pr rd Hpr Hrd) by exact F1.
    cbn [bind fst snd]. rewrite <- L at 1. rewrite take_pairs_data by (try assumption; lia). cbn [bind fst snd].
    assert (LXS : length xs = length t2) by lia.
    destruct (combine xs t2) as [|[b v0] ps] eqn:EC.
    { destruct xs; [congruence|]. destruct t2; [cbn in LXS; lia|discriminate]. }
    rewrite <- EC. rewrite last_combine by (try assumption).
    assert (EB : b = hd q0 xs). { destruct xs; [congruence|]. destruct t2; [discriminate|]. injection EC as <- _ _. reflexivity. }
    rewrite EB, G. rewrite IH by assumption. cbn [bind].
    rewrite combine_fst, combine_snd by exact LXS. reflexivity.
Qed.

Lemma info4_back : forall n ts is r, info4 n ts = Done (is, r) -> length is = n.
Proof.
  induction n as [|n IH]; intros ts is r H; cbn [info4] in H.
  - injection H as <- <-. reflexivity.
  - destruct ts as [|[k|d] ts]; try discriminate. destruct (info4 n ts) as [[is' r']| |] eqn:E; try discriminate.
    injection H as <- <-. cbn [fst length]. rewrite (IH _ _ _ E). reflexivity.
Qed.
Lemma info4_data : forall is r, info4 (length is) (map TInt is ++ r) = Done (is, r).
Proof. induction is as [|k is IH]; intro r; [reflexivity|]. cbn [length map app info4]. rewrite IH. reflexivity. Qed.
Lemma zip2_map : forall is iv gr, length iv = length is -> length gr = length is ->
  map nv4 (zip2 is iv gr) = is /\ length (zip2 is iv gr) = length is.
Proof.
  induction is as [|i is IH]; intros [|v iv] [|g gr] L1 L2; try discriminate; [split; reflexivity|].
  cbn [zip2 map length]. destruct (IH iv gr) as [E1 E2]; [cbn in L1; lia|cbn in L2; lia|].
  rewrite E1, E2. split; reflexivity.
Qed.
Lemma shape4_length : forall ks cs be x, shape4 ks cs be x ->
  length x = total (map nv4 cs) /\ length be = length cs.
Proof.
  intros ks cs be x H. induction H as [|k kr nv inv g cr be xs x L NE I F G S [IH1 IH2]]; [split; reflexivity|].
  split; [|cbn; lia]. rewrite !app_length, IH1. cbn [map total length]. unfold nv4 at 2. cbn [fst]. lia.
Qed.

(** A table in memory that format 4 can hold *)
Record is4 (ks : list kind) (nv : list nat) (be : list (Qc * Qc)) (p : pot) : Prop := Is4 {
  i4_cols : ncols p = length nv;
  i4_inv : length (invar p) = length nv;
  i4_grad : length (gradient p) = length nv;
  i4_begin : begin_ p = map fst be;
  i4_end : end_ p = map snd be;
  i4_first : first p = map fst (layout 2 nv);
  i4_last : last_ p = map snd (layout 2 nv);
  i4_shape : shape4 ks (zip2 nv (invar p) (gradient p)) be (xcoord p);
  i4_len : length (table p) = total nv;
  i4_tab : Forall B (table p) }.

Lemma d4_spec : forall nv t x s, length (skipn s t) = total nv -> length (skipn s x) = total nv ->
  flat_map (fun i =>
    [dbl pr (at_ t (s + off nv i)); dbl pr (at_ t (s + off nv i + 1))] ++
    flat_map (fun j => [dbl pr (at_ x j); dbl pr (at_ t j)]) (seq (s + off nv i + 2) (nth i nv 0)))
    (seq 0 (length nv)) = d4 nv (skipn s t) (skipn s x).
Proof.
  induction nv as [|k r IH]; intros t x s LT LX; [reflexivity|].
  cbn [length seq flat_map d4 off nth total] in *. rewrite Nat.add_0_r.
  assert (AT : forall j, at_ (skipn s t) j = at_ t (s + j)) by (intro; apply at_skipn).
  assert (AX : forall j, at_ (skipn s x) j = at_ x (s + j)) by (intro; apply at_skipn).
  rewrite <- app_assoc. f_equal; [|f_equal].
  - rewrite <- (Nat.add_0_r s) at 1. rewrite <- AT, <- AT.
    destruct (skipn s t) as [|a [|c l]]; cbn [length] in LT; try lia. reflexivity.
  - assert (LT2 : k <= length (skipn (s + 2) t)) by (rewrite skipn_length in *; lia).
    assert (LX2 : k <= length (skipn (s + 2) x)) by (rewrite skipn_length in *; lia).
    rewrite !skipn_skipn. rewrite (Nat.add_comm 2 s).
    clear - LT2 LX2. revert LT2 LX2. generalize (s + 2) as m. clear s. revert t x.
    induction k as [|k IH]; intros t x m LT LX; [reflexivity|].
    cbn [seq flat_map]. rewrite IH by (rewrite skipn_length in *; lia).
    assert (E : forall l, S k <= length (skipn m l) -> firstn (S k) (skipn m l) = at_ l m :: firstn k (skipn (S m) l)).
    { intros l Q. pose proof (at_skipn l m 0) as E. rewrite Nat.add_0_r in E.
      pose proof (skipn_skipn _ m 1 l) as E2. cbn [plus] in E2. rewrite <- E2.
      destruct (skipn m l) as [|a l']; [cbn in Q; lia|]. cbn [firstn]. rewrite <- E. reflexivity. }
    rewrite !E by assumption. reflexivity.
  - rewrite !skipn_skipn. replace (k + 2 + s) with (s + (k + 2)) by lia.
    rewrite <- IH by (rewrite skipn_length in *; lia).
    rewrite <- seq_shift, flat_map_concat_map, map_map, <- flat_map_concat_map.
    apply flat_map_ext. intro i. cbn [off nth].
    replace (s + (k + 2) + off r i) with (s + (k + 2 + off r i)) by lia. reflexivity.
Qed.

Lemma write4_toks : forall ks nv be p, is4 ks nv be p ->
  f_toks (write4 pr p) = map TInt nv ++ d4 nv (table p) (xcoord p).
Proof.
  intros ks nv be p [C IV IG EB EE EF EL SH LT FT]. destruct (shape4_length _ _ _ _ SH) as [LX LB].
  destruct (zip2_map nv (invar p) (gradient p) IV IG) as [Z1 Z2]. rewrite Z1 in LX.
  unfold write4. cbn [f_toks]. rewrite C. f_equal.
  - rewrite EF, EL. clear. 
    assert (E : forall i, In i (seq 0 (length nv)) ->
      TInt (nth i (map snd (layout 2 nv)) 0 + 1 - nth i (map fst (layout 2 nv)) 0) = TInt (nth i nv 0)).
    { intros i H. apply in_seq in H. rewrite layout_last by lia. reflexivity. }
    rewrite (map_ext_in _ _ _ E). clear E.
    induction nv as [|k nv IH]; [reflexivity|]. cbn [length seq map nth]. f_equal.
    rewrite <- seq_shift, map_map. exact IH.
  - change (d4 nv (table p) (xcoord p)) with (d4 nv (skipn 0 (table p)) (skipn 0 (xcoord p))).
    rewrite <- d4_spec by assumption.
    apply flat_map_ext_in. intros i H. apply in_seq in H. rewrite EF, EL.
    rewrite layout_last, layout_first by lia. cbn [plus].
    replace (off nv i + 2 - 2) with (off nv i) by lia.
    replace (S (S (off nv i)) - 2) with (off nv i) by lia. replace (S (S (off nv i)) - 1) with (off nv i + 1) by lia.
    replace (off nv i + 2) with (S (S (off nv i))) by lia. reflexivity.
Qed.

(** the potential read back from a file of format 4 *)
Definition as4 (ks : list kind) (nv : list nat) (p : pot) : pot :=
  Pot 4 (ncols p) (invar p) (have_invar p) (gradient p) (begin_ p) (end_ p) (first p) (last_ p)
      (table p) (xcoord p) (ix4 ks (zip2 nv (invar p) (gradient p)) 0).
Lemma again4 : forall b n nv be p, is4 (kinds4 b n) nv be p -> forall o,
  header (ncols p) o = Done (invar p) -> have_invar p = is_some o && any_one (invar p) ->
  binary_flags (invar p) ->
  read4 rd resc b n (write4 pr p) = Done (as4 (kinds4 b n) nv p).
Proof.
  intros b n nv be p I o H1 H2 F. pose proof (write4_toks _ _ _ _ I) as W.
  destruct I as [C IV IG EB EE EF EL SH LT FT].
  destruct (inv_again p (ncols p) o H1 H2 F) as [A1 A2]. unfold read4.
  change (f_num (write4 pr p)) with (ncols p). change (f_inv (write4 pr p)) with (inv_line p).
  change (f_grad (write4 pr p)) with (Some (gradient p)). rewrite A1, W.
  assert (HG : header (ncols p) (Some (gradient p)) = Done (gradient p)).
  { replace (ncols p) with (length (gradient p)) by lia. apply header_same. }
  rewrite HG. cbn [bind]. rewrite C, info4_data. cbn [bind fst snd is_some].
  destruct (zip2_map nv (invar p) (gradient p) IV IG) as [Z1 Z2].
  pose proof (shape4_read _ _ _ _ SH 0 (table p) [] FT) as R. rewrite Z1, app_nil_r in R.
  rewrite (R LT). cbn [bind]. destruct (shape4_length _ _ _ _ SH) as [LX LB]. rewrite Z1 in LX.
  rewrite A2, !pad_full by assumption. unfold as4. rewrite EB, EE, EF, EL, C. reflexivity.
Qed.

Lemma read4_is : forall b n f p, length (kinds4 b n) = f_num f ->
  read4 rd resc b n f = Done p ->
  exists nv be, is4 (kinds4 b n) nv be p /\ p_fmt p = 4 /\ ncols p = f_num f /\
    idx p = ix4 (kinds4 b n) (zip2 nv (invar p) (gradient p)) 0 /\
    header (f_num f) (f_inv f) = Done (invar p) /\ have_invar p = is_some (f_inv f) && any_one (invar p).
Proof.
  intros b n f p K H. unfold read4 in H.
  destruct (header (f_num f) (f_inv f)) as [iv| |] eqn:H1; try discriminate.
  destruct (header (f_num f) (f_grad f)) as [gr| |] eqn:H2; try discriminate. cbn [bind] in H.
  destruct (info4 (f_num f) (f_toks f)) as [[nv r]| |] eqn:H3; try discriminate. cbn [bind fst snd] in H.
  destruct (cols4 rd resc _ _ _ _ _) as [[[[[be t] x] ix] r']| |] eqn:H4; try discriminate.
  cbn [bind] in H. injection H as <-.
  pose proof (header_length _ _ _ H1) as L1. pose proof (header_length _ _ _ H2) as L2.
  pose proof (info4_back _ _ _ _ H3) as L3.
  destruct (zip2_map nv iv gr) as [Z1 Z2]; [lia|lia|].
  destruct (cols4_back _ _ _ _ _ _ _ _ _ _ (eq_trans K (eq_trans (eq_sym L3) (eq_sym Z2))) H4) as [S [E2 [F L]]].
  destruct (shape4_length _ _ _ _ S) as [LX LB].
  exists nv, be. rewrite Z1 in *. split; [|repeat split; try assumption].
  split; cbn [p_fmt ncols invar gradient begin_ end_ first last_ table xcoord idx]; try reflexivity; try lia.
  - rewrite pad_full by exact LX. exact S.
  - rewrite pad_full by exact L. exact L.
  - rewrite pad_full by exact L. exact F.
Qed.
Lemma is4_with : forall ks nv be p t, is4 ks nv be p -> length t = length (table p) -> Forall B t ->
  is4 ks nv be (with_table p t).
Proof.
  intros ks nv be p t [] L F. split; cbn [with_table p_fmt ncols invar gradient begin_ end_ first last_ table xcoord idx]; try assumption. lia.
Qed.

Variable coord : Qc -> Qc -> nat -> nat -> Qc.
Lemma roundtrip4 : forall b n f p t, length (kinds4 b n) = npots b n ->
  read rd coord resc b n f = Done p -> f_fmt f = 4 -> binary_flags (invar p) ->
  length t = length (table p) -> Forall B t ->
  read rd coord resc b n (write4 pr (with_table p t)) = Done (with_table p t).
Proof.
  intros b n f p t K R E F L T. unfold read in *.
  destruct (Nat.eqb_spec (f_num f) (npots b n)) as [N|N]; [cbn [negb] in R|discriminate].
  rewrite E in R.
  destruct (read4_is b n f p ltac:(lia) R) as [nv [be [I [P4 [C [EI [H1 H2]]]]]]].
  pose proof (is4_with _ _ _ _ t I L T) as I'.
  change (f_num (write4 pr (with_table p t))) with (ncols p). rewrite C, N, Nat.eqb_refl. cbn [negb].
  change (f_fmt (write4 pr (with_table p t))) with 4. cbv iota.
  rewrite (again4 b n nv be _ I' (f_inv f)); [|change (ncols (with_table p t)) with (ncols p); rewrite C; exact H1|exact H2|exact F].
  unfold as4. cbn [with_table p_fmt ncols invar have_invar gradient begin_ end_ first last_ table xcoord idx].
  rewrite <- EI, <- P4. reflexivity.
Qed.
End RT4.
