(** Round trip of tabulated potentials, format 3. *)
From Coq Require Import List ZArith QArith Qcanon Bool Arith Lia.
From Verif Require Import TabModel TabSpec TabProof.
Import ListNotations.
Close Scope Q_scope.
Close Scope Qc_scope.
Open Scope nat_scope.

Notation B := (fun v : Qc => binary64 (this v)).

Lemma flat_map_nth : forall (A C : Type) (F : A -> list C) (d : A) l,
  flat_map (fun i => F (nth i l d)) (seq 0 (length l)) = flat_map F l.
Proof.
  intros A C F d l. induction l as [|a l IH]; [reflexivity|].
  cbn [length seq flat_map]. f_equal. rewrite <- seq_shift, flat_map_concat_map, map_map, <- flat_map_concat_map.
  exact IH.
Qed.
Lemma flat_map_ext_in : forall (A C : Type) (F G : A -> list C) l, (forall a, In a l -> F a = G a) ->
  flat_map F l = flat_map G l.
Proof.
  intros A C F G l. induction l as [|a l IH]; intro H; [reflexivity|]. cbn [flat_map].
  rewrite (H a) by (left; reflexivity). f_equal. apply IH. intros c I. apply H. right. exact I.
Qed.
Lemma map_at_seq : forall t, map (at_ t) (seq 0 (length t)) = t.
Proof.
  intro t. unfold at_. induction t as [|a t IH]; [reflexivity|]. cbn [length seq map]. f_equal.
  rewrite <- seq_shift, map_map. exact IH.
Qed.
Lemma skipn_skipn : forall (A : Type) b a (l : list A), skipn a (skipn b l) = skipn (a + b) l.
Proof.
  intros A b. induction b as [|b IH]; intros a l; [rewrite Nat.add_0_r; reflexivity|].
  rewrite Nat.add_succ_r. destruct l as [|y l]; [cbn [skipn]; destruct a; reflexivity|].
  cbn [skipn]. apply IH.
Qed.
Lemma at_skipn : forall t m j, at_ (skipn m t) j = at_ t (m + j).
Proof.
  unfold at_. induction t as [|a t IH]; intros [|m] j; try reflexivity.
  - destruct j; reflexivity.
  - cbn [skipn]. rewrite IH. reflexivity.
Qed.

Fixpoint off (nv : list nat) (i : nat) : nat :=
  match nv, i with k :: r, S i' => k + 2 + off r i' | _, _ => 0 end.
Lemma layout_first : forall nv s i, 1 <= s -> i < length nv ->
  nth i (map fst (layout s nv)) 0 = s + off nv i.
Proof.
  induction nv as [|k r IH]; intros s i S L; cbn [length] in L; [lia|].
  destruct i as [|i]; cbn [layout map nth off fst]; [lia|]. rewrite IH by lia. lia.
Qed.
Lemma layout_last : forall nv s i, 1 <= s -> i < length nv ->
  nth i (map snd (layout s nv)) 0 + 1 - nth i (map fst (layout s nv)) 0 = nth i nv 0.
Proof.
  induction nv as [|k r IH]; intros s i S L; cbn [length] in L; [lia|].
  destruct i as [|i]; cbn [layout map nth fst snd]; [lia|]. apply IH; lia.
Qed.
Lemma layout_length : forall nv s, length (layout s nv) = length nv.
Proof. induction nv as [|k r IH]; intro s; [reflexivity|]. cbn [layout length]. rewrite IH. reflexivity. Qed.
Lemma data_total : forall (C : Type) (g : nat -> C) nv s,
  flat_map (fun i => map g (seq (s + off nv i) (nth i nv 0 + 2))) (seq 0 (length nv)) = map g (seq s (total nv)).
Proof.
  intros C g nv. induction nv as [|k r IH]; intro s; [reflexivity|].
  cbn [length total seq flat_map off nth]. rewrite Nat.add_0_r.
  rewrite (seq_app (k + 2) (total r) s), map_app. f_equal.
  rewrite <- seq_shift, flat_map_concat_map, map_map, <- flat_map_concat_map.
  rewrite <- IH. apply flat_map_ext. intro i. cbn [off nth]. f_equal. f_equal. lia.
Qed.

Notation col := (Qc * Qc * nat * Z * Z)%type.
Section RT.
Variables (pr rd : Qc -> Qc) (coord : Qc -> Qc -> nat -> nat -> Qc) (resc : bool).
Hypothesis Hpr : forall x : Qc, binary64 x -> prints_e 16 x (pr x).
Hypothesis Hrd : forall d : Qc, reads d (rd d).

Lemma num_dbl : forall v : Qc, binary64 v -> num rd (dbl pr v) = v.
Proof. intros v H. unfold num, dbl. eapply digits17_c; [exact H|apply Hpr; exact H|apply Hrd]. Qed.
Lemma num_B : forall t, B (num rd t).
Proof. intros [k|d]; apply Hrd. Qed.
Lemma q0_B : B q0.
Proof. exists 0%Z, 0%Z. split; reflexivity. Qed.
Lemma e30_B : B (e30 rd).
Proof. apply Hrd. Qed.

Lemma take_nums_dbl : forall vs r, Forall B vs ->
  take_nums rd (length vs) (map (dbl pr) vs ++ r) = Done (vs, r).
Proof.
  intros vs r F. induction F as [|v vs Bv F IH]; [reflexivity|].
  cbn [length take_nums map app]. rewrite IH. cbn [bind fst snd]. rewrite num_dbl by exact Bv. reflexivity.
Qed.
Lemma take_nums_B : forall k ts vs r, take_nums rd k ts = Done (vs, r) -> length vs = k /\ Forall B vs.
Proof.
  induction k as [|k IH]; intros ts vs r H; cbn [take_nums] in H.
  - injection H as <- <-. split; [reflexivity|constructor].
  - destruct ts as [|t ts]; [discriminate|].
    destruct (take_nums rd k ts) as [[vs' r']| |] eqn:E; try discriminate.
    injection H as <- <-. destruct (IH _ _ _ E). cbn [fst length]. split; [lia|].
    constructor; [apply num_B|assumption].
Qed.
Lemma take_grad_B : forall hg k ts vs r, take_grad rd hg k ts = Done (vs, r) -> length vs = 2 /\ Forall B vs.
Proof.
  intros hg k ts vs r H. unfold take_grad in H. destruct hg; [eapply take_nums_B; exact H|].
  injection H as <- <-. pose proof q0_B. pose proof e30_B. destruct k; split; repeat (constructor; try assumption).
Qed.

Definition nvc (c : col) : nat := snd (fst (fst c)).
Definition xs_cols (cs : list col) : list Qc :=
  flat_map (fun c => [q0; q0] ++ map (coord (fst (fst (fst (fst c)))) (snd (fst (fst (fst c)))) (nvc c)) (seq 0 (nvc c))) cs.
Fixpoint ix3 (ks : list kind) (cs : list col) (l : nat) : list nat :=
  match ks, cs with
  | k :: kr, (b, e, nv, inv, g) :: cr =>
      grad_idx inv g l ++ val_idx (free3 k) inv nv (l + 2) ++ ix3 kr cr (l + 2 + nv)
  | _, _ => []
  end.
Fixpoint gauge3 (ks : list kind) (cs : list col) : Prop :=
  match ks, cs with
  | k :: kr, (b, e, nv, inv, g) :: cr =>
      (match k with KEmb => negb (gauge_ok resc b e) | _ => false end) = false /\ gauge3 kr cr
  | _, _ => True
  end.

Lemma cols3_back : forall ks hg cs l ts t x ix r, length ks = length cs ->
  cols3 rd coord resc hg ks cs l ts = Done (t, x, ix, r) ->
  x = xs_cols cs /\ ix = ix3 ks cs l /\ gauge3 ks cs /\ Forall B t /\ length t = total (map nvc cs).
Proof.
  induction ks as [|k kr IH]; intros hg cs l ts t x ix r L H;
    destruct cs as [|[[[[b e] nv] inv] g] cr]; cbn [length] in L; try discriminate.
  - injection H as <- <- <- <-. repeat split. constructor.
  - cbn [cols3] in H.
    destruct (match k with KEmb => _ | _ => _ end) eqn:G; [discriminate|].
    destruct (take_grad rd hg k ts) as [[g1 r1]| |] eqn:E1; try discriminate. cbn [bind fst snd] in H.
    destruct (take_nums rd nv r1) as [[g2 r2]| |] eqn:E2; try discriminate. cbn [bind fst snd] in H.
    destruct (cols3 rd coord resc hg kr cr (l + 2 + nv) r2) as [[[[t' x'] ix'] r']| |] eqn:E3; try discriminate.
    injection H as <- <- <- <-.
    destruct (IH _ _ _ _ _ _ _ _ (f_equal pred L) E3) as [-> [-> [G' [F' L']]]].
    destruct (take_grad_B _ _ _ _ _ E1) as [L1 F1]. destruct (take_nums_B _ _ _ _ E2) as [L2 F2].
    repeat split.
    + exact G.
    + exact G'.
    + apply Forall_app. split; [exact F1|]. apply Forall_app. split; assumption.
    + rewrite !app_length, L1, L2, L'. cbn [map total]. unfold nvc at 2. cbn [fst snd]. lia.
Qed.
Lemma cols3_data : forall ks cs l t r, length ks = length cs -> gauge3 ks cs ->
  Forall B t -> length t = total (map nvc cs) ->
  cols3 rd coord resc true ks cs l (map (dbl pr) t ++ r) = Done (t, xs_cols cs, ix3 ks cs l, r).
Proof.
  induction ks as [|k kr IH]; intros cs l t r L G F LT;
    destruct cs as [|[[[[b e] nv] inv] g] cr]; cbn [length] in L; try discriminate.
  - destruct t; [reflexivity|discriminate].
  - cbn [map total] in LT. unfold nvc at 1 in LT. cbn [fst snd] in LT.
    cbn [gauge3] in G. destruct G as [G G']. cbn [cols3]. rewrite G.
    set (t1 := firstn 2 t). set (t2 := firstn nv (skipn 2 t)). set (t3 := skipn nv (skipn 2 t)).
    assert (ET : t = t1 ++ t2 ++ t3) by (unfold t1, t2, t3; rewrite !firstn_skipn; reflexivity).
    assert (L1 : length t1 = 2) by (unfold t1; rewrite firstn_length; lia).
    assert (L2 : length t2 = nv) by (unfold t2; rewrite firstn_length, skipn_length; lia).
    assert (L3 : length t3 = total (map nvc cr)) by (unfold t3; rewrite !skipn_length; lia).
    clearbody t1 t2 t3. subst t. apply Forall_app in F. destruct F as [F1 F]. apply Forall_app in F. destruct F as [F2 F3].
    rewrite !map_app, <- !app_assoc. unfold take_grad. rewrite <- L1 at 1. rewrite take_nums_dbl by exact F1.
    cbn [bind fst snd]. rewrite <- L2 at 1. rewrite take_nums_dbl by exact F2. cbn [bind fst snd].
    rewrite IH by (try assumption; lia). reflexivity.
Qed.

Lemma info3_back : forall n ts is r, info3 rd n ts = Done (is, r) ->
  length is = n /\ Forall (fun i => B (fst (fst i)) /\ B (snd (fst i))) is.
Proof.
  induction n as [|n IH]; intros ts is r H; cbn [info3] in H.
  - injection H as <- <-. split; [reflexivity|constructor].
  - destruct ts as [|tb [|te [|[k|d] ts]]]; try discriminate.
    destruct (info3 rd n ts) as [[is' r']| |] eqn:E; try discriminate.
    injection H as <- <-. destruct (IH _ _ _ E). cbn [fst length]. split; [lia|].
    constructor; [|assumption]. cbn [fst snd]. split; apply num_B.
Qed.
Lemma info3_data : forall is r, Forall (fun i => B (fst (fst i)) /\ B (snd (fst i))) is ->
  info3 rd (length is) (flat_map (fun i => [dbl pr (fst (fst i)); dbl pr (snd (fst i)); TInt (snd i)]) is ++ r)
  = Done (is, r).
Proof.
  intros is r F. induction F as [|[[b e] k] is [B1 B2] F IH]; [reflexivity|].
  cbn [length flat_map app info3 fst snd] in *. rewrite IH. cbn [bind fst snd].
  rewrite !num_dbl by assumption. reflexivity.
Qed.

Lemma header_length : forall n o l, header n o = Done l -> length l = n.
Proof.
  intros n o l H. destruct o as [m|]; cbn [header] in H.
  - destruct (Nat.ltb_spec (length m) n); [discriminate|]. injection H as <-. rewrite firstn_length. lia.
  - injection H as <-. apply repeat_length.
Qed.
Lemma header_same : forall l, header (length l) (Some l) = Done l.
Proof. intro l. cbn [header]. rewrite Nat.ltb_irrefl, firstn_all. reflexivity. Qed.
Definition binary_flags (l : list Z) : Prop := Forall (fun z => z = 0%Z \/ z = 1%Z) l.
Lemma flags_zero : forall l, binary_flags l -> any_one l = false -> l = repeat 0%Z (length l).
Proof.
  intros l F. induction F as [|z l [E|E] F IH]; intro A; [reflexivity| |]; subst z; cbn in A.
  - cbn [length repeat]. f_equal. apply IH. exact A.
  - discriminate.
Qed.
(** The #I line of a written file gives the same flags. *)
Lemma inv_again : forall p n o, header n o = Done (invar p) ->
  have_invar p = is_some o && any_one (invar p) -> binary_flags (invar p) ->
  header n (inv_line p) = Done (invar p) /\ is_some (inv_line p) && any_one (invar p) = have_invar p.
Proof.
  intros p n o H E F. pose proof (header_length _ _ _ H) as L. unfold inv_line.
  destruct (have_invar p) eqn:HI.
  - subst n. rewrite header_same. split; [reflexivity|]. symmetry in E. apply andb_prop in E. destruct E as [_ E].
    rewrite E. reflexivity.
  - split; [|reflexivity]. cbn [header]. f_equal. destruct o as [m|].
    + rewrite <- L. symmetry. apply flags_zero; [exact F|]. cbn in E. symmetry. exact E.
    + cbn [header] in H. injection H as <-. reflexivity.
Qed.

Lemma zip3_map : forall is iv gr, length iv = length is -> length gr = length is ->
  map nvc (zip3 is iv gr) = map snd is /\ length (zip3 is iv gr) = length is.
Proof.
  induction is as [|i is IH]; intros [|v iv] [|g gr] L1 L2; try discriminate; [split; reflexivity|].
  cbn [zip3 map length]. destruct (IH iv gr) as [E1 E2]; [cbn in L1; lia|cbn in L2; lia|].
  rewrite E1, E2. split; reflexivity.
Qed.
Lemma pad_full : forall n l, length l = n -> pad n l = l.
Proof. intros n l <-. unfold pad. rewrite Nat.sub_diag. apply app_nil_r. Qed.
Lemma xs_length : forall cs, length (xs_cols cs) = total (map nvc cs).
Proof.
  induction cs as [|c cs IH]; [reflexivity|]. cbn [xs_cols flat_map]. 
  change (flat_map _ cs) with (xs_cols cs). rewrite app_length, IH. cbn [app length map total].
  rewrite map_length, seq_length. lia.
Qed.

(** What reading format 3 establishes *)
Record is3 (b : build) (n : nat) (is : list (Qc * Qc * nat)) (p : pot) : Prop := Is3 {
  i3_fmt : p_fmt p = 3;
  i3_cols : ncols p = length is;
  i3_inv : length (invar p) = length is;
  i3_grad : length (gradient p) = length is;
  i3_B : Forall (fun i => B (fst (fst i)) /\ B (snd (fst i))) is;
  i3_begin : begin_ p = map (fun i => fst (fst i)) is;
  i3_end : end_ p = map (fun i => snd (fst i)) is;
  i3_first : first p = map fst (layout 2 (map snd is));
  i3_last : last_ p = map snd (layout 2 (map snd is));
  i3_x : xcoord p = xs_cols (zip3 is (invar p) (gradient p));
  i3_idx : idx p = ix3 (kinds3 b n) (zip3 is (invar p) (gradient p)) 0;
  i3_gauge : gauge3 (kinds3 b n) (zip3 is (invar p) (gradient p));
  i3_len : length (table p) = total (map snd is);
  i3_tab : Forall B (table p) }.

Lemma read3_is : forall b n f p, length (kinds3 b n) = f_num f ->
  read3 rd coord resc b n f = Done p ->
  exists is, is3 b n is p /\ ncols p = f_num f /\
    header (f_num f) (f_inv f) = Done (invar p) /\ have_invar p = is_some (f_inv f) && any_one (invar p).
Proof.
  intros b n f p K H. unfold read3 in H.
  destruct (header (f_num f) (f_inv f)) as [iv| |] eqn:H1; try discriminate.
  destruct (header (f_num f) (f_grad f)) as [gr| |] eqn:H2; try discriminate. cbn [bind] in H.
  destruct (info3 rd (f_num f) (f_toks f)) as [[is r]| |] eqn:H3; try discriminate. cbn [bind fst snd] in H.
  destruct (cols3 rd coord resc _ _ _ _ _) as [[[[t x] ix] r']| |] eqn:H4; try discriminate.
  cbn [bind] in H. injection H as <-.
  pose proof (header_length _ _ _ H1) as L1. pose proof (header_length _ _ _ H2) as L2.
  destruct (info3_back _ _ _ _ H3) as [L3 BB].
  destruct (zip3_map is iv gr) as [Z1 Z2]; [lia|lia|].
  assert (LK : length (kinds3 b n) = length (zip3 is iv gr)) by lia.
  destruct (cols3_back _ _ _ _ _ _ _ _ _ LK H4) as [E1 [E2 [G [F L]]]].
  exists is. split; [|repeat split; assumption].
  rewrite Z1 in L.
  split; cbn [p_fmt ncols invar gradient begin_ end_ first last_ table xcoord idx]; try reflexivity; try lia; try assumption.
  - rewrite E1. apply pad_full. rewrite xs_length, Z1. reflexivity.
  - rewrite pad_full by exact L. exact L.
  - rewrite pad_full by exact L. exact F.
Qed.

Lemma write3_toks : forall b n is p, is3 b n is p ->
  f_toks (write3 pr p) =
  flat_map (fun i => [dbl pr (fst (fst i)); dbl pr (snd (fst i)); TInt (snd i)]) is ++ map (dbl pr) (table p).
Proof.
  intros b n is p I. destruct I. unfold write3. cbn [f_toks]. rewrite i3_cols0. f_equal.
  - rewrite <- (flat_map_nth _ _ _ (q0, q0, 0) is). apply flat_map_ext_in. intros i Hi. apply in_seq in Hi.
    rewrite i3_begin0, i3_end0, i3_first0, i3_last0. unfold at_.
    rewrite layout_last by (try rewrite map_length; lia).
    rewrite (nth_indep (map (fun i => fst (fst i)) is) q0 (fst (fst (q0, q0, 0)))) by (rewrite map_length; lia).
    rewrite (nth_indep (map (fun i => snd (fst i)) is) q0 (snd (fst (q0, q0, 0)))) by (rewrite map_length; lia).
    rewrite (map_nth (fun i => fst (fst i))), (map_nth (fun i => snd (fst i))).
    rewrite (nth_indep (map snd is) 0 (snd (q0, q0, 0))) by (rewrite map_length; lia).
    rewrite (map_nth snd). reflexivity.
  - transitivity (map (fun j => dbl pr (at_ (table p) j)) (seq 0 (length (table p))));
      [|rewrite <- (map_map (at_ (table p)) (dbl pr)), map_at_seq; reflexivity].
    rewrite i3_len0.
    rewrite <- (data_total _ (fun j => dbl pr (at_ (table p) j)) (map snd is) 0), map_length.
    apply flat_map_ext_in. intros i Hi. apply in_seq in Hi.
    rewrite i3_first0, i3_last0. rewrite layout_last by (try rewrite map_length; lia).
    rewrite layout_first by (try rewrite map_length; lia).
    replace (2 + off (map snd is) i - 2) with (off (map snd is) i) by lia.
    replace (2 + off (map snd is) i - 1) with (S (off (map snd is) i)) by lia.
    replace (nth i (map snd is) 0 + 2) with (S (S (nth i (map snd is) 0))) by lia.
    cbn [seq map app plus]. reflexivity.
Qed.

Lemma again3 : forall b n is p, is3 b n is p -> length (kinds3 b n) = length is -> forall o,
  header (ncols p) o = Done (invar p) -> have_invar p = is_some o && any_one (invar p) ->
  binary_flags (invar p) ->
  read3 rd coord resc b n (write3 pr p) = Done p.
Proof.
  intros b n is p I K o H1 H2 F. pose proof (write3_toks _ _ _ _ I) as W. destruct I.
  destruct (inv_again p (ncols p) o H1 H2 F) as [A1 A2]. unfold read3.
  change (f_num (write3 pr p)) with (ncols p). change (f_inv (write3 pr p)) with (inv_line p).
  change (f_grad (write3 pr p)) with (Some (gradient p)). rewrite A1, W.
  assert (HG : header (ncols p) (Some (gradient p)) = Done (gradient p)).
  { replace (ncols p) with (length (gradient p)) by lia. apply header_same. }
  rewrite HG. cbn [bind].
  rewrite i3_cols0, info3_data by exact i3_B0. cbn [bind fst snd is_some].
  destruct (zip3_map is (invar p) (gradient p)) as [Z1 Z2]; [lia|lia|].
  rewrite <- (app_nil_r (map (dbl pr) (table p))).
  rewrite cols3_data; [|exact (eq_trans K (eq_sym Z2))|assumption|assumption|rewrite Z1; assumption].
  cbn [bind]. rewrite A2, !pad_full by (try rewrite xs_length, Z1; auto).
  rewrite <- i3_x0, <- i3_idx0, <- i3_first0, <- i3_last0, <- i3_begin0, <- i3_end0, <- i3_cols0, <- i3_fmt0.
  destruct p. reflexivity.
Qed.
Lemma is3_with : forall b n is p t, is3 b n is p -> length t = length (table p) -> Forall B t ->
  is3 b n is (with_table p t).
Proof.
  intros b n is p t [] L F. split; cbn [with_table p_fmt ncols invar gradient begin_ end_ first last_ table xcoord idx]; try assumption. lia.
Qed.
Lemma roundtrip3 : forall b n f p t, length (kinds3 b n) = npots b n ->
  read rd coord resc b n f = Done p -> f_fmt f = 3 -> binary_flags (invar p) ->
  length t = length (table p) -> Forall B t ->
  read rd coord resc b n (write3 pr (with_table p t)) = Done (with_table p t).
Proof.
  intros b n f p t K R E F L T. unfold read in *.
  destruct (Nat.eqb_spec (f_num f) (npots b n)) as [N|N]; [cbn [negb] in R|discriminate].
  rewrite E in R.
  destruct (read3_is b n f p ltac:(lia) R) as [is [I [C [H1 H2]]]].
  pose proof (is3_with _ _ _ _ t I L T) as I'.
  change (f_num (write3 pr (with_table p t))) with (ncols p). rewrite C, N, Nat.eqb_refl. cbn [negb].
  change (f_fmt (write3 pr (with_table p t))) with 3. cbv iota.
  apply (again3 _ _ _ _ I' ltac:(rewrite <- (i3_cols _ _ _ _ I); lia) (f_inv f)).
  - change (ncols (with_table p t)) with (ncols p). rewrite C. exact H1.
  - exact H2.
  - exact F.
Qed.
End RT.
