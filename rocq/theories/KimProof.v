(** Proofs about the KIM interface. *)
From Coq Require Import Reals ZArith List Bool Ascii String Lia Lra.
From Verif Require Import Vec NbrModel NbrProof ParamsModel ParamsProof KimModel.
Import ListNotations.
Local Open Scope R_scope.

(** ** integers *)
Definition plain_start (s : text) : Prop := exists c r, s = c :: r /\ (48 <= code c <= 56)%Z.

Lemma starts_neq : forall a p b s, a <> b -> starts (a :: p) (b :: s) = false.
Proof. intros. cbn [starts]. destruct (ascii_dec a b); congruence. Qed.
Lemma written_no_default : forall s z, written s z -> starts (txt "default") s = false.
Proof.
  intros s z (sg & neg & ds & Hs & Hne & Hd & -> & _). destruct ds as [|d ds]; [congruence|].
  assert (D : (0 <= d <= 9)%Z) by (apply Hd; left; reflexivity).
  change (txt "default") with ("d"%char :: txt "efault").
  destruct Hs; cbn [app map]; apply starts_neq; [|discriminate|discriminate].
  intros E. apply (f_equal code) in E. rewrite (code_digit d D) in E. change (code "d") with 100%Z in E. lia.
Qed.
Theorem kim_int_written : forall d s z, written s z -> (- 2^31 <= z < 2^31)%Z ->
  (plain_start s -> read_kim_int d s = Some z) /\ (~ plain_start s -> read_kim_int d s = None).
Proof.
  intros d s z W R. unfold read_kim_int. rewrite (written_no_default s z W). destruct s as [|c r].
  - split; [intros (c & r & E & _); discriminate|auto].
  - split.
    + intros (c' & r' & E & C). inversion E; subst c' r'.
      destruct (Z.eqb_spec (code c) 33); [lia|].
      destruct (Z.ltb_spec 47 (code c)); [|lia]. destruct (Z.ltb_spec (code c) 57); [|lia]. simpl andb. cbv iota.
      rewrite (strtol_written _ _ W). cbn [option_map]. f_equal. rewrite Z.min_r by (unfold LONG_MAX; lia).
      rewrite Z.max_r by (unfold LONG_MIN; lia). apply to_int_id. lia.
    + intros N. destruct (Z.eqb_spec (code c) 33); [reflexivity|].
      destruct (Z.ltb_spec 47 (code c)); [|reflexivity]. destruct (Z.ltb_spec (code c) 57); [|reflexivity].
      exfalso. apply N. exists c, r. split; auto. lia.
Qed.
Lemma written_9 : written (txt "9") 9.
Proof. exists [], false, [9%Z]. split; [constructor|]. split; [discriminate|]. split; [intros x [<-|[]]; lia|]. split; reflexivity. Qed.
Lemma written_m1 : written (txt "-1") (-1).
Proof. exists ["-"%char], true, [1%Z]. split; [constructor|]. split; [discriminate|]. split; [intros x [<-|[]]; lia|]. split; reflexivity. Qed.
Lemma written_12 : written (txt "12") 12.
Proof. exists [], false, [1%Z; 2%Z]. split; [constructor|]. split; [discriminate|]. split; [intros x [<-|[<-|[]]]; lia|]. split; reflexivity. Qed.
Theorem int_refused : exists s s' : text, written s 9 /\ written s' (-1) /\ forall d, read_kim_int d s = None /\ read_kim_int d s' = None.
Proof.
  exists (txt "9"), (txt "-1"). split; [exact written_9|]. split; [exact written_m1|]. intros d. split; reflexivity.
Qed.
Theorem int_wraps : exists s z v, written s z /\ (0 < z)%Z /\ read_kim_int 0 s = Some v /\ v <> z.
Proof.
  exists (txt "4294967297"), 4294967297%Z, 1%Z. split.
  - exists [], false, [4; 2; 9; 4; 9; 6; 7; 2; 9; 7]%Z. split; [constructor|]. split; [discriminate|].
    split; [intros x H; simpl in H; lia|]. split; reflexivity.
  - split; [lia|]. split; [reflexivity|lia].
Qed.

(** ** limits and index *)
Lemma finish_spec : forall v mn mx p, finish v mn mx = Some p ->
  k_val p = v /\ k_min p = Rmin mn mx /\ k_max p = Rmax mn mx /\ (k_inv p = true <-> mn = mx) /\
  (k_inv p = false -> k_min p < k_max p /\ k_min p <= k_val p <= k_max p).
Proof.
  intros v mn mx p. unfold finish, Rmin, Rmax. destruct (Rlt_dec mx mn) as [L|L].
  - destruct (Req_EM_T mx mn); [lra|]. destruct (Rlt_dec v mx); [discriminate|]. destruct (Rlt_dec mn v); [discriminate|].
    intros H; inversion H; subst; cbn. destruct (Rle_dec mn mx); [lra|]. repeat split; try discriminate; lra.
  - destruct (Req_EM_T mn mx).
    + intros H; inversion H; subst; cbn. destruct (Rle_dec mx mx); [|lra]. repeat split; try discriminate; auto.
    + destruct (Rlt_dec v mn); [discriminate|]. destruct (Rlt_dec mx v); [discriminate|].
      intros H; inversion H; subst; cbn. destruct (Rle_dec mn mx); [|lra]. repeat split; try discriminate; lra.
Qed.
Definition no_bang (l : kline) : Prop := match l with LDbl DBang _ => False | _ => True end.
(** what the entries of a double line ask for: value, limits *)
Definition asks (l : kline) (v mn mx : R) : Prop :=
  match l with
  | LDbl (DDefault (Some (a, b))) d => v = d /\ mn = a /\ mx = b
  | LDbl (DNums (Some (x, a, b))) _ => v = x /\ mn = a /\ mx = b
  | LCut (Some x) => v = x /\ mn = x /\ mx = x
  | _ => False
  end.
Lemma entry_spec : forall l p, no_bang l -> read_entry l = Some p ->
  (forall v mn mx, asks l v mn mx -> k_val p = v /\ k_min p = Rmin mn mx /\ k_max p = Rmax mn mx /\ (k_inv p = true <-> mn = mx)) /\
  (k_inv p = false -> k_min p < k_max p /\ k_min p <= k_val p <= k_max p).
Proof.
  intros [buf d|[v|]|[|[[a b]|]|[[[x a] b]|]] d] p NB H; cbn [read_entry] in H; try discriminate; try contradiction.
  - destruct (read_kim_int d buf); inversion H; subst; cbn. split; [intros ? ? ? []|discriminate].
  - inversion H; subst; cbn. split; [|discriminate]. intros ? ? ? (-> & -> & ->).
    unfold Rmin, Rmax. destruct (Rle_dec v v); repeat split; auto.
  - destruct (finish_spec _ _ _ _ H) as (A & B & C & D & E). split; auto. intros ? ? ? (-> & -> & ->). auto.
  - destruct (finish_spec _ _ _ _ H) as (A & B & C & D & E). split; auto. intros ? ? ? (-> & -> & ->). auto.
Qed.
Lemma entries_nth : forall ls ps, read_entries ls = Some ps -> List.length ps = List.length ls /\
  forall k p, nth_error ps k = Some p -> exists l, nth_error ls k = Some l /\ read_entry l = Some p.
Proof.
  induction ls as [|l ls IH]; intros ps H; simpl in H.
  - inversion H; subst. split; auto. intros [|k] p N; discriminate.
  - destruct (read_entry l) as [p0|] eqn:E; [|discriminate]. destruct (read_entries ls) as [ps0|]; [|discriminate].
    inversion H; subst. destruct (IH _ eq_refl) as [A B]. split; [simpl; lia|].
    intros [|k] p N; simpl in N; [inversion N; subst; exists l; auto|]. apply B; auto.
Qed.
Lemma index_acc : forall ps n acc,
  fold_left (fun (s : nat * list nat) p => (S (fst s), if k_inv p then snd s else snd s ++ [fst s])) ps (n, acc)
  = ((n + List.length ps)%nat, acc ++ map fst (filter (fun q => negb (k_inv (snd q))) (combine (seq n (List.length ps)) ps))).
Proof.
  induction ps as [|p ps IH]; intros n acc; simpl.
  - rewrite app_nil_r, Nat.add_0_r. reflexivity.
  - rewrite IH. destruct (k_inv p); simpl; f_equal; try lia; rewrite <- ?app_assoc; reflexivity.
Qed.
Lemma index_spec : forall ps k, In k (kim_index ps) <-> exists p, nth_error ps k = Some p /\ k_inv p = false.
Proof.
  intros ps k. unfold kim_index. rewrite index_acc. cbn [snd app]. rewrite in_map_iff.
  assert (C : forall (l : list kpar) n k p, In (k, p) (combine (seq n (List.length l)) l) <-> (n <= k)%nat /\ nth_error l (k - n) = Some p).
  { induction l as [|x l IH]; intros n k' p; simpl.
    - split; [intros []|intros [_ H]; destruct (k' - n)%nat; discriminate].
    - rewrite IH. split.
      + intros [E|[L N]]; [inversion E; subst; rewrite Nat.sub_diag; auto|].
        split; [lia|]. replace (k' - n)%nat with (S (k' - S n)) by lia. exact N.
      + intros [L N]. destruct (Nat.eq_dec n k') as [->|D]; [left; rewrite Nat.sub_diag in N; inversion N; reflexivity|].
        right. split; [lia|]. replace (k' - n)%nat with (S (k' - S n)) in N by lia. exact N. }
  split.
  - intros ([k' p] & <- & I). apply filter_In in I. destruct I as [I V]. apply C in I. destruct I as [_ N].
    rewrite Nat.sub_0_r in N. exists p. split; auto. cbn in V. apply negb_true_iff in V. exact V.
  - intros (p & N & V). exists (k, p). split; auto. apply filter_In. split; [apply C; split; [lia|rewrite Nat.sub_0_r; exact N]|].
    cbn. rewrite V. reflexivity.
Qed.
Lemma index_nodup : forall ps, NoDup (kim_index ps).
Proof.
  intros ps. unfold kim_index. rewrite index_acc. cbn [snd app]. generalize 0%nat.
  induction ps as [|p ps IH]; intros n; simpl; [constructor|]. destruct (k_inv p); simpl; auto.
  constructor; auto. intros I. apply in_map_iff in I. destruct I as ([k q] & E & I). apply filter_In in I. destruct I as [I _].
  apply in_combine_l in I. apply in_seq in I. cbn in E. lia.
Qed.
Lemma idxlen_ok : forall ps, kim_idxlen ps = Z.of_nat (List.length (kim_index ps)).
Proof.
  intros ps. unfold kim_idxlen, kim_index. rewrite index_acc. cbn [snd app]. rewrite map_length. generalize 0%nat.
  induction ps as [|p ps IH]; intros n; [reflexivity|]. cbn [List.length seq combine filter snd]. specialize (IH (S n)).
  destruct (k_inv p); cbn [negb List.length] in *; lia.
Qed.

Theorem kim_limits : forall ls ps, read_entries ls = Some ps -> (forall l, In l ls -> no_bang l) ->
  List.length ps = List.length ls /\
  (forall k p l, nth_error ps k = Some p -> nth_error ls k = Some l ->
     (forall v mn mx, asks l v mn mx -> k_val p = v /\ k_min p = Rmin mn mx /\ k_max p = Rmax mn mx /\ (k_inv p = true <-> mn = mx)) /\
     (k_inv p = false -> k_min p < k_max p /\ k_min p <= k_val p <= k_max p)) /\
  NoDup (kim_index ps) /\
  (forall k, In k (kim_index ps) <-> exists p, nth_error ps k = Some p /\ k_inv p = false) /\
  kim_idxlen ps = Z.of_nat (List.length (kim_index ps)).
Proof.
  intros ls ps H NB. destruct (entries_nth ls ps H) as [L N]. split; auto. split; [|split; [apply index_nodup|split; [apply index_spec|apply idxlen_ok]]].
  intros k p l P Q. destruct (N k p P) as (l' & Q' & R). rewrite Q in Q'. inversion Q'; subst l'.
  apply entry_spec; auto. apply NB. eapply nth_error_In; eauto.
Qed.
Theorem bang_free : exists ls ps p, read_entries ls = Some ps /\ nth_error ps 0 = Some p /\ In 0%nat (kim_index ps) /\
  k_min p = 0 /\ k_max p = 0.
Proof.
  exists [LDbl DBang 5], [KPar 0 0 0 false], (KPar 0 0 0 false). split; [reflexivity|]. split; [reflexivity|].
  split; [left; reflexivity|]. split; reflexivity.
Qed.

(** ** parameters inside of the model *)
Lemma update_from_spec : forall dbl e vals xi m k, (forall d, In d dbl -> d = true) ->
  update_from e e dbl vals xi m k =
  if ((e <=? k) && (k <? e + List.length dbl))%nat%bool then (if Req_EM_T (xi k) (vals k) then m k else xi k) else m k.
Proof.
  induction dbl as [|d dbl IH]; intros e vals xi m k H; cbn [update_from List.length].
  - destruct (Nat.leb_spec e k), (Nat.ltb_spec k (e + 0)); simpl; auto; lia.
  - rewrite (H d (or_introl eq_refl)). rewrite IH by (intros; apply H; right; auto).
    destruct (Nat.eq_dec k e) as [->|D].
    + destruct (Nat.leb_spec (S e) e); [lia|]. simpl andb. cbv iota.
      destruct (Nat.leb_spec e e); [|lia]. destruct (Nat.ltb_spec e (e + S (List.length dbl))); [|lia]. simpl andb. cbv iota.
      destruct (Req_EM_T (xi e) (vals e)); auto. unfold set_entry. rewrite Nat.eqb_refl. reflexivity.
    + assert (Q : (if Req_EM_T (xi e) (vals e) then m else set_entry m e (xi e)) k = m k).
      { destruct (Req_EM_T (xi e) (vals e)); auto. unfold set_entry. destruct (Nat.eqb_spec k e); [lia|auto]. }
      rewrite Q. destruct (Nat.leb_spec e k), (Nat.leb_spec (S e) k), (Nat.ltb_spec k (S e + List.length dbl)), (Nat.ltb_spec k (e + S (List.length dbl))); simpl; auto; lia.
Qed.
(** only double parameters: after an evaluation each has the value asked for - unless this
    is the default, then it has the value it had *)
Theorem kim_update : forall dbl vals xi m k, (forall d, In d dbl -> d = true) -> (k < List.length dbl)%nat ->
  (xi k <> vals k -> update_kim_model dbl vals xi m k = xi k) /\
  (xi k = vals k -> update_kim_model dbl vals xi m k = m k).
Proof.
  intros dbl vals xi m k H L. unfold update_kim_model. rewrite update_from_spec by auto.
  destruct (Nat.ltb_spec k (0 + List.length dbl)); [|simpl in *; lia]. simpl andb. cbv iota.
  destruct (Req_EM_T (xi k) (vals k)); split; intros; auto; congruence.
Qed.
(** so the values are right after every history in which no entry takes its default value
    again once it has left it *)
Definition never_back (vals : nat -> R) (n : nat) (xis : list (nat -> R)) : Prop :=
  forall k a b, (k < n)%nat -> (a <= b < List.length xis)%nat ->
    nth a xis vals k <> vals k -> nth b xis vals k <> vals k.
Lemma evaluations_snoc : forall dbl vals xis xi m,
  evaluations dbl vals (xis ++ [xi]) m = update_kim_model dbl vals xi (evaluations dbl vals xis m).
Proof. intros. unfold evaluations. rewrite fold_left_app. reflexivity. Qed.
Theorem kim_history : forall dbl vals xis xi k, (forall d, In d dbl -> d = true) -> (k < List.length dbl)%nat ->
  never_back vals (List.length dbl) (xis ++ [xi]) -> evaluations dbl vals (xis ++ [xi]) vals k = xi k.
Proof.
  intros dbl vals xis. induction xis as [|y xis IH] using rev_ind; intros xi k H L NB.
  - cbn. destruct (kim_update dbl vals xi vals k H L) as [A B].
    destruct (Req_EM_T (xi k) (vals k)) as [E|E]; [rewrite B; congruence|auto].
  - rewrite evaluations_snoc.
    destruct (kim_update dbl vals xi (evaluations dbl vals (xis ++ [y]) vals) k H L) as [A B].
    destruct (Req_EM_T (xi k) (vals k)) as [E|E]; [|auto]. rewrite (B E).
    assert (NB' : never_back vals (List.length dbl) (xis ++ [y])).
    { intros q a b Q AB X. specialize (NB q a b Q). rewrite !app_length in *. cbn [List.length] in *.
      rewrite (app_nth1 (xis ++ [y])) in NB by (rewrite app_length; simpl; lia).
      rewrite (app_nth1 (xis ++ [y]) [xi] vals (n := b)) in NB by (rewrite app_length; simpl; lia).
      apply NB; auto. lia. }
    rewrite (IH y k H L NB'). rewrite E.
    destruct (Req_EM_T (y k) (vals k)) as [F|F]; auto. exfalso.
    specialize (NB k (List.length xis) (S (List.length xis)) L).
    assert (N1 : nth (List.length xis) ((xis ++ [y]) ++ [xi]) vals = y).
    { rewrite app_nth1 by (rewrite app_length; simpl; lia). rewrite app_nth2 by lia. rewrite Nat.sub_diag. reflexivity. }
    assert (N2 : nth (S (List.length xis)) ((xis ++ [y]) ++ [xi]) vals = xi).
    { rewrite app_nth2 by (rewrite app_length; simpl; lia). rewrite app_length. cbn [List.length].
      replace (S (List.length xis) - (List.length xis + 1))%nat with 0%nat by lia. reflexivity. }
    rewrite N1, N2 in NB. apply NB; auto. rewrite !app_length. simpl. lia.
Qed.
Theorem kim_stale : exists vals xi1 xi2, evaluations [true] vals [xi1; xi2] vals 0%nat <> xi2 0%nat.
Proof.
  exists (fun _ => 1), (fun _ => 2), (fun _ => 1). unfold evaluations, update_kim_model; cbn.
  destruct (Req_EM_T 2 1); [lra|]. destruct (Req_EM_T 1 1); [|lra]. unfold set_entry; cbn. lra.
Qed.
Theorem kim_int_shift : exists vals xi, evaluations [false; true] vals [xi] vals 1%nat = xi 0%nat /\ xi 1%nat <> xi 0%nat.
Proof.
  exists (fun _ => 1), (fun k => match k with O => 2 | S _ => 3 end). unfold evaluations, update_kim_model; cbn.
  destruct (Req_EM_T 2 1); [lra|]. unfold set_entry; cbn. split; lra.
Qed.

(** ** forces *)
Definition on_atom (src : list nat) (kf : nat -> R) (a : nat) : R :=
  rsumf (fun q => if Nat.eqb (snd q) a then kf (fst q) else 0) (combine (seq 0 (List.length src)) src).
Lemma gather_spec : forall src p kf f a, gather_from p src kf f a =
  f a + rsumf (fun q => if Nat.eqb (snd q) a then kf (fst q) else 0) (combine (seq p (List.length src)) src).
Proof.
  induction src as [|s src IH]; intros p kf f a; cbn [gather_from List.length seq combine].
  - unfold rsumf. simpl. lra.
  - rewrite IH, rsumf_cons. cbn [fst snd]. unfold add_at. rewrite (Nat.eqb_sym a s). destruct (Nat.eqb s a); lra.
Qed.
(** the exact effect: the old entry is added before the reference is subtracted *)
Theorem kim_forces_spec : forall w uf src kf f0 lo cnt f a, (lo <= a < lo + cnt)%nat ->
  kim_forces w uf src kf f0 lo cnt f a = if uf then w * (f a + on_atom src kf a - f0 a) else 0.
Proof.
  intros. unfold kim_forces. destruct (Nat.leb_spec lo a); [|lia]. destruct (Nat.ltb_spec a (lo + cnt)); [|lia]. simpl andb. cbv iota.
  destruct uf; auto. rewrite gather_spec. reflexivity.
Qed.
Theorem kim_forces_fresh : forall w src kf f0 lo cnt f a, (lo <= a < lo + cnt)%nat -> f a = 0 ->
  kim_forces w true src kf f0 lo cnt f a = w * (on_atom src kf a - f0 a).
Proof. intros. rewrite kim_forces_spec by auto. rewrite H0. f_equal. lra. Qed.
Theorem kim_forces_accumulate : exists w src kf f0 lo cnt f a, (lo <= a < lo + cnt)%nat /\ 
  let f1 := kim_forces w true src kf f0 lo cnt f in
  f a = 0 /\ kim_forces w true src kf f0 lo cnt f1 a <> f1 a.
Proof.
  exists 1, [0%nat], (fun _ => 3), (fun _ => 1), 0%nat, 1%nat, (fun _ => 0), 0%nat. split; [lia|]. cbv zeta. split; auto.
  rewrite !kim_forces_spec by lia. unfold on_atom, rsumf; cbn. lra.
Qed.
Lemma entries_ex : read_entries [LDbl (DNums (Some (1, 3, 0))) 7; LDbl (DDefault (Some (2, 2))) 7] =
  Some [KPar 1 0 3 false; KPar 7 2 2 true] /\ kim_index [KPar 1 0 3 false; KPar 7 2 2 true] = [0%nat].
Proof.
  split; [|reflexivity]. cbn. unfold finish.
  destruct (Rlt_dec 0 3); [|lra]. destruct (Req_EM_T 0 3); [lra|]. destruct (Rlt_dec 1 0); [lra|]. destruct (Rlt_dec 3 1); [lra|].
  destruct (Rlt_dec 2 2); [lra|]. destruct (Req_EM_T 2 2); [|lra]. reflexivity.
Qed.
Lemma never_back_ex : never_back (fun _ => 1) 1 [fun _ => 1; fun _ => 2; fun _ => 3].
Proof.
  intros k a b0 K AB. cbn [List.length] in AB.
  destruct b0 as [|[|[|b0]]]; cbn; try lra; [|lia]. assert (a = 0)%nat by lia. subst. cbn. lra.
Qed.
