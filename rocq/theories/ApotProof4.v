(** Reading analytic parameters: start values, bounds, global parameters, cutoffs. *)
From Coq Require Import Reals ZArith List Bool String Ascii Lia Lra.
From Verif Require Import LoopUtil ApotModel ApotSpec ApotProof ApotProof2 ApotProof3.
Import ListNotations.
Local Open Scope R_scope.

(** ** the value check *)
Definition in_bounds (p : par) : Prop := p_min p <= p_val p <= p_max p.
Lemma check_free : forall r, r_min r <= r_max r -> p_inv (check_value true r) = false -> in_bounds (check_value true r).
Proof.
  intros r H. unfold check_value, in_bounds. destruct (Req_EM_T (r_min r) (r_max r)); [discriminate|].
  destruct (Rlt_dec (r_max r) (r_min r)); [lra|]. intros _. cbn [p_min p_max p_val].
  destruct (Rlt_dec (r_val r) (r_min r)); [destruct (Rlt_dec (r_max r) (r_min r)); lra|].
  destruct (Rlt_dec (r_max r) (r_val r)); lra.
Qed.
Lemma check_spec : forall opt r, let p := check_value opt r in
  p_name p = r_name r /\ p_min p = Rmin (r_min r) (r_max r) /\ p_max p = Rmax (r_min r) (r_max r) /\
  (p_inv p = true <-> r_min r = r_max r) /\
  (opt = false \/ r_max r <= r_min r \/ r_min r <= r_val r <= r_max r -> p_val p = r_val r) /\
  (opt = true -> r_min r < r_max r -> p_val p = Rmax (r_min r) (Rmin (r_max r) (r_val r))).
Proof.
  intros opt r p. unfold p, check_value.
  destruct (Req_EM_T (r_min r) (r_max r)) as [E|E].
  - cbn. rewrite E. rewrite Rmin_left, Rmax_left by lra.
    split; [reflexivity|]. split; [reflexivity|]. split; [reflexivity|]. split; [tauto|]. split; [auto|]. lra.
  - destruct (Rlt_dec (r_max r) (r_min r)) as [L|L]; cbn [p_name p_val p_min p_max p_inv].
    + rewrite Rmin_right, Rmax_left by lra. split; [reflexivity|]. split; [reflexivity|]. split; [reflexivity|].
      split; [split; [discriminate|lra]|]. split; [auto|]. lra.
    + destruct opt; cbn [p_name p_val p_min p_max p_inv].
      * rewrite Rmin_left, Rmax_right by lra. split; [reflexivity|]. split; [reflexivity|]. split; [reflexivity|].
        split; [split; [discriminate|lra]|]. split.
        -- intros [A|[A|A]]; [discriminate|lra|].
           destruct (Rlt_dec (r_val r) (r_min r)); [lra|]. destruct (Rlt_dec (r_max r) (r_val r)); lra.
        -- intros _ _. unfold Rmin, Rmax.
           destruct (Rlt_dec (r_val r) (r_min r)), (Rle_dec (r_max r) (r_val r));
           repeat match goal with |- context [Rlt_dec ?a ?b] => destruct (Rlt_dec a b) end;
           repeat match goal with |- context [Rle_dec ?a ?b] => destruct (Rle_dec a b) end; lra.
      * rewrite Rmin_left, Rmax_right by lra. split; [reflexivity|]. split; [reflexivity|]. split; [reflexivity|].
        split; [split; [discriminate|lra]|]. split; [auto|]. discriminate.
Qed.

(** ** globals *)
Lemma globals_from : forall opt rs acc gs, read_globals opt acc rs = Some gs ->
  gs = acc ++ map (check_value opt) rs.
Proof.
  induction rs as [|r rs IH]; intros acc gs H; simpl in *; [inversion H; rewrite app_nil_r; auto|].
  destruct (existsb _ acc); [discriminate|]. rewrite (IH _ _ H), <- app_assoc. reflexivity.
Qed.
Lemma check_name : forall opt r, p_name (check_value opt r) = r_name r.
Proof. intros. apply check_spec. Qed.
Lemma globals_names : forall opt rs acc gs, read_globals opt acc rs = Some gs ->
  NoDup (map p_name acc) -> NoDup (map p_name gs).
Proof.
  induction rs as [|r rs IH]; intros acc gs H N; simpl in *; [inversion H; subst; auto|].
  destruct (existsb _ acc) eqn:E; [discriminate|]. apply (IH _ _ H). rewrite map_app. simpl.
  apply NoDup_rev in N. rewrite <- (rev_involutive (map p_name acc ++ _)). apply NoDup_rev.
  rewrite rev_app_distr. simpl. constructor; auto. rewrite <- in_rev, check_name. intro I.
  apply in_map_iff in I. destruct I as (g & G & I).
  assert (existsb (fun g => String.eqb (r_name r) (p_name g)) acc = true).
  { apply existsb_exists. exists g. split; auto. rewrite G. apply String.eqb_refl. }
  congruence.
Qed.
Lemma globals_dup : forall opt rs acc g r, In g acc -> In r rs -> r_name r = p_name g -> read_globals opt acc rs = None.
Proof.
  induction rs as [|r0 rs IH]; intros acc g r Ig Ir E; [destruct Ir|]. simpl.
  destruct (existsb _ acc) eqn:X; auto. destruct Ir as [->|Ir].
  - assert (existsb (fun g => String.eqb (r_name r) (p_name g)) acc = true).
    { apply existsb_exists. exists g. split; auto. rewrite E. apply String.eqb_refl. }
    congruence.
  - apply (IH _ g r); auto. apply in_or_app. auto.
Qed.

(** ** binding *)
Lemma strncmp_prefix : forall n a b, (n <= String.length a)%nat ->
  strncmp_eq n a b = true <-> prefix (substring 0 n a) b = true.
Proof.
  induction n; intros a b H; simpl.
  - destruct a, b; simpl; tauto.
  - destruct a as [|c a]; simpl in *; [lia|]. destruct b as [|d b]; [split; discriminate|].
    destruct (ascii_dec c d) as [->|E].
    + rewrite Ascii.eqb_refl. simpl. destruct (ascii_dec d d); [|congruence]. apply IHn. lia.
    + destruct (Ascii.eqb_spec c d); [congruence|]. simpl. destruct (ascii_dec c d); [congruence|]. split; discriminate.
Qed.
Lemma sub_base : forall s t, substring 0 (String.length s) (s ++ t) = s.
Proof. induction s as [|c s IH]; intros; simpl; [destruct t; reflexivity|]. rewrite IH. reflexivity. Qed.
Lemma len_app : forall s t, String.length (s ++ t) = (String.length s + String.length t)%nat.
Proof. induction s; simpl; intros; auto. Qed.
Lemma match_iff : forall base g, strncmp_eq (String.length (base ++ "!") - 1) (base ++ "!") g = true <-> prefix base g = true.
Proof.
  intros. rewrite len_app. simpl. replace (String.length base + 1 - 1)%nat with (String.length base) by lia.
  rewrite strncmp_prefix by (rewrite len_app; lia). rewrite sub_base. reflexivity.
Qed.
Lemma bang_app : forall base, has_bang (base ++ "!") = true.
Proof. induction base as [|c s IH]; simpl; auto. destruct (Ascii.eqb c "!"); auto. Qed.

Lemma find_last : forall name gs,
  match find_global name gs with
  | None => forall k, (k < List.length gs)%nat -> strncmp_eq (String.length name - 1) name (p_name (nth k gs (Par "" 0 0 0 false))) = false
  | Some l => (l < List.length gs)%nat /\ strncmp_eq (String.length name - 1) name (p_name (nth l gs (Par "" 0 0 0 false))) = true /\
      forall k, (l < k < List.length gs)%nat -> strncmp_eq (String.length name - 1) name (p_name (nth k gs (Par "" 0 0 0 false))) = false
  end.
Proof.
  intros name gs. unfold find_global.
  set (hit := fun k => strncmp_eq (String.length name - 1) name (p_name (nth k gs (Par "" 0 0 0 false)))).
  apply (for_up_inv (fun n (o : option nat) =>
    match o with
    | None => forall k, (k < n)%nat -> hit k = false
    | Some l => (l < n)%nat /\ hit l = true /\ forall k, (l < k < n)%nat -> hit k = false
    end)).
  - lia.
  - intros; lia.
  - intros n o N H. fold (hit n). destruct (hit n) eqn:Hn.
    + split; [lia|]. split; auto. intros; lia.
    + destruct o as [l|].
      * destruct H as (A & B & C). split; [lia|]. split; auto. intros k Hk. destruct (Nat.eq_dec k n); [subst; auto|apply C; lia].
      * intros k Hk. destruct (Nat.eq_dec k n); [subst; auto|apply H; lia].
Qed.

Theorem bound_right : forall opt gs r base, r_name r = (base ++ "!")%string ->
  forall l, (l < List.length gs)%nat -> p_name (nth l gs dpar) = base ->
  (forall k, (k < List.length gs)%nat -> prefix base (p_name (nth k gs dpar)) = true -> k = l) ->
  read_par opt gs r = Some (Par (r_name r) (p_val (nth l gs dpar)) (p_min (nth l gs dpar)) (p_max (nth l gs dpar)) true, Some l).
Proof.
  intros opt gs r base Hr l Hl Hn Hu. unfold read_par. rewrite Hr, bang_app.
  pose proof (find_last (base ++ "!") gs) as F. fold dpar in F.
  assert (HL : prefix base (p_name (nth l gs dpar)) = true).
  { rewrite Hn. clear. induction base as [|c s IH]; simpl; auto. destruct (ascii_dec c c); congruence. }
  destruct (find_global (base ++ "!") gs) as [l'|].
  - destruct F as (A & B & _). apply match_iff in B. rewrite (Hu l' A B). reflexivity.
  - specialize (F l Hl). apply match_iff in HL. congruence.
Qed.
(** whatever is bound has the written name as a prefix; no candidate: refused *)
Theorem bound_prefix : forall opt gs r base p l, r_name r = (base ++ "!")%string ->
  read_par opt gs r = Some (p, Some l) ->
  (l < List.length gs)%nat /\ prefix base (p_name (nth l gs dpar)) = true /\
  p_val p = p_val (nth l gs dpar) /\ p_min p = p_min (nth l gs dpar) /\ p_max p = p_max (nth l gs dpar) /\ p_inv p = true.
Proof.
  intros opt gs r base p l Hr H. unfold read_par in H. rewrite Hr, bang_app in H.
  pose proof (find_last (base ++ "!") gs) as F.
  destruct (find_global (base ++ "!") gs) as [l'|]; [|discriminate]. inversion H; subst.
  destruct F as (A & B & _). apply match_iff in B. fold dpar in *. cbn. auto 10.
Qed.
Theorem unbound_refused : forall opt gs r base, r_name r = (base ++ "!")%string ->
  (forall g, In g gs -> prefix base (p_name g) = false) -> read_par opt gs r = None.
Proof.
  intros opt gs r base Hr H. unfold read_par. rewrite Hr, bang_app.
  pose proof (find_last (base ++ "!") gs) as F. destruct (find_global (base ++ "!") gs) as [l|]; auto.
  destruct F as (A & B & _). apply match_iff in B.
  rewrite (H _ (nth_In gs (Par "" 0 0 0 false) A)) in B. discriminate.
Qed.

(** ** whole files *)
Lemma read_pars_in : forall opt gs rs ps, read_pars opt gs rs = Some ps ->
  forall x, In x ps -> exists r, In r rs /\ read_par opt gs r = Some x.
Proof.
  induction rs as [|r rs IH]; intros ps H x I; simpl in H; [inversion H; subst; destruct I|].
  destruct (read_par opt gs r) as [p|] eqn:P; [|discriminate].
  destruct (read_pars opt gs rs) as [ps'|] eqn:Q; [|discriminate]. inversion H; subst.
  destruct I as [<-|I]; [exists r; split; [left|]; auto|].
  destruct (IH _ eq_refl x I) as (r' & A & B). exists r'. split; [right|]; auto.
Qed.
Lemma read_pots_in : forall opt gs qs ps, read_potentials opt gs qs = Some ps ->
  forall q, In q ps -> exists rq rs, In rq qs /\ lines_used rq = Some rs /\ read_pars opt gs rs = Some (q_pars q) /\ q_inv q = rq_inv rq.
Proof.
  induction qs as [|q qs IH]; intros ps H x I; simpl in H; [inversion H; subst; destruct I|].
  destruct (read_potential opt gs q) as [p|] eqn:P; [|discriminate].
  destruct (read_potentials opt gs qs) as [ps'|] eqn:Q; [|discriminate]. inversion H; subst.
  destruct I as [<-|I].
  - unfold read_potential in P. destruct (lines_used q) as [rs|] eqn:L; [|discriminate].
    destruct (read_pars opt gs rs) as [pp|] eqn:PP; [|discriminate]. inversion P; subst.
    exists q, rs. split; [left; auto|]. split; auto.
  - destruct (IH _ eq_refl x I) as (rq & rs & A & B). exists rq, rs. split; [right|]; auto.
Qed.
Lemma lines_used_in : forall q rs r, lines_used q = Some rs -> In r rs -> In r (rq_lines q) \/ r = Raw "h" 1 (1 / 2) 2.
Proof.
  intros q rs r. unfold lines_used. destruct (_ <? _)%nat; [discriminate|].
  assert (G : forall n (l : list raw), In r (firstn n l) -> In r l).
  { intros n l. revert n. induction l; intros [|n] H; simpl in *; try tauto. destruct H; auto. right. eapply IHl; eauto. }
  destruct (rq_smooth q); [destruct (_ =? _)%nat|]; intros H I; inversion H; subst.
  - apply in_app_or in I. destruct I as [I|[<-|[]]]; auto.
  - left. apply (G (S (rq_npar q))); exact I.
  - left. eapply G; exact I.
Qed.

(** all parameter lines of a file *)
Definition pot_raws (f : rawfile) : list raw := flat_map rq_lines (f_pots f).
Definition checked_raws (f : rawfile) : list raw :=
  match f_cp f with None => [] | Some c => c end ++ f_globals f ++ pot_raws f.
Definition elstat_raws (f : rawfile) : list raw :=
  match f_elstat f with None => [] | Some (ch, ka) => ch ++ [ka] end ++
  match f_dipole f with None => [] | Some (al, b, c) => al ++ b ++ c end.

Lemma take_free : forall r, r_min r <= r_val r <= r_max r -> in_bounds (take_value r).
Proof. intros r H. exact H. Qed.

Theorem start_in_bounds : forall f a, read_file f = Some a -> f_opt f = true ->
  (forall r, In r (checked_raws f) -> r_min r <= r_max r) ->
  (forall r, In r (elstat_raws f) -> r_min r <= r_val r <= r_max r) ->
  forall i j inv p, has_par a i j inv p -> p_inv p = false -> in_bounds p.
Proof.
  intros f a H O C E i j inv p (ps & R & N) V. unfold read_file in H. rewrite O in H.
  destruct (read_globals true [] (f_globals f)) as [gs|] eqn:G; [|discriminate].
  destruct (read_potentials true gs (f_pots f)) as [pp|] eqn:P; [|discriminate]. inversion H; subst a; clear H.
  apply globals_from in G. simpl in G. apply nth_error_In in N.
  assert (CK : forall rs, (forall r, In r rs -> In r (checked_raws f)) -> In p (map (check_value true) rs) -> in_bounds p).
  { intros rs Hrs I. apply in_map_iff in I. destruct I as (r & <- & I). apply check_free; auto. }
  assert (TK : forall rs, (forall r, In r rs -> In r (elstat_raws f)) -> In p (map take_value rs) -> in_bounds p).
  { intros rs Hrs I. apply in_map_iff in I. destruct I as (r & <- & I). apply take_free; auto. }
  assert (GL : In p gs -> in_bounds p).
  { rewrite G. apply CK. intros r I. unfold checked_raws. apply in_or_app. right. apply in_or_app. auto. }
  unfold row_of in R. cbn [a_pots a_cp a_elstat a_dipole a_globals] in R.
  destruct (i <? List.length pp)%nat.
  - destruct (nth_error pp i) as [q|] eqn:Q; [|discriminate]. inversion R; subst.
    apply nth_error_In in Q. destruct (read_pots_in _ _ _ _ P q Q) as (rq & rs & I1 & I2 & I3 & _).
    apply in_map_iff in N. destruct N as ((p' & o) & E1 & N). cbn in E1. subst p'.
    destruct (read_pars_in _ _ _ _ I3 _ N) as (r & I4 & I5).
    unfold read_par in I5. destruct (has_bang (r_name r)).
    + destruct (find_global (r_name r) (map (check_value true) (f_globals f))); [|discriminate].
      inversion I5; subst. cbn in V. discriminate.
    + inversion I5; subst. apply check_free; auto.
      destruct (lines_used_in _ _ _ I2 I4) as [I6| -> ]; [|cbn; lra].
      apply C. unfold checked_raws, pot_raws. apply in_or_app. right. apply in_or_app. right.
      apply in_flat_map. exists rq. auto.
  - unfold checked_raws, elstat_raws in *.
    destruct (f_cp f) as [c|]; destruct (f_elstat f) as [[ch ka]|]; destruct (f_dipole f) as [[[al b] cc]|];
      cbn [option_map fst snd] in R;
      repeat match type of R with
      | (if ?b then _ else _) = _ => destruct b
      | Some _ = Some _ => inversion R; subst; clear R
      | None = Some _ => discriminate
      end; auto; try (apply GL; exact N);
      try (apply (CK c); [intros; apply in_or_app; auto|exact N]);
      try (apply (TK ch); [intros; repeat rewrite in_app_iff; auto|exact N]);
      try (apply (TK [ka]); [intros; repeat rewrite in_app_iff; auto|exact N]);
      try (apply (TK al); [intros; repeat rewrite in_app_iff; auto|exact N]);
      try (apply (TK b); [intros; repeat rewrite in_app_iff; auto|exact N]);
      try (apply (TK cc); [intros; repeat rewrite in_app_iff; auto|exact N]).
Qed.

(** ** bound parameters are fixed ones, with an existing global *)
Lemma read_bound : forall f a, read_file f = Some a ->
  forall q p l, In q (a_pots a) -> In (p, Some l) (q_pars q) -> p_inv p = true /\ (l < List.length (a_globals a))%nat.
Proof.
  intros f a H q p l Q I. unfold read_file in H.
  destruct (read_globals (f_opt f) [] (f_globals f)) as [gs|] eqn:G; [|discriminate].
  destruct (read_potentials (f_opt f) gs (f_pots f)) as [pp|] eqn:P; [|discriminate]. inversion H; subst a; clear H.
  cbn [a_pots a_globals] in *.
  destruct (read_pots_in _ _ _ _ P q Q) as (rq & rs & I1 & I2 & I3 & _).
  destruct (read_pars_in _ _ _ _ I3 _ I) as (r & I4 & I5). unfold read_par in I5.
  destruct (has_bang (r_name r)); [|discriminate].
  pose proof (find_last (r_name r) gs) as F. destruct (find_global (r_name r) gs); [|discriminate].
  inversion I5; subst. split; [reflexivity|]. apply F.
Qed.

Lemma combine_seq_in : forall {T} (xs : list T) s i x, In (i, x) (combine (seq s (List.length xs)) xs) <-> (s <= i)%nat /\ nth_error xs (i - s) = Some x.
Proof.
  induction xs as [|y ys IH]; intros s i x; simpl.
  - split; [tauto|]. intros [_ H]. destruct (i - s)%nat; discriminate.
  - rewrite IH. split.
    + intros [E|[A B]].
      * inversion E; subst. split; [lia|]. rewrite Nat.sub_diag. reflexivity.
      * split; [lia|]. replace (i - s)%nat with (S (i - S s)) by lia. exact B.
    + intros [A B]. destruct (Nat.eq_dec i s) as [->|N].
      * rewrite Nat.sub_diag in B. inversion B. auto.
      * right. split; [lia|]. replace (i - s)%nat with (S (i - S s)) in B by lia. exact B.
Qed.
Lemma uses_read_in : forall a l i j, In (l, (i, j)) (uses_read a) <->
  exists q p, nth_error (a_pots a) i = Some q /\ nth_error (q_pars q) j = Some (p, Some l).
Proof.
  intros a l i j. unfold uses_read. rewrite in_flat_map. split.
  - intros ([i' q] & A & B). apply in_flat_map in B. destruct B as ([j' [p o]] & B & C).
    unfold n_par in B. cbn [fst snd] in *. apply combine_seq_in in A. apply combine_seq_in in B.
    destruct A as [_ A], B as [_ B]. rewrite Nat.sub_0_r in A, B.
    destruct o as [l'|]; [|destruct C]. destruct C as [C|[]]. inversion C; subst. eauto.
  - intros (q & p & A & B). exists (i, q). split.
    + apply combine_seq_in. rewrite Nat.sub_0_r. split; [lia|auto].
    + apply in_flat_map. exists (j, (p, Some l)). cbn [fst snd]. split; [|left; auto].
      apply combine_seq_in. rewrite Nat.sub_0_r. split; [lia|auto].
Qed.
Lemma uses_in : forall a l i j, In (l, (i, j)) (uses a) <->
  (l < List.length (a_globals a))%nat /\ exists q p, nth_error (a_pots a) i = Some q /\ nth_error (q_pars q) j = Some (p, Some l).
Proof.
  intros a l i j. unfold uses. rewrite in_flat_map, <- uses_read_in. split.
  - intros (l' & A & B). apply in_seq in A. apply filter_In in B. destruct B as [B C]. apply Nat.eqb_eq in C. cbn in C. subst. split; [lia|auto].
  - intros [A B]. exists l. split; [apply in_seq; lia|]. apply filter_In. split; auto. apply Nat.eqb_refl.
Qed.

Definition npar_of (a : apot) (i : nat) : nat := n_par (nth i (a_pots a) (Pot false false [])).
Lemma first_is_off : forall a i, (i <= List.length (a_pots a))%nat -> pot_first a i = (off (npar_of a) i + 2)%nat.
Proof.
  intros a i. unfold pot_first, npar_of. 
  assert (G : forall ps s i, (i <= List.length ps)%nat -> first_of (map n_par ps) s i = (off (fun k => n_par (nth k ps (Pot false false []))) i + s)%nat).
  { clear. induction ps as [|q r IH]; intros s i H; simpl in H; [destruct i; [reflexivity|lia]|].
    destruct i; [reflexivity|]. cbn [map first_of]. rewrite IH by lia.
    assert (E : forall m, off (fun k => n_par (nth k (q :: r) (Pot false false []))) (S m) = (off (fun k => n_par (nth k r (Pot false false []))) m + 2 + n_par q)%nat).
    { induction m; simpl in *; lia. }
    rewrite E. lia. }
  intros H. rewrite (G _ _ _ H). reflexivity.
Qed.

(** ** cutoffs *)
(** columns of functions of the distance between atoms of types i and j *)
Definition reach (m : model) (n i j : nat) : list nat :=
  let pc := (n * (n + 1) / 2)%nat in
  let k := pair_col n i j in
  match m with
  | MPair => [k]
  | MEam => [k; pc + i; pc + j]
  | MTbeam => [k; pc + i; pc + j; pc + 2 * n + i; pc + 2 * n + j]
  | MAdp => [k; pc + i; pc + j; pc + 2 * n + k; 2 * pc + 2 * n + k]
  | MMeam => [k; pc + i; pc + j; pc + 2 * n + k]
  | MAng => [k; pc + k]
  end%nat.
Theorem cutoff_covers : forall m coul n pend i j c, (m = MPair \/ m = MEam) ->
  In c (reach m n i j) -> pend c <= rcut_of m coul n pend i j.
Proof.
  intros m coul n pend i j c Hm H.
  assert (G : pend c <= rcut_of m None n pend i j).
  { unfold rcut_of. destruct Hm as [->| ->]; unfold reach in H; cbn [In] in H.
    - destruct H as [<-|[]]. simpl. lra.
    - unfold eam_like.
      pose proof (Rmax_l (Rmax (pend (pair_col n i j)) (pend (n * (n + 1) / 2 + i)%nat)) (pend (n * (n + 1) / 2 + j)%nat)).
      pose proof (Rmax_r (Rmax (pend (pair_col n i j)) (pend (n * (n + 1) / 2 + i)%nat)) (pend (n * (n + 1) / 2 + j)%nat)).
      pose proof (Rmax_l (pend (pair_col n i j)) (pend (n * (n + 1) / 2 + i)%nat)).
      pose proof (Rmax_r (pend (pair_col n i j)) (pend (n * (n + 1) / 2 + i)%nat)).
      destruct H as [<-|[<-|[<-|[]]]]; lra. }
  unfold rcut_of in *. destruct coul as [d|]; auto. eapply Rle_trans; [exact G|apply Rmax_l].
Qed.
Theorem coulomb_covered : forall m d n pend i j, d <= rcut_of m (Some d) n pend i j.
Proof. intros. unfold rcut_of. apply Rmax_r. Qed.
Theorem max_covers : forall m coul n pend i j, (i < n)%nat -> (j < n)%nat -> rcut_of m coul n pend i j <= rcutmax_of m coul n pend.
Proof.
  intros m coul n pend i j Hi Hj. unfold rcutmax_of. set (r := rcut_of m coul n pend).
  assert (INNER : forall i x, let y := for_up 0 n (fun j mx => Rmax mx (r i j)) x in x <= y /\ forall j, (j < n)%nat -> r i j <= y).
  { intros i0 x. cbv zeta. apply (for_up_inv (fun k (y : R) => x <= y /\ forall j, (j < k)%nat -> r i0 j <= y)).
    - lia.
    - split; [lra|intros; lia].
    - intros k y K [A B]. pose proof (Rmax_l y (r i0 k)). pose proof (Rmax_r y (r i0 k)). split; [lra|].
      intros j0 J. destruct (Nat.eq_dec j0 k); [subst; lra|]. specialize (B j0 ltac:(lia)). lra. }
  assert (OUT : forall i', (i' < n)%nat -> forall j', (j' < n)%nat -> r i' j' <= for_up 0 n (fun i mx => for_up 0 n (fun j mx => Rmax mx (r i j)) mx) 0).
  { apply (for_up_inv (fun k (y : R) => forall i', (i' < k)%nat -> forall j', (j' < n)%nat -> r i' j' <= y)).
    - lia.
    - intros; lia.
    - intros k y K H i' I' j' J'. destruct (INNER k y) as [A B]. destruct (Nat.eq_dec i' k); [subst; auto|].
      specialize (H i' ltac:(lia) j' J'). cbv zeta in A. lra. }
  apply OUT; auto.
Qed.
