(** The calculation table is kept up to date. *)
From Coq Require Import Reals ZArith List Bool String Lia Lra.
From Verif Require Import LoopUtil ApotModel ApotSpec.
Import ListNotations.

Lemma set1_eq : forall f k x, set1 f k x k = x.
Proof. intros. unfold set1. rewrite Nat.eqb_refl. reflexivity. Qed.
Lemma set1_neq : forall f k x m, m <> k -> set1 f k x m = f m.
Proof. intros. unfold set1. destruct (Nat.eqb_spec m k); [lia|reflexivity]. Qed.

Lemma off_mono : forall npar i j, i <= j -> off npar i <= off npar j.
Proof. intros npar i j H. induction H; simpl; lia. Qed.
Lemma off_next : forall npar i j, i < j -> off npar i + 2 + npar i <= off npar j.
Proof. intros npar i j H. pose proof (off_mono npar (S i) j H) as E. simpl in E. lia. Qed.
(** positions of parameters and of the gradients before them *)
Lemma slot_not_gap : forall npar i k m, k < npar i -> off npar i + 2 + k <> off npar m.
Proof.
  intros npar i k m Hk E. destruct (lt_eq_lt_dec i m) as [[H|H]|H].
  - pose proof (off_next npar i m H). lia.
  - subst. lia.
  - pose proof (off_mono npar m i ltac:(lia)). lia.
Qed.
Lemma slot_inj : forall npar i k m l, k < npar i -> l < npar m -> off npar i + 2 + k = off npar m + 2 + l -> i = m /\ k = l.
Proof.
  intros npar i k m l Hk Hl E. destruct (lt_eq_lt_dec i m) as [[H|H]|H].
  - pose proof (off_next npar i m H). lia.
  - subst. lia.
  - pose proof (off_next npar m i H). lia.
Qed.

Section Calc.
  Variable ncols : nat.
  Variable npar : nat -> nat.
  Variable smooth invar : nat -> bool.
  Variable fval : nat -> R -> (nat -> R) -> option R.
  Variable cut : nat -> R -> R -> R.
  Variable grad : nat -> (nat -> R) -> R.
  Variable xcoord : nat -> R.
  Variable binds : list (nat * (nat * nat)).
  Variable first : nat -> nat.
  Variable global_idx : nat.
  Variable steps : nat.
  (** the functions look at their own parameters only *)
  Hypothesis fval_local : forall i r p q, (forall k, k < npar i -> p k = q k) -> fval i r p = fval i r q.
  Hypothesis first_off : forall i, i < ncols -> first i = off npar i + 2.
  Hypothesis binds_in : forall l m n, In (l, (m, n)) binds -> m < ncols /\ n < npar m.
  Hypothesis binds_once : forall l l' m n, In (l, (m, n)) binds -> In (l', (m, n)) binds -> l = l'.
  Hypothesis glob_after : off npar ncols <= global_idx.
  Hypothesis smooth_par : forall i, smooth i = true -> 1 <= npar i.

  Let upd := update_calc_table ncols npar smooth invar fval cut grad xcoord binds first global_idx steps.
  Let holds i p tab := col_at npar smooth fval cut xcoord steps i p tab.

  Lemma copied : forall xi, bound_to npar ncols binds global_idx xi (copy_globals binds first global_idx xi).
  Proof.
    intros xi0. unfold copy_globals, bound_to, params.
    set (body := fun (xi : nat -> R) (b : nat * (nat * nat)) => set1 xi (first (fst (snd b)) + snd (snd b)) (xi (global_idx + fst b))).
    assert (G : forall bs xi, (forall b, In b bs -> In b binds) ->
      (forall k, off npar ncols <= k -> xi k = xi0 k) ->
      let xi' := fold_left body bs xi in
      (forall k, off npar ncols <= k -> xi' k = xi0 k) /\
      (forall l m n, In (l, (m, n)) bs -> xi' (off npar m + 2 + n) = xi0 (global_idx + l)) /\
      (forall k, (forall l m n, In (l, (m, n)) bs -> k <> off npar m + 2 + n) -> xi' k = xi k)).
    { induction bs as [|[l0 [m0 n0]] bs IH]; intros xi Hin Hx; cbn [fold_left].
      - repeat split; auto. intros l m n [].
      - destruct (binds_in l0 m0 n0 (Hin _ (or_introl eq_refl))) as [M0 N0].
        assert (E0 : body xi (l0, (m0, n0)) = set1 xi (off npar m0 + 2 + n0) (xi0 (global_idx + l0))).
        { unfold body. cbn [fst snd]. rewrite (first_off m0 M0). f_equal. apply Hx. lia. }
        assert (L0 : off npar m0 + 2 + n0 < off npar ncols) by (pose proof (off_next npar m0 ncols M0); lia).
        assert (Hx' : forall k, off npar ncols <= k -> body xi (l0, (m0, n0)) k = xi0 k).
        { intros k Hk. rewrite E0, set1_neq by lia. auto. }
        destruct (IH (body xi (l0, (m0, n0))) (fun b Hb => Hin b (or_intror Hb)) Hx') as (A & B & C).
        split; [exact A|]. split.
        + intros l m n [E|H]; [|apply B; auto]. inversion E; subst l m n.
          destruct (in_dec (fun x y : nat * (nat * nat) => ltac:(repeat decide equality) : {x = y} + {x <> y}) (l0, (m0, n0)) bs) as [I|I].
          * apply B. auto.
          * rewrite C.
            -- rewrite E0, set1_eq. reflexivity.
            -- intros l m n H E'.
               destruct (binds_in l m n (Hin _ (or_intror H))) as [M N].
               destruct (slot_inj npar m0 n0 m n N0 N E') as [<- <-].
               assert (l = l0) by (eapply binds_once; [apply Hin; right; exact H|apply Hin; left; reflexivity]).
               subst. auto.
        + intros k Hk. rewrite C.
          * rewrite E0. apply set1_neq. eapply Hk. left; reflexivity.
          * intros l m n H. eapply Hk. right; exact H. }
    destruct (G binds xi0 (fun b Hb => Hb) (fun k _ => eq_refl)) as (A & B & C). fold body.
    split; [|split].
    - intros l m n H. apply B; auto.
    - intros m n Hm Hn H. apply C. intros l m' n' I E.
      destruct (binds_in l m' n' I) as [M' N']. destruct (slot_inj npar m n m' n' Hn N' E) as [<- <-]. apply (H l I).
    - exact A.
  Qed.

  Lemma compare_spec : forall n o xi lst,
    let r := compare n o xi lst in
    (forall k, k < n -> snd r (o + k) = xi (o + k)) /\
    (forall m, (forall k, k < n -> m <> o + k) -> snd r m = lst m) /\
    (fst r = false -> forall k, k < n -> lst (o + k) = xi (o + k)).
  Proof.
    intros n o xi lst. unfold compare.
    apply (for_up_inv (fun j (s : bool * (nat -> R)) =>
      (forall k, k < j -> snd s (o + k) = xi (o + k)) /\
      (forall m, (forall k, k < j -> m <> o + k) -> snd s m = lst m) /\
      (fst s = false -> forall k, k < j -> lst (o + k) = xi (o + k)))).
    - lia.
    - split; [|split]; simpl; intros; try lia; auto.
    - intros j s J (A & B & C). destruct (Req_EM_T (snd s (o + j)) (xi (o + j))) as [E|E].
      + split; [|split].
        * intros k Hk. destruct (Nat.eq_dec k j); [subst; auto|apply A; lia].
        * intros m Hm. apply B. intros; apply Hm; lia.
        * intros F k Hk. destruct (Nat.eq_dec k j); [subst|apply C; auto; lia].
          rewrite <- E. symmetry. apply B. intros; lia.
      + cbn [fst snd]. split; [|split].
        * intros k Hk. destruct (Nat.eq_dec k j); [subst; apply set1_eq|].
          rewrite set1_neq by lia. apply A; lia.
        * intros m Hm. rewrite set1_neq by (apply Hm; lia). apply B. intros; apply Hm; lia.
        * discriminate.
  Qed.

  Definition cell (i j : nat) := i * steps + (i + 1) * 2 + j.
  Lemma cell_inj : forall i j i' j', j < steps -> j' < steps -> cell i j = cell i' j' -> i = i' /\ j = j'.
  Proof.
    intros i j i' j' J J' E. unfold cell in E.
    assert (i = i') by (destruct (lt_eq_lt_dec i i') as [[H|H]|H]; auto; nia). subst. lia.
  Qed.

  Lemma fill_spec : forall i h p tab,
    match fill smooth fval cut xcoord steps i h p tab with
    | None => True
    | Some t => 
       (forall j, j < steps -> exists f, fval i (xcoord (cell i j)) p = Some f /\
           t (cell i j) = (if smooth i then f * cut i (xcoord (cell i j)) h else f)%R) /\
       (forall m, (forall j, j < steps -> m <> cell i j) -> t m = tab m)
    end.
  Proof.
    intros i h p tab. unfold fill.
    apply (for_up_inv (fun n (t : option (nat -> R)) =>
      match t with None => True | Some t =>
       (forall j, j < n -> exists f, fval i (xcoord (cell i j)) p = Some f /\
           t (cell i j) = (if smooth i then f * cut i (xcoord (cell i j)) h else f)%R) /\
       (forall m, (forall j, j < n -> m <> cell i j) -> t m = tab m) end)).
    - lia.
    - split; intros; try lia; auto.
    - intros n [t|] N; auto. intros (A & B). fold (cell i n).
      destruct (fval i (xcoord (cell i n)) p) as [f|] eqn:F; auto. split.
      + intros j J. destruct (Nat.eq_dec j n) as [->|Nj].
        * exists f. rewrite set1_eq. auto.
        * destruct (A j ltac:(lia)) as (f' & F' & T'). exists f'. split; auto.
          rewrite set1_neq; auto. intro E. unfold cell in E. lia.
      + intros m Hm. rewrite set1_neq by (apply Hm; lia). apply B. intros; apply Hm; lia.
  Qed.
  Lemma fill_total : forall i h p tab, (forall j, j < steps -> fval i (xcoord (cell i j)) p <> None) ->
    fill smooth fval cut xcoord steps i h p tab <> None.
  Proof.
    intros i h p tab H. unfold fill.
    apply (for_up_inv (fun n (t : option (nat -> R)) => t <> None)).
    - lia.
    - discriminate.
    - intros n [t|] N; auto. intros _. fold (cell i n). specialize (H n ltac:(lia)).
      destruct (fval i (xcoord (cell i n)) p); congruence.
  Qed.

  (** result of one update *)
  Definition updated (do_all : bool) (xi lst tab xi' lst' tab' : nat -> R) : Prop :=
    bound_to npar ncols binds global_idx xi xi' /\
    (forall i, i < ncols -> xi' (off npar i) = grad i (params npar xi' i)) /\
    (forall i k, i < ncols -> k < npar i -> lst' (off npar i + 2 + k) = params npar xi' i k) /\
    (forall i, i < ncols ->
       if (do_all || negb (invar i))%bool
       then holds i (params npar xi' i) tab' \/
            (do_all = false /\ (forall k, k < npar i -> lst (off npar i + 2 + k) = params npar xi' i k) /\
             forall j, j < steps -> tab' (cell i j) = tab (cell i j))
       else forall j, j < steps -> tab' (cell i j) = tab (cell i j)).

  Hypothesis grad_local : forall i p q, (forall k, k < npar i -> p k = q k) -> grad i p = grad i q.

  Lemma holds_ext : forall i p q tab, (forall k, k < npar i -> p k = q k) -> (smooth i = true -> 1 <= npar i) ->
    holds i p tab -> holds i q tab.
  Proof.
    intros i p q tab E S H j J. destruct (H j J) as (f & F & T). exists f. split.
    - rewrite <- F. apply fval_local. intros; symmetry; auto.
    - rewrite T. destruct (smooth i) eqn:Sm; auto. rewrite E; auto. specialize (S eq_refl). lia.
  Qed.

  Theorem update_spec : forall do_all xi lst tab xi' lst' tab',
    upd do_all xi lst tab = Some (xi', lst', tab') -> updated do_all xi lst tab xi' lst' tab'.
  Proof.
    intros do_all xi lst tab xi' lst' tab' H. unfold upd, update_calc_table in H.
    pose proof (copied xi) as CP. set (x0 := copy_globals binds first global_idx xi) in *. clearbody x0.
    set (loop := for_up 0 ncols _ _) in H.
    assert (INV : match loop with None => True | Some s =>
      c_off s = off npar ncols /\
      (forall m, (forall i, m <> off npar i) -> c_xi s m = x0 m) /\
      (forall m, off npar ncols <= m -> c_xi s m = x0 m) /\
      (forall i, i < ncols -> c_xi s (off npar i) = grad i (params npar (c_xi s) i)) /\
      (forall i k, i < ncols -> k < npar i -> c_list s (off npar i + 2 + k) = x0 (off npar i + 2 + k)) /\
      (forall i, i < ncols ->
       if (do_all || negb (invar i))%bool
       then holds i (params npar x0 i) (c_tab s) \/
            (do_all = false /\ (forall k, k < npar i -> lst (off npar i + 2 + k) = params npar x0 i k) /\
             forall j, j < steps -> c_tab s (cell i j) = tab (cell i j))
       else forall j, j < steps -> c_tab s (cell i j) = tab (cell i j)) end).
    { assert (GEN : match loop with None => True | Some s =>
      c_off s = off npar ncols /\
      (forall m, (forall i, i < ncols -> m <> off npar i) -> c_xi s m = x0 m) /\
      (forall i, i < ncols -> c_xi s (off npar i) = grad i (params npar x0 i)) /\
      (forall i k, i < ncols -> k < npar i -> c_list s (off npar i + 2 + k) = x0 (off npar i + 2 + k)) /\
      (forall m, off npar ncols <= m -> c_list s m = lst m) /\
      (forall i, i < ncols ->
       if (do_all || negb (invar i))%bool
       then holds i (params npar x0 i) (c_tab s) \/
            (do_all = false /\ (forall k, k < npar i -> lst (off npar i + 2 + k) = params npar x0 i k) /\
             forall j, j < steps -> c_tab s (cell i j) = tab (cell i j))
       else forall j, j < steps -> c_tab s (cell i j) = tab (cell i j)) /\
      (forall i j, ncols <= i -> j < steps -> c_tab s (cell i j) = tab (cell i j)) end).
      { unfold loop.
        apply (for_up_inv (fun n (s : option cst) => match s with None => True | Some s =>
      c_off s = off npar n /\
      (forall m, (forall i, i < n -> m <> off npar i) -> c_xi s m = x0 m) /\
      (forall i, i < n -> c_xi s (off npar i) = grad i (params npar x0 i)) /\
      (forall i k, i < n -> k < npar i -> c_list s (off npar i + 2 + k) = x0 (off npar i + 2 + k)) /\
      (forall m, off npar n <= m -> c_list s m = lst m) /\
      (forall i, i < n ->
       if (do_all || negb (invar i))%bool
       then holds i (params npar x0 i) (c_tab s) \/
            (do_all = false /\ (forall k, k < npar i -> lst (off npar i + 2 + k) = params npar x0 i k) /\
             forall j, j < steps -> c_tab s (cell i j) = tab (cell i j))
       else forall j, j < steps -> c_tab s (cell i j) = tab (cell i j)) /\
      (forall i j, n <= i -> j < steps -> c_tab s (cell i j) = tab (cell i j)) end)).
        - lia.
        - cbn [c_off c_xi c_list c_tab]. repeat split; auto; intros; lia.
        - intros n [s|] N; [|auto]. intros (IO & IX & IG & IL & IL' & IT & IT').
          unfold calc_col. set (live := (smooth n && (do_all || negb (invar n)))%bool).
          destruct (live && (if Req_EM_T (if live then c_xi s (c_off s + 1 + npar n) else c_h s) 0 then true else false))%bool; auto.
          set (h := if live then c_xi s (c_off s + 1 + npar n) else c_h s).
          rewrite IO in *.
          (* parameters seen by this column *)
          assert (PE : forall k, k < npar n -> c_xi s (off npar n + 2 + k) = params npar x0 n k).
          { intros k Hk. apply IX. intros i Hi. apply slot_not_gap; auto. }
          set (x1 := set1 (c_xi s) (off npar n) (grad n (fun k => c_xi s (off npar n + 2 + k)))).
          assert (XE : forall k, k < npar n -> x1 (off npar n + 2 + k) = params npar x0 n k).
          { intros k Hk. unfold x1. rewrite set1_neq by lia. auto. }
          destruct (compare_spec (npar n) (off npar n + 2) x1 (c_list s)) as (CA & CB & CC).
          set (cl := compare (npar n) (off npar n + 2) x1 (c_list s)) in *. clearbody cl.
          assert (IX1 : forall m, (forall i, i < S n -> m <> off npar i) -> x1 m = x0 m).
          { intros m Hm. unfold x1. rewrite set1_neq by (apply Hm; lia). apply IX. intros; apply Hm; lia. }
          assert (IG1 : forall i, i < S n -> x1 (off npar i) = grad i (params npar x0 i)).
          { intros i Hi. destruct (Nat.eq_dec i n) as [->|Ni].
            - unfold x1. rewrite set1_eq. apply grad_local. exact PE.
            - unfold x1. rewrite set1_neq; [apply IG; lia|]. pose proof (off_next npar i n ltac:(lia)). lia. }
          assert (IL1 : forall i k, i < S n -> k < npar i -> snd cl (off npar i + 2 + k) = x0 (off npar i + 2 + k)).
          { intros i k Hi Hk. destruct (Nat.eq_dec i n) as [->|Ni].
            - rewrite CA by auto. apply XE; auto.
            - rewrite CB; [apply IL; auto; lia|]. intros k' Hk' E. destruct (slot_inj npar i k n k' Hk Hk' E). lia. }
          assert (IL1' : forall m, off npar (S n) <= m -> snd cl m = lst m).
          { intros m Hm. simpl in Hm. rewrite CB by (intros; lia). apply IL'. lia. }
          destruct (do_all || (fst cl && negb (invar n)))%bool eqn:DO.
          + pose proof (fill_spec n h (fun k => c_xi s (off npar n + 2 + k)) (c_tab s)) as FS.
            destruct (fill smooth fval cut xcoord steps n h (fun k => c_xi s (off npar n + 2 + k)) (c_tab s)) as [t|]; auto.
            destruct FS as (FA & FB). cbn [c_off c_xi c_list c_tab].
            assert (TO : forall i j, i <> n -> j < steps -> t (cell i j) = c_tab s (cell i j)).
            { intros i j Hi Hj. apply FB. intros j' Hj' E. apply cell_inj in E; auto. lia. }
            assert (HO : forall i p, i <> n -> holds i p (c_tab s) -> holds i p t).
            { intros i p Hi Hh j J. destruct (Hh j J) as (f & F & T). exists f. split; auto. rewrite <- T. apply TO; auto. }
            assert (LV : live = smooth n).
            { unfold live. destruct do_all; [apply andb_true_r|]. simpl in DO. apply andb_prop in DO. destruct DO as [_ ->]. apply andb_true_r. }
            split; [simpl; lia|]. split; [exact IX1|]. split; [exact IG1|]. split; [exact IL1|]. split; [exact IL1'|]. split.
            * intros i Hi. destruct (Nat.eq_dec i n) as [->|Ni].
              -- assert (HH : holds n (params npar x0 n) t).
                 { apply (holds_ext n (fun k => c_xi s (off npar n + 2 + k))); [exact PE|apply smooth_par|].
                   intros j J. destruct (FA j J) as (f & F & T). exists f. split; auto. fold (cell n j). rewrite T.
                   destruct (smooth n) eqn:Sm; auto. unfold h. rewrite LV.
                   pose proof (smooth_par n Sm). f_equal. f_equal. f_equal. lia. }
                 destruct (do_all || negb (invar n))%bool eqn:D2; auto.
                 exfalso. destruct do_all; [discriminate|]. simpl in *. apply andb_prop in DO. destruct DO as [_ DO]. congruence.
              -- specialize (IT i ltac:(lia)). destruct (do_all || negb (invar i))%bool.
                 ++ destruct IT as [IT|(A & B & C)]; [left; apply HO; auto|right]. split; auto. split; auto.
                    intros j J. rewrite TO by auto. auto.
                 ++ intros j J. rewrite TO by auto. auto.
            * intros i j Hi Hj. rewrite TO by (auto; lia). apply IT'; auto; lia.
          + cbn [c_off c_xi c_list c_tab].
            split; [simpl; lia|]. split; [exact IX1|]. split; [exact IG1|]. split; [exact IL1|]. split; [exact IL1'|]. split.
            * intros i Hi. destruct (Nat.eq_dec i n) as [->|Ni]; [|apply IT; lia].
              apply orb_false_iff in DO. destruct DO as [-> DO]. simpl.
              destruct (invar n) eqn:In; simpl.
              -- intros j J. apply IT'; auto.
              -- right. split; auto. simpl in DO. rewrite andb_true_r in DO. split.
                 ++ intros k Hk. specialize (CC DO k Hk). rewrite XE in CC by auto. rewrite <- CC.
                    symmetry. apply IL'. lia.
                 ++ intros j J. apply IT'; auto.
            * intros i j Hi Hj. apply IT'; auto; lia. }
      destruct loop as [s|]; auto. destruct GEN as (A & B & C & D & _ & E & _).
      assert (PX : forall i k, i < ncols -> k < npar i -> c_xi s (off npar i + 2 + k) = x0 (off npar i + 2 + k)).
      { intros i k Hi Hk. apply B. intros i' _. apply slot_not_gap; auto. }
      split; [exact A|]. split; [intros m Hm; apply B; auto|]. split.
      { intros m Hm. apply B. intros i Hi. pose proof (off_next npar i ncols Hi). lia. }
      split; [|split; auto].
      intros i Hi. rewrite C by auto. apply grad_local. intros k Hk. symmetry. apply PX; auto. }
    destruct loop as [s|]; [|discriminate]. inversion H; subst xi' lst' tab'.
    destruct INV as (A & B & B2 & C & D & E).
    assert (PX : forall i k, k < npar i -> c_xi s (off npar i + 2 + k) = x0 (off npar i + 2 + k)).
    { intros i k Hk. apply B. intros i'. apply slot_not_gap; auto. }
    destruct CP as (P1 & P2 & P3).
    split; [|split; [|split]].
    - split; [|split].
      + intros l m n I. destruct (binds_in l m n I) as [_ Hn]. unfold params. rewrite PX by auto. apply (P1 l m n I).
      + intros m n Hm Hn I. unfold params. rewrite PX by auto. apply P2; auto.
      + intros k Hk. rewrite B2 by auto. apply P3; auto.
    - exact C.
    - intros i k Hi Hk. rewrite D by auto. unfold params. symmetry. apply PX; auto.
    - intros i Hi. specialize (E i Hi). destruct (do_all || negb (invar i))%bool; auto.
      destruct E as [E|(E1 & E2 & E3)].
      + left. apply (holds_ext i (params npar x0 i)); auto. intros k Hk. symmetry. apply PX; auto.
      + right. split; auto. split; auto. intros k Hk. rewrite E2 by auto. symmetry. apply PX; auto.
  Qed.

  (** ** Any number of evaluations after the first table *)
  Fixpoint run (xis : list (nat -> R)) (st : (nat -> R) * (nat -> R) * (nat -> R)) : option ((nat -> R) * (nat -> R) * (nat -> R)) :=
    match xis with
    | [] => Some st
    | xi :: rest =>
        match upd false xi (snd (fst st)) (snd st) with
        | None => None
        | Some st' => run rest st'
        end
    end.
  Definition in_step (xi0 xi : nat -> R) (lst tab : nat -> R) : Prop :=
    (forall i k, i < ncols -> k < npar i -> lst (off npar i + 2 + k) = params npar xi i k) /\
    (forall i, i < ncols -> invar i = false -> holds i (params npar xi i) tab) /\
    (forall i, i < ncols -> invar i = true -> holds i (params npar xi0 i) tab).

  Lemma step_ok : forall xi0 xi lst tab y xi' lst' tab', in_step xi0 xi lst tab ->
    upd false y lst tab = Some (xi', lst', tab') -> in_step xi0 xi' lst' tab'.
  Proof.
    intros xi0 xi lst tab y xi' lst' tab' (A & B & C) H.
    destruct (update_spec _ _ _ _ _ _ _ H) as (_ & _ & U3 & U4).
    split; [exact U3|]. split.
    - intros i Hi Hv. specialize (U4 i Hi). rewrite Hv in U4. simpl in U4.
      destruct U4 as [U4|(_ & U5 & U6)]; auto.
      intros j J. destruct (holds_ext i (params npar xi i) (params npar xi' i) tab) with (j := j) as (f & F & T); auto.
      { intros k Hk. rewrite <- U5 by auto. symmetry. apply A; auto. }
      exists f. split; auto. rewrite <- T. apply U6; auto.
    - intros i Hi Hv. specialize (U4 i Hi). rewrite Hv in U4. simpl in U4.
      intros j J. destruct (C i Hi Hv j J) as (f & F & T). exists f. split; auto. rewrite <- T. apply U4; auto.
  Qed.
  Lemma run_ok : forall xis xi0 xi lst tab xi' lst' tab', in_step xi0 xi lst tab ->
    run xis (xi, lst, tab) = Some (xi', lst', tab') -> in_step xi0 xi' lst' tab'.
  Proof.
    induction xis as [|y xis IH]; intros xi0 xi lst tab xi' lst' tab' H R; simpl in R.
    - inversion R; subst. auto.
    - destruct (upd false y lst tab) as [[[x1 l1] t1]|] eqn:U; [|discriminate].
      apply (IH xi0 x1 l1 t1); auto. eapply step_ok; eauto.
  Qed.

  Theorem always_current : forall xi0 lst0 tab0 x l t xis x' l' t',
    upd true xi0 lst0 tab0 = Some (x, l, t) -> run xis (x, l, t) = Some (x', l', t') ->
    forall i, i < ncols ->
    (invar i = false \/ forall k, k < npar i -> params npar x' i k = params npar x i k) ->
    holds i (params npar x' i) t'.
  Proof.
    intros xi0 lst0 tab0 x l t xis x' l' t' U R i Hi Hc.
    assert (S : in_step x x l t).
    { destruct (update_spec _ _ _ _ _ _ _ U) as (_ & _ & U3 & U4). split; [exact U3|].
      split; intros k Hk Hv; specialize (U4 k Hk); simpl in U4; destruct U4 as [U4|(D & _)]; auto; discriminate. }
    destruct (run_ok xis x x l t x' l' t' S R) as (_ & B & C).
    destruct (invar i) eqn:V.
    - destruct Hc as [Hc|Hc]; [discriminate|]. apply (holds_ext i (params npar x i)); auto.
      intros; symmetry; auto.
    - auto.
  Qed.

  (** the parameters of the last evaluation are those given, with the globals copied *)
  Theorem last_params : forall xis y st x' l' t',
    run (xis ++ [y]) st = Some (x', l', t') -> bound_to npar ncols binds global_idx y x'.
  Proof.
    induction xis as [|z xis IH]; intros y [[x l] t] x' l' t' R; simpl in R.
    - destruct (upd false y l t) as [[[x1 l1] t1]|] eqn:U; [|discriminate]. inversion R; subst.
      apply (update_spec _ _ _ _ _ _ _ U).
    - destruct (upd false z l t) as [[[x1 l1] t1]|] eqn:U; [|discriminate]. eapply IH; eauto.
  Qed.

  (** an update only fails for a zero cutoff parameter or a value that is not a number *)
  Theorem update_total : forall do_all xi lst tab,
    (forall i, i < ncols -> smooth i = true -> copy_globals binds first global_idx xi (off npar i + 1 + npar i) <> 0%R) ->
    (forall i j p, i < ncols -> j < steps -> fval i (xcoord (cell i j)) p <> None) ->
    upd do_all xi lst tab <> None.
  Proof.
    intros do_all xi lst tab H F. unfold upd, update_calc_table.
    set (x0 := copy_globals binds first global_idx xi) in *. clearbody x0.
    set (loop := for_up 0 ncols _ _).
    assert (INV : exists s, loop = Some s /\ c_off s = off npar ncols /\
       (forall i k, k < npar i -> c_xi s (off npar i + 2 + k) = x0 (off npar i + 2 + k))).
    { unfold loop. apply (for_up_inv (fun n (s : option cst) => exists s', s = Some s' /\ c_off s' = off npar n /\
       (forall i k, k < npar i -> c_xi s' (off npar i + 2 + k) = x0 (off npar i + 2 + k)))).
      - lia.
      - eexists. split; [reflexivity|]. split; auto.
      - intros n s' N (s & -> & O & X). unfold calc_col.
        set (live := (smooth n && (do_all || negb (invar n)))%bool).
        assert (HN : (live && (if Req_EM_T (if live then c_xi s (c_off s + 1 + npar n) else c_h s) 0 then true else false))%bool = false).
        { destruct live eqn:L; auto. cbn [andb]. destruct (Req_EM_T _ 0) as [E|E]; auto. exfalso.
          unfold live in L. apply andb_prop in L. destruct L as [L _]. pose proof (smooth_par n L).
          apply (H n ltac:(lia) L). rewrite O in E. rewrite <- E.
          replace (off npar n + 1 + npar n) with (off npar n + 2 + (npar n - 1)) by lia. symmetry. apply X. lia. }
        rewrite HN. rewrite O.
        assert (X' : forall i k, k < npar i -> set1 (c_xi s) (off npar n) (grad n (fun k => c_xi s (off npar n + 2 + k))) (off npar i + 2 + k) = x0 (off npar i + 2 + k)).
        { intros i k Hk. rewrite set1_neq by (apply slot_not_gap; auto). apply X; auto. }
        match goal with |- context [if ?b then match _ with _ => _ end else _] => destruct b end.
        + pose proof (fill_total n (if live then c_xi s (off npar n + 1 + npar n) else c_h s)
            (fun k => c_xi s (off npar n + 2 + k)) (c_tab s) (fun j J => F n j _ ltac:(lia) J)) as FT.
          match type of FT with ?f <> None => destruct f as [t|]; [|congruence] end.
          eexists. split; [reflexivity|]. split; [simpl; lia|]. exact X'.
        + eexists. split; [reflexivity|]. split; [simpl; lia|]. exact X'. }
    destruct INV as (s & -> & _). discriminate.
  Qed.
End Calc.
