From Coq Require Import ZArith List Lia Bool.
From Verif Require Import MemoryModel.
Import ListNotations.
Open Scope Z_scope.

Lemma memb_In : forall p l, memb p l = true <-> In p l.
Proof.
  intros p l. unfold memb. rewrite existsb_exists. split.
  - intros (x & H & E). apply Z.eqb_eq in E. subst x; exact H.
  - intros H. exists p. split; [exact H|apply Z.eqb_refl].
Qed.

Lemma In_del : forall p q l, In q (del p l) <-> In q l /\ q <> p.
Proof.
  intros p q l. unfold del. rewrite filter_In, negb_true_iff, Z.eqb_neq.
  split; intros [A B]; split; auto.
Qed.

Lemma NoDup_del : forall p l, NoDup l -> NoDup (del p l).
Proof. intros p l H. apply NoDup_filter. exact H. Qed.

(** ** contract of the C library and of the callers *)

(** an answer of malloc: NULL or a block that is not in use *)
Definition fresh (r : addr) (l : list addr) : Prop := r = 0 \/ ~ In r l.

(** [own]: foreign blocks *)
Definition sys_ok (q : request) (m : mem) : Prop :=
  match q with
  | RMalloc _ r1 r2 => fresh r1 (live m) /\ (r2 = reg m \/ fresh r2 (r1 :: live m))
  | RRealloc p _ r1 r2 =>
      if p =? 0 then fresh r1 (live m) /\ (r2 = reg m \/ fresh r2 (r1 :: live m))
      else r1 = p \/ fresh r1 (live m)
  | RSysMalloc r => fresh r (live m)
  | RSysFree _ => True
  end.

(** callers pass only NULL or blocks of this allocator to Realloc, and other code frees
    only its own blocks *)
Definition client_ok (q : request) (m : mem) : Prop :=
  match q with
  | RRealloc p _ _ _ => p = 0 \/ In p (ptrs m)
  | RSysFree p => p = 0 \/ (In p (live m) /\ ~ In p (ptrs m) /\ p <> reg m)
  | _ => True
  end.

(** the enlargement of the registry never fails *)
Definition reg_ok (q : request) (m : mem) : Prop :=
  match q with
  | RMalloc _ _ r2 => r2 <> 0
  | RRealloc p _ _ r2 => p = 0 -> r2 <> 0
  | _ => True
  end.

Fixpoint good (qs : list request) (m : mem) : Prop :=
  match qs with
  | [] => True
  | q :: qs' => sys_ok q m /\ client_ok q m /\ reg_ok q m /\
      match step q m with Returns _ m' => good qs' m' | _ => True end
  end.

(** ** invariant *)
Record inv (m : mem) : Prop := {
  inv_nodup : NoDup (live m);
  inv_nz : ~ In 0 (live m);
  inv_ptrs_nd : NoDup (ptrs m);
  inv_ptrs : forall p, In p (ptrs m) -> In p (live m) /\ p <> reg m;
  inv_reg : reg m <> 0 -> In (reg m) (live m);
  inv_reg0 : reg m = 0 -> ptrs m = []
}.

(** blocks owned by other code *)
Definition foreign (m : mem) (p : addr) : Prop :=
  In p (live m) /\ ~ In p (ptrs m) /\ p <> reg m.

Lemma init_inv : forall l, NoDup l -> ~ In 0 l -> inv (init_mem l).
Proof. intros l H H0. constructor; cbn; auto; try constructor; try congruence. all: contradiction. Qed.

Lemma free_all_ok : forall ps l, NoDup ps -> ~ In 0 ps -> NoDup l -> (forall p, In p ps -> In p l) ->
  exists l', free_all ps l = Some l' /\ NoDup l' /\ forall q, In q l' <-> In q l /\ ~ In q ps.
Proof.
  induction ps as [|p ps IH]; intros l ND N0 NL Hin.
  - exists l. cbn. split; [reflexivity|]. split; [exact NL|]. tauto.
  - cbn. unfold sys_free.
    destruct (Z.eqb_spec p 0) as [E|E]; [exfalso; apply N0; left; exact E|].
    rewrite (proj2 (memb_In p l) (Hin p (or_introl eq_refl))).
    inversion ND as [|? ? Hp ND']; subst.
    destruct (IH (del p l)) as (l' & F & ND2 & H).
    + exact ND'.
    + intros X; apply N0; right; exact X.
    + apply NoDup_del; exact NL.
    + intros q Hq. apply In_del. split; [apply Hin; right; exact Hq|]. intros ->. contradiction.
    + exists l'. split; [exact F|]. split; [exact ND2|].
      intros q. rewrite H, In_del. cbn. split; [intros [[A B] C]; split; [exact A|intros [D|D]; [congruence|contradiction]]|].
      intros [A B]. split; [split; [exact A|]|]; intros X; apply B; auto.
Qed.

Lemma cleanup_ok : forall m, inv m ->
  exists l, free_allocated_memory m = Some l /\ NoDup l /\ forall p, In p l <-> foreign m p.
Proof.
  intros m I. unfold free_allocated_memory, foreign.
  destruct (ptrs m) as [|p0 ps0] eqn:Ep.
  - unfold sys_free. destruct (Z.eqb_spec (reg m) 0) as [E|E].
    + exists (live m). split; [reflexivity|]. split; [apply I|]. intros p. cbn. split; [|tauto].
      intros H. split; [exact H|]. split; [tauto|]. intros ->. rewrite E in H. apply (inv_nz m I). exact H.
    + rewrite (proj2 (memb_In _ _) (inv_reg m I E)). exists (del (reg m) (live m)).
      split; [reflexivity|]. split; [apply NoDup_del, I|]. intros p. rewrite In_del. cbn. tauto.
  - destruct (Z.eqb_spec (reg m) 0) as [E|E].
    { exfalso. pose proof (inv_reg0 m I E). congruence. }
    rewrite <- Ep.
    destruct (free_all_ok (ptrs m) (live m)) as (l' & F & ND & H).
    + apply I.
    + intros X. apply (inv_nz m I). apply (inv_ptrs m I). exact X.
    + apply I.
    + intros p Hp. apply (inv_ptrs m I). exact Hp.
    + rewrite F. unfold sys_free. destruct (Z.eqb_spec (reg m) 0); [contradiction|].
      rewrite (proj2 (memb_In (reg m) l')).
      * exists (del (reg m) l'). split; [reflexivity|]. split; [apply NoDup_del; exact ND|].
        intros p. rewrite In_del, H. tauto.
      * apply H. split; [apply (inv_reg m I); exact E|]. intros X. apply (inv_ptrs m I) in X. tauto.
Qed.

Lemma malloc_step : forall s r1 r2 m, inv m -> fresh r1 (live m) ->
  (r2 = reg m \/ fresh r2 (r1 :: live m)) -> r2 <> 0 -> s <> 0 -> r1 <> 0 ->
  exists m', Malloc s r1 r2 m = Returns r1 m' /\ inv m' /\ ptrs m' = ptrs m ++ [r1] /\
    forall p, foreign m' p <-> foreign m p.
Proof.
  intros s r1 r2 m I F1 F2 N2 Ns N1. unfold Malloc.
  destruct (Z.eqb_spec s 0); [contradiction|]. destruct (Z.eqb_spec r1 0); [contradiction|].
  destruct F1 as [F1|F1]; [contradiction|].
  assert (Hreg : sys_realloc (reg m) r2 (r1 :: live m) =
    Some (r2 :: del (reg m) (r1 :: live m)) \/ (reg m = 0 /\ sys_realloc (reg m) r2 (r1 :: live m) = Some (r2 :: r1 :: live m))).
  { unfold sys_realloc. destruct (Z.eqb_spec (reg m) 0) as [E|E].
    - right. split; [exact E|]. destruct (Z.eqb_spec r2 0); [contradiction|reflexivity].
    - left. rewrite (proj2 (memb_In _ _)) by (right; apply (inv_reg m I); exact E).
      destruct (Z.eqb_spec r2 0); [contradiction|reflexivity]. }
  assert (HL : exists l2, sys_realloc (reg m) r2 (r1 :: live m) = Some l2 /\ NoDup l2 /\
     forall p, In p l2 <-> p = r2 \/ ((p = r1 \/ In p (live m)) /\ p <> reg m)).
  { destruct Hreg as [E|[E0 E]]; rewrite E; eexists; (split; [reflexivity|]).
    - split.
      + constructor.
        * rewrite In_del. intros [A B]. destruct F2 as [F2|[F2|F2]]; [congruence|contradiction|contradiction].
        * apply NoDup_del. constructor; [exact F1|apply I].
      + intros p. cbn [In]. rewrite In_del. cbn. intuition congruence.
    - split.
      + constructor.
        * destruct F2 as [F2|[F2|F2]]; [congruence|contradiction|exact F2].
        * constructor; [exact F1|apply I].
      + intros p. cbn. rewrite E0. split; [intros [H|[H|H]]|intros [H|[[H|H] H2]]]; auto.
        * right. split; [left; congruence|]. intros ->. congruence.
        * right. split; [right; exact H|]. intros ->. apply (inv_nz m I). exact H. }
  destruct HL as (l2 & E & ND & HL). rewrite E.
  destruct (Z.eqb_spec r2 0); [contradiction|].
  assert (R1 : r1 <> reg m).
  { intros X. destruct (Z.eq_dec (reg m) 0) as [Y|Y]; [congruence|]. apply F1. rewrite X. apply (inv_reg m I). exact Y. }
  assert (R12 : r1 <> r2).
  { destruct F2 as [F2|[F2|F2]]; [congruence|contradiction|]. intros X. apply F2. left. congruence. }
  eexists. split; [reflexivity|]. split; [|split; [reflexivity|]].
  - constructor; cbn [live reg ptrs].
    + exact ND.
    + rewrite HL. intros [X|[[X|X] _]]; [congruence|congruence|]. apply (inv_nz m I). exact X.
    +
      assert (~ In r1 (ptrs m)) by (intros X; apply F1; apply (inv_ptrs m I); exact X).
      pose proof (inv_ptrs_nd m I) as NP. revert NP H. generalize (ptrs m).
      induction l as [|a l IH]; cbn; intros NP NI; [constructor; [tauto|constructor]|].
      inversion NP; subst. constructor; [|apply IH; tauto].
      rewrite in_app_iff. cbn. intuition.
    + intros p Hp. apply in_app_iff in Hp. cbn in Hp. rewrite HL.
      destruct Hp as [Hp|[<-|[]]].
      * destruct (inv_ptrs m I p Hp) as [A B]. split; [tauto|].
        destruct F2 as [F2|[F2|F2]]; [congruence|contradiction|]. intros ->. apply F2. right. exact A.
      * split; [tauto|exact R12].
    + intros _. rewrite HL. left. reflexivity.
    + contradiction.
  - intros p. unfold foreign. cbn [live reg ptrs]. rewrite HL, in_app_iff. cbn.
    split.
    + intros [[A|[[A|A] B]] [C D]]; [contradiction|exfalso; apply C; right; left; congruence|].
      split; [exact A|]. split; [intros X; apply C; left; exact X|exact B].
    + intros [A [B C]]. split; [right; tauto|]. split.
      * intros [X|[X|[]]]; [contradiction|]. subst. contradiction.
      * destruct F2 as [F2|[F2|F2]]; [congruence|contradiction|]. intros ->. apply F2. right. exact A.
Qed.

Lemma stop_ok : forall m, inv m -> exists l, stop m = Stopped l /\ NoDup l /\ forall p, In p l <-> foreign m p.
Proof.
  intros m I. unfold stop. destruct (cleanup_ok m I) as (l & E & H). rewrite E. exists l. split; [reflexivity|exact H].
Qed.

(** blocks other code obtained minus the ones it gave back *)
Fixpoint others (qs : list request) (l : list addr) (m : mem) : addr -> Prop :=
  fun p => match qs with
  | [] => In p l
  | q :: qs' =>
      match step q m with
      | Returns _ m' => others qs' (match q with
                               | RSysMalloc r => if r =? 0 then l else r :: l
                               | RSysFree a => del a l
                               | _ => l end) m' p
      | _ => In p l
      end
  end.

Lemma step_ok : forall q m, inv m -> sys_ok q m -> client_ok q m -> reg_ok q m ->
  (exists r m', step q m = Returns r m' /\ inv m' /\
     forall p, foreign m' p <-> match q with
        | RSysMalloc r => foreign m p \/ (r <> 0 /\ p = r)
        | RSysFree a => foreign m p /\ p <> a
        | _ => foreign m p end)
  \/ (exists l, step q m = Stopped l /\ NoDup l /\ (forall p, In p l <-> foreign m p)).
Proof.
  intros q m I S C R. destruct q as [s r1 r2|p s r1 r2|r|a]; cbn [step sys_ok client_ok reg_ok] in *.
  - destruct (Z.eq_dec s 0) as [E|E].
    { right. unfold Malloc. rewrite E. cbn. apply stop_ok; exact I. }
    destruct (Z.eq_dec r1 0) as [E1|E1].
    { right. unfold Malloc. destruct (Z.eqb_spec s 0); [contradiction|]. rewrite E1. cbn. apply stop_ok; exact I. }
    destruct S as [S1 S2].
    destruct (malloc_step s r1 r2 m I S1 S2 R E E1) as (m' & A & B & _ & D).
    left. exists r1, m'. auto.
  - unfold Realloc. destruct (Z.eqb_spec s 0) as [E|E]; [right; apply stop_ok; exact I|].
    destruct (Z.eqb_spec p 0) as [E0|E0].
    + destruct S as [S1 S2]. destruct (Z.eq_dec r1 0) as [E1|E1].
      { right. unfold Malloc. destruct (Z.eqb_spec s 0); [contradiction|]. rewrite E1. cbn. apply stop_ok; exact I. }
      destruct (malloc_step s r1 r2 m I S1 S2 (R E0) E E1) as (m' & A & B & _ & D).
      left. exists r1, m'. auto.
    + destruct C as [C|C]; [contradiction|].
      destruct (inv_ptrs m I p C) as [PL PR].
      unfold sys_realloc. destruct (Z.eqb_spec p 0); [contradiction|].
      rewrite (proj2 (memb_In p (live m)) PL).
      destruct (Z.eqb_spec r1 0) as [E1|E1].
      { right. destruct m as [lv rg ps]. exact (stop_ok _ I). }
      left. eexists. eexists. split; [reflexivity|].
      assert (NF : r1 = p \/ ~ In r1 (live m)) by (destruct S as [S|[S|S]]; [left|contradiction|right]; assumption).
      assert (NR : r1 <> reg m).
      { destruct NF as [NF|NF]; [congruence|]. intros X.
        destruct (Z.eq_dec (reg m) 0) as [Y|Y]; [congruence|]. apply NF. rewrite X. apply (inv_reg m I). exact Y. }
      assert (MI : forall q, In q (map (fun q => if p =? q then r1 else q) (ptrs m)) <->
                      q = r1 \/ (In q (ptrs m) /\ q <> p)).
      { intros q. rewrite in_map_iff. split.
        - intros (x & Hx & Hin). destruct (Z.eqb_spec p x); [left; congruence|right]. subst x. split; [exact Hin|congruence].
        - intros [->|[Hin Hn]]; [exists p; rewrite Z.eqb_refl; auto|].
          exists q. destruct (Z.eqb_spec p q); [congruence|]. auto. }
      split.
      * constructor; cbn [live reg ptrs].
        -- constructor; [|apply NoDup_del, I]. rewrite In_del. intros [A B].
           destruct NF; contradiction.
        -- intros [X|X]; [congruence|]. apply In_del in X. apply (inv_nz m I). tauto.
        -- pose proof (inv_ptrs_nd m I) as NP.
           assert (NQ : r1 = p \/ ~ In r1 (ptrs m)).
           { destruct NF as [NF|NF]; [left; exact NF|right]. intros X. apply NF, (inv_ptrs m I), X. }
           clear - NP NQ. revert NQ. induction NP as [|a l Ha NP IH]; intros NQ; cbn; [constructor|].
           assert (NQ' : r1 = p \/ ~ In r1 l) by (cbn in NQ; tauto).
           constructor; [|apply IH; exact NQ'].
           rewrite in_map_iff. intros (x & Hx & Hin).
           destruct (Z.eqb_spec p a) as [Ea|Ea]; destruct (Z.eqb_spec p x) as [Ex|Ex]; subst; cbn in *; try contradiction; intuition.
           
        -- intros q Hq. apply MI in Hq. cbn [In]. rewrite In_del. destruct Hq as [->|[Hq Hn]].
           ++ split; [left; reflexivity|exact NR].
           ++ destruct (inv_ptrs m I q Hq). split; [right; split; assumption|assumption].
        -- intros N. right. apply In_del. split; [apply (inv_reg m I); exact N|congruence].
        -- intros N. rewrite (inv_reg0 m I N) in C. contradiction.
      * intros q. unfold foreign. cbn [live reg ptrs]. rewrite MI. cbn [In]. rewrite In_del.
        split.
        -- intros [[A|[A B]] [D F]]; [exfalso; apply D; left; congruence|].
           split; [exact A|]. split; [intros X; apply D; right; split; assumption|exact F].
        -- intros [A [B D]]. split; [right; split; [exact A|intros ->; contradiction]|]. split; [|exact D].
           intros [X|[X Y]]; [|contradiction]. subst q. destruct NF as [NF|NF]; [subst; contradiction|contradiction].
  - left. eexists. eexists. split; [reflexivity|]. destruct (Z.eqb_spec r 0) as [E|E].
    + split; [destruct m; exact I|]. intros p. unfold foreign; cbn. intuition congruence.
    + destruct S as [S|S]; [contradiction|].
      assert (NR : r <> reg m).
      { intros X. destruct (Z.eq_dec (reg m) 0) as [Y|Y]; [congruence|]. apply S. rewrite X. apply (inv_reg m I). exact Y. }
      assert (NP : ~ In r (ptrs m)) by (intros X; apply S, (inv_ptrs m I), X).
      split.
      * constructor; cbn [live reg ptrs].
        -- constructor; [exact S|apply I].
        -- intros [X|X]; [congruence|apply (inv_nz m I), X].
        -- apply I.
        -- intros p Hp. destruct (inv_ptrs m I p Hp). split; [right; assumption|assumption].
        -- intros N. right. apply (inv_reg m I). exact N.
        -- apply I.
      * intros p. unfold foreign. cbn [live reg ptrs In]. split.
        -- intros [[A|A] B]; [right; split; [exact E|congruence]|left; tauto].
        -- intros [A|[_ ->]]; [tauto|]. tauto.
  - left. unfold sys_free. destruct C as [C|(C1 & C2 & C3)].
    + rewrite C. cbn. eexists. eexists. split; [reflexivity|]. split; [destruct m; exact I|].
      intros p. unfold foreign; cbn. split; [|tauto]. intros H. split; [exact H|]. intros ->.
      apply (inv_nz m I). tauto.
    + destruct (Z.eqb_spec a 0) as [E|E]; [subst; exfalso; apply (inv_nz m I C1)|].
      rewrite (proj2 (memb_In _ _) C1). eexists. eexists. split; [reflexivity|]. split.
      * constructor; cbn [live reg ptrs].
        -- apply NoDup_del, I.
        -- rewrite In_del. intros [X _]. apply (inv_nz m I X).
        -- apply I.
        -- intros p Hp. destruct (inv_ptrs m I p Hp). rewrite In_del. split; [split; [assumption|congruence]|assumption].
        -- intros N. apply In_del. split; [apply (inv_reg m I); exact N|congruence].
        -- apply I.
      * intros p. unfold foreign. cbn [live reg ptrs]. rewrite In_del. tauto.
Qed.

Lemma run_ok : forall qs m l, inv m -> (forall p, foreign m p <-> In p l) -> good qs m ->
  exists left, run qs m = Stopped left /\ NoDup left /\ forall p, In p left <-> others qs l m p.
Proof.
  induction qs as [|q qs IH]; intros m l I F G; cbn [run others].
  - destruct (stop_ok m I) as (l' & E & ND & H). exists l'. split; [exact E|]. split; [exact ND|].
    intros p. rewrite H. apply F.
  - cbn [good] in G. destruct G as (S & C & R & G).
    destruct (step_ok q m I S C R) as [(r & m' & E & I' & F')|(l' & E & ND & H)].
    + rewrite E in *. apply IH; [exact I'| |exact G].
      intros p. rewrite F'. destruct q; try apply F.
      * destruct (Z.eqb_spec r0 0) as [E0|E0]; cbn [In]; rewrite <- F; intuition congruence.
      * rewrite In_del, <- F. tauto.
    + rewrite E. exists l'. split; [reflexivity|]. split; [exact ND|]. intros p. rewrite H. apply F.
Qed.

Lemma run_ok_init : forall qs l, NoDup l -> ~ In 0 l -> good qs (init_mem l) ->
  exists left, run qs (init_mem l) = Stopped left /\ NoDup left /\
    forall p, In p left <-> others qs l (init_mem l) p.
Proof.
  intros qs l ND N0 G. apply run_ok; [apply init_inv; assumption| |exact G].
  intros p. unfold foreign. cbn. split; [tauto|]. intros H. split; [exact H|]. split; [tauto|].
  intros ->. contradiction.
Qed.

Lemma others_none : forall qs l m p,
  (forall q, In q qs -> match q with RSysMalloc _ | RSysFree _ => False | _ => True end) ->
  others qs l m p <-> In p l.
Proof.
  induction qs as [|q qs IH]; intros l m p H; cbn [others]; [tauto|].
  destruct (step q m); try tauto.
  pose proof (H q (or_introl eq_refl)) as Hq.
  destruct q; try contradiction; apply IH; intros x Hx; apply H; right; exact Hx.
Qed.

Lemma run_no_leak : forall qs l, NoDup l -> ~ In 0 l -> good qs (init_mem l) ->
  (forall q, In q qs -> match q with RSysMalloc _ | RSysFree _ => False | _ => True end) ->
  exists left, run qs (init_mem l) = Stopped left /\ NoDup left /\ forall p, In p left <-> In p l.
Proof.
  intros qs l ND N0 G H. destruct (run_ok_init qs l ND N0 G) as (left & E & N & P).
  exists left. split; [exact E|]. split; [exact N|]. intros p. rewrite P. apply others_none. exact H.
Qed.

Lemma registry_failure : exists qs,
  (forall q, In q qs -> match q with
     | RMalloc s r1 r2 => s <> 0 /\ r1 <> 0 | _ => False end) /\
  run qs (init_mem []) = Undefined.
Proof.
  exists [RMalloc 8 100 200; RMalloc 8 300 0]. split; [|reflexivity].
  intros q [<-|[<-|[]]]; split; discriminate.
Qed.
