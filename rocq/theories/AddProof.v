(** Loops that only add to the deviation vector, and the frame of a force routine around
    them: reset, add, score the forces of all atoms, score energy and stress. *)
From Coq Require Import Reals ZArith List Bool Lia Lra.
From Verif Require Import Vec NbrModel LoopUtil PairModel PairProof ForceLoop.
Import ListNotations.
Local Open Scope R_scope.

(** [f] adds the forces F, the energy E and the stress S of configuration ci. *)
Record adds (ci : nat) (f : dev -> dev) (F : nat -> vec) (E : R) (S : nat -> R) : Prop := mk_adds {
  ad_frc : forall s a, frc (f s) a = vadd (frc s a) (F a);
  ad_en : forall s d, en (f s) d = en s d + (if Nat.eqb d ci then E else 0);
  ad_str : forall s d k, str (f s) d k = str s d k + (if Nat.eqb d ci then S k else 0);
  ad_err : forall s, err (f s) = err s }.

Section Adds.
Variable ci : nat.
Lemma adds_id : adds ci (fun s => s) (fun _ => v0) 0 (fun _ => 0).
Proof. constructor; intros; auto; [vring| |]; destruct (Nat.eqb d ci); ring. Qed.
Lemma adds_comp : forall f g F E S F' E' S', adds ci f F E S -> adds ci g F' E' S' ->
  adds ci (fun s => g (f s)) (fun a => vadd (F a) (F' a)) (E + E') (fun k => S k + S' k).
Proof.
  intros f g F E S F' E' S' [A1 A2 A3 A4] [B1 B2 B3 B4]. constructor; intros.
  - rewrite B1, A1. vring.
  - rewrite B2, A2. destruct (Nat.eqb d ci); ring.
  - rewrite B3, A3. destruct (Nat.eqb d ci); ring.
  - rewrite B4, A4. auto.
Qed.
Lemma adds_ext : forall f g F E S F' E' S', adds ci f F E S -> (forall s, f s = g s) ->
  (forall a, F a = F' a) -> E = E' -> (forall k, S k = S' k) -> adds ci g F' E' S'.
Proof.
  intros f g F E S F' E' S' [A1 A2 A3 A4] EQ F1 -> S1. constructor; intros; rewrite <- EQ; rewrite <- ?F1; auto.
  rewrite <- S1. auto.
Qed.
Lemma adds_fold : forall {A} (body : dev -> A -> dev) (F : A -> nat -> vec) (E : A -> R) (S : A -> nat -> R) l,
  (forall x, In x l -> adds ci (fun s => body s x) (F x) (E x) (S x)) ->
  adds ci (fun s => fold_left body l s) (fun a => vsumf (fun x => F x a) l) (rsumf E l) (fun k => rsumf (fun x => S x k) l).
Proof.
  intros A body F E S l. induction l as [|x l IH]; intros H.
  - apply (adds_ext (fun s => s) _ (fun _ => v0) 0 (fun _ => 0)); auto using adds_id.
  - apply (adds_ext (fun s => fold_left body l (body s x)) _ (fun a => vadd (F x a) (vsumf (fun x => F x a) l)) (E x + rsumf E l)
      (fun k => S x k + rsumf (fun x => S x k) l)); auto.
    + apply (adds_comp (fun s => body s x) (fun s => fold_left body l s)); [apply H; left; auto|]. apply IH. intros y Y. apply H. right. auto.
Qed.
Lemma adds_up : forall (body : nat -> dev -> dev) (F : nat -> nat -> vec) (E : nat -> R) (S : nat -> nat -> R) lo n,
  (forall i, (lo <= i < lo + n)%nat -> adds ci (body i) (F i) (E i) (S i)) ->
  adds ci (for_up lo (lo + n) body) (fun a => vsumf (fun i => F i a) (seq lo n)) (rsumf E (seq lo n)) (fun k => rsumf (fun i => S i k) (seq lo n)).
Proof.
  intros body F E S lo n H. induction n.
  - apply (adds_ext (fun s => s) _ (fun _ => v0) 0 (fun _ => 0)); auto using adds_id.
    intros s. rewrite Nat.add_0_r. unfold for_up. rewrite Nat.sub_diag. auto.
  - apply (adds_ext (fun s => body (lo + n)%nat (for_up lo (lo + n) body s)) _ (fun a => vadd (vsumf (fun i => F i a) (seq lo n)) (F (lo + n)%nat a))
      (rsumf E (seq lo n) + E (lo + n)%nat) (fun k => rsumf (fun i => S i k) (seq lo n) + S (lo + n)%nat k)).
    + apply (adds_comp (for_up lo (lo + n) body) (body (lo + n)%nat)); [apply IHn; intros; apply H; lia|apply H; lia].
    + intros s. rewrite <- plus_n_Sm. rewrite for_up_S by lia. auto.
    + intros a. rewrite seq_S, vsumf_app, vsumf_cons. f_equal. apply vec_eq; simpl; unfold rsumf; simpl; ring.
    + rewrite seq_S, rsumf_snoc. auto.
    + intros k. rewrite seq_S, rsumf_snoc. auto.
Qed.
(** one force on one atom *)
Definition push (f : nat -> vec) (i : nat) (v : vec) : nat -> vec := setf f i (vadd (f i) v).
Lemma push_spec : forall f i v a, push f i v a = vadd (f a) (if Nat.eqb a i then v else v0).
Proof. intros f i v a. unfold push, setf. destruct (Nat.eqb_spec a i) as [->|]; [auto|vring]. Qed.
End Adds.

(** ** Scoring of the forces after all of them are known *)
Section Score.
Variables (bld : build) (c : conf).
Notation lo := (cnfstart c).
Notation hi := (cnfstart c + inconf c)%nat.
Lemma score_loop : forall s, let s' := for_up lo hi (score_atom bld c) s in
  (forall a, frc s' a = if (Nat.leb lo a && Nat.ltb a hi && uf c)%bool then scl bld c a (frc s a) else frc s a) /\
  en s' = en s /\ str s' = str s /\
  err s' = err s + rsumf (fun a => if scored bld c a then conf_weight c * sqv (frc s' a) else 0) (seq lo (inconf c)).
Proof.
  intros s. cbv zeta.
  pose (g := fun a => if scored bld c a then conf_weight c * sqv (if uf c then scl bld c a (frc s a) else frc s a) else 0).
  pose (Q := fun i s' => (forall a, frc s' a = if (Nat.leb lo a && Nat.ltb a i && uf c)%bool then scl bld c a (frc s a) else frc s a) /\
    en s' = en s /\ str s' = str s /\ err s' = err s + rsumf g (seq lo (i - lo))).
  assert (H : Q hi (for_up lo hi (score_atom bld c) s)).
  { apply (for_up_inv Q); [lia| |].
    - split; [|split; [auto|split; [auto|]]].
      + intros a. destruct (Nat.leb_spec lo a), (Nat.ltb_spec a lo); simpl; auto. lia.
      + rewrite Nat.sub_diag. unfold rsumf; simpl. ring.
    - intros i t Hi (A & B & C & D).
      assert (TI : frc t i = frc s i).
      { rewrite A. rewrite Nat.ltb_irrefl, andb_false_r. auto. }
      assert (FR : forall a, frc (score_atom bld c i t) a = if (Nat.eqb a i && uf c)%bool then scl bld c i (frc s i) else frc t a).
      { intros a. unfold score_atom, scl. destruct (uf c); [|rewrite andb_false_r; auto]. rewrite andb_true_r. cbn [frc].
        destruct (FWEIGHT bld); unfold setf; destruct (Nat.eqb_spec a i) as [->|]; auto; rewrite TI; auto. }
      assert (ER : err (score_atom bld c i t) = err t + g i).
      { unfold g, scored, score_atom, scl. destruct (uf c); cbn [andb err]; [|ring].
        destruct (negb (CONTRIB bld) || contrib c i)%bool; [|ring]. destruct (FWEIGHT bld); rewrite ?setf_eq, ?TI; ring. }
      split; [|split; [|split]].
      + intros a. rewrite FR, A. destruct (uf c); rewrite ?andb_false_r, ?andb_true_r; auto.
        destruct (Nat.eqb_spec a i) as [AI|N].
        * rewrite AI. destruct (Nat.leb_spec lo i), (Nat.ltb_spec i (S i)); simpl; auto; lia.
        * destruct (Nat.leb_spec lo a), (Nat.ltb_spec a i), (Nat.ltb_spec a (S i)); simpl; auto; lia.
      + unfold score_atom. destruct (uf c); auto.
      + unfold score_atom. destruct (uf c); auto.
      + rewrite seq_snoc by lia. rewrite rsumf_snoc, ER, D. ring. }
  destruct H as (A & B & C & D). split; [auto|]. split; [auto|]. split; [auto|]. rewrite D. replace (hi - lo)%nat with (inconf c) by lia.
  f_equal. apply rsumf_ext. intros a Ha. apply in_seq in Ha. rewrite A. destruct (Nat.leb_spec lo a), (Nat.ltb_spec a hi); try lia. auto.
Qed.
End Score.

(** ** All configurations, for a routine that treats them one after the other *)
Section Confs.
Variables (body : nat -> dev -> dev) (cs : nat -> conf) (nconf : nat).
Hypothesis CONT : forall ci, cnfstart (cs (S ci)) = (cnfstart (cs ci) + inconf (cs ci))%nat.
Variable FF : nat -> nat -> vec.
Variable EE : nat -> R.
Variable SS : nat -> nat -> R.
Variable XX : nat -> R.
Variable son : bool.
Hypothesis BODY : forall ci s, (ci < nconf)%nat ->
  (forall a, (a < cnfstart (cs ci))%nat \/ (cnfstart (cs ci) + inconf (cs ci) <= a)%nat -> frc (body ci s) a = frc s a) /\
  (forall a, (cnfstart (cs ci) <= a < cnfstart (cs ci) + inconf (cs ci))%nat -> frc (body ci s) a = FF ci a) /\
  en (body ci s) ci = EE ci /\ (forall d, d <> ci -> en (body ci s) d = en s d) /\
  (forall k, (k < 6)%nat -> son = true -> str (body ci s) ci k = SS ci k) /\
  (forall d k, d <> ci -> str (body ci s) d k = str s d k) /\
  err (body ci s) = err s + XX ci.
Lemma starts' : forall ci cj, (ci < cj)%nat -> (cnfstart (cs ci) + inconf (cs ci) <= cnfstart (cs cj))%nat.
Proof. intros ci cj H. induction H; rewrite CONT; lia. Qed.
Theorem all_confs : forall s, let s' := for_up 0 nconf body s in
  (forall ci a, (ci < nconf)%nat -> (cnfstart (cs ci) <= a < cnfstart (cs ci) + inconf (cs ci))%nat -> frc s' a = FF ci a) /\
  (forall ci, (ci < nconf)%nat -> en s' ci = EE ci) /\
  (forall ci k, (ci < nconf)%nat -> (k < 6)%nat -> son = true -> str s' ci k = SS ci k) /\
  err s' = err s + rsumf XX (seq 0 nconf).
Proof.
  intros s. cbv zeta.
  pose (Q := fun n s' => 
    (forall ci a, (ci < n)%nat -> (cnfstart (cs ci) <= a < cnfstart (cs ci) + inconf (cs ci))%nat -> frc s' a = FF ci a) /\
    (forall ci, (ci < n)%nat -> en s' ci = EE ci) /\
    (forall ci k, (ci < n)%nat -> (k < 6)%nat -> son = true -> str s' ci k = SS ci k) /\
    err s' = err s + rsumf XX (seq 0 n)).
  change (Q nconf (for_up 0 nconf body s)). apply (for_up_inv Q); [lia| |].
  - split; [intros; lia|]. split; [intros; lia|]. split; [intros; lia|]. unfold rsumf; simpl. ring.
  - intros n t Hn (A & B & C & D). destruct (BODY n t ltac:(lia)) as (F1 & F2 & E1 & E2 & S1 & S2 & R).
    split; [|split; [|split]].
    + intros ci a H Ha. destruct (Nat.eq_dec ci n) as [->|N]; [apply F2; auto|]. rewrite F1; [apply A; auto; lia|]. left. pose proof (starts' ci n ltac:(lia)). lia.
    + intros ci H. destruct (Nat.eq_dec ci n) as [->|N]; [auto|]. rewrite E2 by auto. apply B. lia.
    + intros ci k H K ON. destruct (Nat.eq_dec ci n) as [->|N]; [auto|]. rewrite S2 by auto. apply C; auto; lia.
    + rewrite seq_S, rsumf_snoc, R, D. simpl (0 + n)%nat. ring.
Qed.
End Confs.
