(** Proofs for C165. *)
From Coq Require Import Reals List Arith Bool Lia Lra.
From Verif Require Import AnnealModel AnnealSpec.
Import ListNotations.
Local Open Scope R_scope.

Lemma set_same : forall i r v, set i r v i = r.
Proof. intros. unfold set. rewrite Nat.eqb_refl. reflexivity. Qed.
Lemma set_other : forall i r v j, j <> i -> set i r v j = v j.
Proof. intros i r v j H. unfold set. apply Nat.eqb_neq in H. rewrite H. reflexivity. Qed.
Lemma fold_set_in : forall f l x j, In j l -> fold_left (fun x j => set j (f j) x) l x j = f j.
Proof.
  intros f. induction l as [|a l IH]; intros x j H; [contradiction|]. cbn [fold_left].
  destruct (in_dec Nat.eq_dec j l) as [I|N]; [apply IH; exact I|]. destruct H as [<-|H]; [|contradiction].
  clear IH. assert (E : forall y, fold_left (fun x j => set j (f j) x) l y a = y a).
  { clear x. induction l as [|b l IH]; intros y; [reflexivity|]. cbn [fold_left]. rewrite IH; [|intro I; apply N; right; exact I].
    apply set_other. intro X. apply N. left. auto. }
  rewrite E. apply set_same.
Qed.
Lemma fold_set_out : forall f l x j, ~ In j l -> fold_left (fun x j => set j (f j) x) l x j = x j.
Proof.
  intros f. induction l as [|b l IH]; intros x j N; [reflexivity|]. cbn [fold_left]. rewrite IH; [|intro I; apply N; right; exact I].
  apply set_other. intro X. apply N. left. auto.
Qed.

Section P.
Variables paircol ntypes : nat.
Variables first last : nat -> nat.
Notation lo := (paircol + ntypes)%nat.
Notation col k := (paircol + ntypes + k)%nat.
Notation elements := (elements first last).
Notation store := (store_pot_data paircol ntypes first last).
Notation restore := (restore_pot_data paircol ntypes first last).
Notation point := (embedding_point paircol ntypes first last).
Notation emb := (embedding paircol ntypes).

Definition points (n : nat) : list nat := flat_map (fun k => elements (lo + k)) (seq 0 n).
Lemma in_points : forall j, In j (points ntypes) <-> point j.
Proof.
  intros j. unfold points, embedding_point, embedding. rewrite in_flat_map. unfold AnnealModel.elements. split.
  - intros (k & K & H). apply in_seq in K, H. exists (lo + k)%nat. lia.
  - intros (i & I & H). exists (i - lo)%nat. rewrite !in_seq. replace (lo + (i - lo))%nat with i by lia. lia.
Qed.
Lemma points_S : forall n, points (S n) = points n ++ elements (lo + n).
Proof. intros n. unfold points. rewrite seq_S, flat_map_app. cbn [flat_map plus]. rewrite app_nil_r. reflexivity. Qed.

Lemma store_col : forall g d n, let s := fold_left (store_column paircol ntypes first last g) (seq 0 n) d in
  (forall k, (k < n)%nat -> g_begin s k = g_begin g (col k) /\ g_end s k = g_end g (col k) /\ g_step s k = g_step g (col k) /\ g_invstep s k = g_invstep g (col k)) /\
  (forall j, In j (points n) -> g_x s j = g_x g j).
Proof.
  intros g d. induction n as [|n (A & B)]; cbv zeta; [split; [intros; lia|intros j []]|].
  rewrite seq_S, fold_left_app. cbn [fold_left plus]. set (s := fold_left _ (seq 0 n) d) in *. split.
  - intros k K. cbn [store_column g_begin g_end g_step g_invstep]. destruct (Nat.eq_dec k n) as [->|N]; [rewrite !set_same; auto|].
    rewrite !set_other by exact N. apply A. lia.
  - intros j J. cbn [store_column g_x]. destruct (in_dec Nat.eq_dec j (elements (lo + n))) as [I|N]; [apply fold_set_in with (f := g_x g); exact I|].
    rewrite fold_set_out with (f := g_x g) by exact N. rewrite points_S in J. apply in_app_or in J. destruct J as [J|J]; [apply B; exact J|contradiction].
Qed.
Lemma restore_col : forall d g n, let s := fold_left (restore_column paircol ntypes first last d) (seq 0 n) g in
  (forall k, (k < n)%nat -> g_begin s (col k) = g_begin d k /\ g_end s (col k) = g_end d k /\ g_step s (col k) = g_step d k /\ g_invstep s (col k) = g_invstep d k) /\
  (forall i, (i < lo \/ lo + n <= i)%nat -> g_begin s i = g_begin g i /\ g_end s i = g_end g i /\ g_step s i = g_step g i /\ g_invstep s i = g_invstep g i) /\
  (forall j, In j (points n) -> g_x s j = g_x d j) /\ (forall j, ~ In j (points n) -> g_x s j = g_x g j).
Proof.
  intros d g. induction n as [|n (A & A' & B & B')]; cbv zeta; [split; [intros; lia|]; split; [intros; auto|]; split; [intros j []|reflexivity]|].
  rewrite seq_S, fold_left_app. cbn [fold_left plus]. set (s := fold_left _ (seq 0 n) g) in *. split; [|split; [|split]].
  - intros k K. cbn [restore_column g_begin g_end g_step g_invstep]. destruct (Nat.eq_dec k n) as [->|N]; [rewrite !set_same; auto|].
    rewrite !set_other by lia. apply A. lia.
  - intros i I. cbn [restore_column g_begin g_end g_step g_invstep]. rewrite !set_other by lia. apply A'. lia.
  - intros j J. cbn [restore_column g_x]. destruct (in_dec Nat.eq_dec j (elements (lo + n))) as [I|N]; [apply fold_set_in with (f := g_x d); exact I|].
    rewrite fold_set_out with (f := g_x d) by exact N. rewrite points_S in J. apply in_app_or in J. destruct J as [J|J]; [apply B; exact J|contradiction].
  - intros j J. cbn [restore_column g_x]. rewrite points_S in J. rewrite fold_set_out with (f := g_x d); [apply B'|]; intro I; apply J; apply in_or_app; auto.
Qed.

Lemma roundtrip : forall g d h, agree emb point (restore (store g d) h) g /\
  agree (fun i => ~ emb i) (fun j => ~ point j) (restore (store g d) h) h.
Proof.
  intros g d h. destruct (store_col g d ntypes) as (A & B). destruct (restore_col (store g d) h ntypes) as (C & C' & E & E').
  fold (store g d) in A, B. fold (restore (store g d) h) in C, C', E, E'. split; split.
  - intros i I. unfold embedding in I. replace i with (lo + (i - lo))%nat by lia. destruct (C (i - lo)%nat ltac:(lia)) as (-> & -> & -> & ->). apply A. lia.
  - intros j J. apply in_points in J. rewrite (E j J). apply B. exact J.
  - intros i I. apply C'. unfold embedding in I. lia.
  - intros j J. apply E'. intro X. apply J, in_points, X.
Qed.

Lemma agree_all : forall g h, agree emb point g h -> agree (fun i => ~ emb i) (fun j => ~ point j) g h -> agree (fun _ => True) (fun _ => True) g h.
Proof.
  intros g h (A & B) (A' & B'). split.
  - intros i _. assert (D : emb i \/ ~ emb i) by (unfold embedding; lia). destruct D; auto.
  - intros j _. destruct (in_dec Nat.eq_dec j (points ntypes)) as [I|N]; [apply B, in_points, I|]. apply B'. intro X. apply N, in_points, X.
Qed.
Lemma agree_refl : forall P Q g, agree P Q g g.
Proof. intros. split; auto. Qed.
Lemma agree_sym : forall P Q g h, agree P Q g h -> agree P Q h g.
Proof. intros P Q g h (A & B). split; [intros i I; destruct (A i I) as (a & b & c & d); auto|intros j J; symmetry; auto]. Qed.
Lemma agree_trans : forall P Q g h k, agree P Q g h -> agree P Q h k -> agree P Q g k.
Proof.
  intros P Q g h k (A & B) (A' & B'). split; [|intros j J; rewrite (B j J); auto].
  intros i I. destruct (A i I) as (-> & -> & -> & ->). apply A'. exact I.
Qed.

Variable cost : grid -> vec -> R.
Notation others := (agree (fun i => ~ emb i) (fun j => ~ point j)).

(** stored tables belong to the stored parameters *)
Definition inv (g0 : grid) (s : state) : Prop :=
  (exists g d, s_data s = store g d /\ cost g (s_opt s) = s_Fopt s /\ others g g0) /\ others (s_grid s) g0.
Lemma step_inv : forall g0 s e, inv g0 s -> (forall h x, e = Rescaled h x -> others h g0) -> inv g0 (step paircol ntypes first last true cost s e).
Proof.
  intros g0 s e ((g & d & A & B & C) & D) H. destruct e as [xn taken|h x| |]; cbn [step].
  - destruct (Rle_dec (cost (s_grid s) xn) (s_F s)).
    + destruct (Rlt_dec (cost (s_grid s) xn) (s_Fopt s)); (split; [|exact D]).
      * exists (s_grid s), (s_data s). cbn. auto.
      * exists g, d. cbn. auto.
    + destruct taken; (split; [|exact D]); exists g, d; cbn; auto.
  - destruct (s_rescale s); [|split; [exists g, d; auto|exact D]]. split; [exists g, d; cbn; auto|]. cbn. exact (H h x eq_refl).
  - split; [exists g, d; cbn; auto|]. cbn. rewrite A. exact (agree_trans _ _ _ _ _ (proj2 (roundtrip g d (s_grid s))) D).
  - split; [exists g, d; cbn; auto|exact D].
Qed.
Lemma loop_inv : forall g0 l s, inv g0 s -> keeps_others paircol ntypes first last g0 l -> inv g0 (loop paircol ntypes first last true cost s l).
Proof.
  intros g0. induction l as [|e l IH]; intros s I K; [exact I|].
  assert (S : inv g0 (step paircol ntypes first last true cost s e)).
  { apply step_inv; [exact I|]. intros h x ->. apply (K h x). left. reflexivity. }
  destruct e; cbn [loop]; try exact S; apply IH; try exact S; intros h y H; apply (K h y); right; exact H.
Qed.

Lemma ends_at_optimum : forall g x d l, reads_tables cost -> keeps_others paircol ntypes first last g l ->
  let r := anneal paircol ntypes first last true cost g x d l in
  cost (fst r) (snd r) = s_Fopt (loop paircol ntypes first last true cost (start paircol ntypes first last true cost g x d) l).
Proof.
  intros g x d l R K. unfold anneal, finish. cbn [fst snd]. set (s := loop _ _ _ _ _ _ _ _).
  assert (I : inv g s). { apply loop_inv; [|exact K]. split; [exists g, d; cbn; split; [reflexivity|split; [reflexivity|apply agree_refl]]|apply agree_refl]. }
  destruct I as ((h & e & A & B & C) & D). rewrite A, <- B. apply R. destruct (roundtrip h e (s_grid s)) as (P & Q).
  apply agree_all; [exact P|]. apply (agree_trans _ _ _ _ _ Q). apply (agree_trans _ _ _ _ _ D). apply agree_sym. exact C.
Qed.

Lemma step_Fopt : forall m s e, s_Fopt (step paircol ntypes first last m cost s e) <= s_Fopt s.
Proof.
  intros m s e. destruct e as [xn taken|h x| |]; cbn [step].
  - destruct (Rle_dec (cost (s_grid s) xn) (s_F s)); [destruct (Rlt_dec (cost (s_grid s) xn) (s_Fopt s)); cbn; lra|destruct taken; cbn; lra].
  - destruct (s_rescale s); cbn; lra.
  - destruct m; cbn; lra.
  - cbn. lra.
Qed.
Lemma loop_Fopt : forall m l s, s_Fopt (loop paircol ntypes first last m cost s l) <= s_Fopt s.
Proof.
  intros m. induction l as [|e l IH]; intros s; [cbn; lra|]. pose proof (step_Fopt m s e) as H.
  destruct e; cbn [loop]; try exact H; (eapply Rle_trans; [apply IH|exact H]).
Qed.
Lemma not_worse : forall g x d l, reads_tables cost -> keeps_others paircol ntypes first last g l ->
  let r := anneal paircol ntypes first last true cost g x d l in cost (fst r) (snd r) <= cost g x.
Proof. intros g x d l R K r. unfold r. rewrite ends_at_optimum by assumption. apply loop_Fopt. Qed.

(** without rescaling *)
Definition inv2 (m : bool) (g0 : grid) (s : state) : Prop :=
  agree (fun _ => True) (fun _ => True) (s_grid s) g0 /\ s_Fopt s <= s_F s /\ cost g0 (s_opt s) = s_Fopt s /\
  (m = true -> exists g d, s_data s = store g d /\ agree (fun _ => True) (fun _ => True) g g0).
Lemma agree_weak : forall P Q g h, agree (fun _ => True) (fun _ => True) g h -> agree P Q g h.
Proof. intros P Q g h (A & B). split; auto. Qed.
Lemma restored_same : forall g d h g0, agree (fun _ => True) (fun _ => True) g g0 -> agree (fun _ => True) (fun _ => True) h g0 ->
  agree (fun _ => True) (fun _ => True) (restore (store g d) h) g0.
Proof.
  intros g d h g0 A B. destruct (roundtrip g d h) as (P & Q). apply agree_all.
  - apply (agree_trans _ _ _ _ _ P). apply agree_weak. exact A.
  - apply (agree_trans _ _ _ _ _ Q). apply agree_weak. exact B.
Qed.
Lemma step_inv2 : forall m g0 s e, reads_tables cost -> inv2 m g0 s -> (forall h x, e <> Rescaled h x) ->
  inv2 m g0 (step paircol ntypes first last m cost s e) /\
  (forall xn b, e = Try xn b -> s_Fopt (step paircol ntypes first last m cost s e) <= cost g0 xn).
Proof.
  intros m g0 s e R (A & B & C & D) N. destruct e as [xn taken|h x| |].
  - pose proof (R _ _ xn A) as E. unfold inv2. cbn [step].
    destruct (Rle_dec (cost (s_grid s) xn) (s_F s)) as [L|L]; [destruct (Rlt_dec (cost (s_grid s) xn) (s_Fopt s)) as [M|M]|destruct taken];
      cbn [s_grid s_F s_Fopt s_opt s_data]; (split; [|intros y b Y; injection Y as <- <-; lra]).
    + split; [exact A|]. split; [lra|]. split; [auto|]. intros ->. exists (s_grid s), (s_data s). auto.
    + split; [exact A|]. split; [lra|]. auto.
    + split; [exact A|]. split; [lra|]. auto.
    + auto.
  - exfalso. exact (N h x eq_refl).
  - split; [|intros y b Y; discriminate]. unfold inv2. cbn [step]. destruct m; cbn [s_grid s_F s_Fopt s_opt s_data].
    + destruct (D eq_refl) as (g & d & P & Q). assert (T : agree (fun _ => True) (fun _ => True) (restore (s_data s) (s_grid s)) g0).
      { rewrite P. apply restored_same; assumption. }
      split; [exact T|]. rewrite (R _ _ (s_opt s) T). split; [lra|]. auto.
    + split; [exact A|]. split; [lra|]. auto.
  - split; [|intros y b Y; discriminate]. unfold inv2. cbn [step s_grid s_F s_Fopt s_opt s_data]. split; [exact A|]. split; [lra|]. auto.
Qed.
Lemma loop_inv2 : forall m g0 l s, reads_tables cost -> inv2 m g0 s -> calm l ->
  inv2 m g0 (loop paircol ntypes first last m cost s l) /\
  (forall xn, tried l xn -> s_Fopt (loop paircol ntypes first last m cost s l) <= cost g0 xn).
Proof.
  intros m g0. induction l as [|e l IH]; intros s R I K.
  - split; [exact I|]. intros xn (a & b & c & E & _). destruct a; discriminate.
  - assert (N : forall h x, e <> Rescaled h x) by (intros h x E; apply (K h x); left; exact E).
    assert (K' : calm l) by (intros h x H; apply (K h x); right; exact H).
    destruct (step_inv2 m g0 s e R I N) as (S & T). destruct (IH _ R S K') as (U & V).
    assert (X : e = Flagged \/ loop paircol ntypes first last m cost s (e :: l) = loop paircol ntypes first last m cost (step paircol ntypes first last m cost s e) l).
    { destruct e; auto. }
    destruct X as [->|X].
    + split; [exact S|]. intros xn (a & b & c & E & F). destruct a as [|p a]; [discriminate|]. injection E as <- _. exfalso. apply F. left. reflexivity.
    + rewrite X. split; [exact U|]. intros xn (a & b & c & E & F). destruct a as [|p a].
      * injection E as -> ->. eapply Rle_trans; [apply loop_Fopt|]. exact (T xn b eq_refl).
      * injection E as -> ->. apply V. exists a, b, c. split; [reflexivity|]. intro Y. apply F. right. exact Y.
Qed.
Lemma best_tried : forall m g x d l, reads_tables cost -> calm l ->
  let r := anneal paircol ntypes first last m cost g x d l in
  cost (fst r) (snd r) <= cost g x /\ forall xn, tried l xn -> cost (fst r) (snd r) <= cost g xn.
Proof.
  intros m g x d l R K. unfold anneal, finish. cbn [fst snd].
  set (s0 := start paircol ntypes first last m cost g x d). set (s := loop _ _ _ _ _ _ s0 l).
  assert (I0 : inv2 m g s0).
  { split; [apply agree_refl|]. split; [cbn; lra|]. split; [reflexivity|]. intros ->. exists g, d. split; [reflexivity|apply agree_refl]. }
  destruct (loop_inv2 m g l s0 R I0 K) as ((A & B & C & D) & E). fold s in A, B, C, D, E.
  assert (T : agree (fun _ => True) (fun _ => True) (if m then restore (s_data s) (s_grid s) else s_grid s) g).
  { destruct m; [|exact A]. destruct (D eq_refl) as (h & e & P & Q). rewrite P. apply restored_same; assumption. }
  rewrite (R _ _ (s_opt s) T), C. split; [|exact E]. apply (loop_Fopt m l s0).
Qed.
End P.

(** one type, columns 0 (pair), 1 (transfer), 2 (embedding) *)
Definition flat (b : R) : grid := Grid (fun i => if (i =? 2)%nat then b else 0) (fun _ => 1) (fun _ => 1) (fun _ => 1) (fun _ => 0).
(** distance of parameter 0 from the begin of the embedding function *)
Definition dist0 (g : grid) (x : vec) : R := Rabs (x 0%nat - g_begin g 2%nat).
Lemma dist0_reads : reads_tables dist0.
Proof. intros g h x (A & _). unfold dist0. destruct (A 2%nat I) as (-> & _). reflexivity. Qed.
Lemma flat_keeps : forall b c y l, l = [Rescaled (flat b) y] -> keeps_others 1 1 (fun i => i) (fun i => i) (flat c) l.
Proof.
  intros b c y l -> h x [H|[]]. injection H as <- <-. split; [|intros; reflexivity]. intros i I. cbn.
  destruct (Nat.eqb_spec i 2) as [->|N]; [|auto]. exfalso. apply I. unfold embedding. lia.
Qed.
Lemma eam_mixed : let l := [Rescaled (flat 1) (fun _ => 1)] in
  keeps_others 1 1 (fun i => i) (fun i => i) (flat 0) l /\ dist0 (flat 1) (fun _ => 1) = dist0 (flat 0) (fun _ => 0) /\
  let r := anneal 1 1 (fun i => i) (fun i => i) false dist0 (flat 0) (fun _ => 0) (flat 0) l in
  dist0 (flat 0) (fun _ => 0) < dist0 (fst r) (snd r).
Proof.
  cbv zeta. split; [apply (flat_keeps 1 0 (fun _ => 1)); reflexivity|]. unfold dist0. cbn. split.
  - replace (1 - 1) with 0 by lra. replace (0 - 0) with 0 by lra. reflexivity.
  - replace (0 - 0) with 0 by lra. rewrite Rabs_R0. replace (0 - 1) with (- (1)) by lra. rewrite Rabs_Ropp, Rabs_R1. lra.
Qed.
Lemma better_lost : forall m, let l := [Rescaled (flat 0) (fun _ => 0)] in
  keeps_others 1 1 (fun i => i) (fun i => i) (flat 0) l /\
  let r := anneal 1 1 (fun i => i) (fun i => i) m dist0 (flat 0) (fun _ => 1) (flat 0) l in
  dist0 (flat 0) (fun _ => 0) < dist0 (fst r) (snd r).
Proof.
  intros m. cbv zeta. split; [apply (flat_keeps 0 0 (fun _ => 0)); reflexivity|]. unfold dist0. destruct m; cbn;
  (replace (0 - 0) with 0 by lra; rewrite Rabs_R0; replace (1 - 0) with 1 by lra; rewrite Rabs_R1; lra).
Qed.
