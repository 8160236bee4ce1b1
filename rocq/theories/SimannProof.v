(** Proofs for C13-C16. *)
From Coq Require Import List Arith QArith Qabs Bool Lia Lqa.
From Verif Require Import ListUtil DiffEvoModel DiffEvoProof SimannModel.
Import ListNotations.
Local Open Scope nat_scope.

Section Run.
Variable G : Type.
Variable bld : build.
Variable costf : G -> list Q -> Q.
Variable ndim : nat.
Variable idxp : nat -> nat.
Variable move : nat -> nat -> list Q -> list Q -> list Q * list Q.
Variable accept : nat -> bool.
Variable flag : nat -> nat -> bool.
Notation sa := (sa G).
Notation seen := (seen G). Notation f_opt := (f_opt G). Notation fcur := (fcur G).
Notation xi_opt := (xi_opt G). Notation xi := (xi G). Notation geo := (geo G). Notation geo_opt := (geo_opt G).
Notation moves := (moves G).

(** ** Generic preservation through the loops *)
Section Gen.
Variable resc : option (G -> list Q -> option (G * list Q)).
Variable P : sa -> Prop.
Hypothesis P_param : forall s h, h < ndim -> P s -> P (sa_param G bld costf idxp move accept s h).
Hypothesis P_adjust : forall s, P s -> P (adjust G s).
Hypothesis P_resc : forall m s, P s -> P (rescale_step G costf resc m s).
Hypothesis P_back : forall s, P s ->
  P (mk_sa G (xi_opt s) (f_opt s) (xi_opt s) (f_opt s) (geo s) (geo_opt s) (disp G s) (nacc G s) (moves s) (seen s) (do_resc G s)).
Hypothesis P_check : forall f s, P s -> P (fst (fst (sa_check G bld costf f s))).

Lemma temp_inv : forall lc todo m s, P s -> P (fst (sa_temp G bld costf resc ndim idxp move accept flag lc todo m s)).
Proof.
  intros lc. induction todo; intros m s H; [exact H|]. cbn [sa_temp].
  set (s1 := fold_left _ (seq 0 NSTEP) s).
  assert (H1 : P s1).
  { unfold s1. apply fold_inv; auto. intros a _ _ Ha. apply fold_inv; auto.
    intros b h Hh Hb. apply in_seq in Hh. apply P_param; auto. lia. }
  destruct (flag lc m).
  - cbn [fst]. apply P_back. apply P_adjust. exact H1.
  - apply IHtodo. apply P_resc. apply P_adjust. exact H1.
Qed.

Lemma loop_gen : forall todo lc f s s', P s ->
  sa_loop G bld costf resc ndim idxp move accept flag todo lc f s = Some s' -> P s'.
Proof.
  induction todo; intros lc f s s' H E; [discriminate|]. cbn [sa_loop] in E.
  pose proof (temp_inv lc (3 * ndim) 0 s H) as H1.
  destruct (sa_temp _ _ _ _ _ _ _ _ _ lc (3 * ndim) 0 s) as [s1 br]. cbn [fst] in H1.
  pose proof (P_check f s1 H1) as H2. destruct (sa_check _ _ _ f s1) as [[s2 f'] ag]. cbn [fst] in H2.
  destruct (_ && ag); [eapply IHtodo; eauto|]. injection E as <-. auto.
Qed.
End Gen.

(** ** Without rescaling: the best of everything seen *)
Record best_inv (g : G) (s : sa) : Prop := {
  bi_geo : geo s = g /\ geo_opt s = g;
  bi_opt : f_opt s = costf g (xi_opt s);
  bi_seen : forall f, In f (seen s) -> (f_opt s <= f)%Q;
  bi_in : In (f_opt s) (seen s);
  bi_cur : (f_opt s <= fcur s)%Q }.

Lemma param_best : forall g s h, best_inv g s -> best_inv g (sa_param G bld costf idxp move accept s h).
Proof.
  intros g s h [[Hg Hgo] Ho Hs Hi Hc]. unfold sa_param.
  destruct (move (moves s) h (xi s) (disp G s)) as [xn v'].
  destruct (Qle_bool (costf (geo s) xn) (fcur s)) eqn:E1.
  - qcase (costf (geo s) xn) (f_opt s).
    + constructor; cbn; auto; try lra.
      * split; auto. destruct bld; auto.
      * rewrite Hg. auto.
      * intros f [<-|Hf]; [lra|]. specialize (Hs _ Hf). lra.
    + constructor; cbn; auto.
      intros f [<-|Hf]; [lra|]. auto.
  - assert (L : (fcur s < costf (geo s) xn)%Q).
    { apply Qnot_le_lt. intro K. apply Qle_bool_iff in K. congruence. }
    destruct (accept (moves s)); constructor; cbn; auto; try lra; intros f [<-|Hf]; auto; lra.
Qed.

Lemma check_best : forall g f s, best_inv g s -> best_inv g (fst (fst (sa_check G bld costf f s))).
Proof.
  intros g f s [[Hg Hgo] Ho Hs Hi Hc]. unfold sa_check.
  destruct (negb _ && _); [|constructor; auto].
  cbn [fst]. destruct bld; constructor; cbn; auto; try lra.
  - intros q [<-|Hq]; auto. rewrite Hgo, Ho. lra.
  - rewrite Hgo, Ho. lra.
Qed.

Lemma back_best : forall g s, best_inv g s -> best_inv g
  (mk_sa G (xi_opt s) (f_opt s) (xi_opt s) (f_opt s) (geo s) (geo_opt s) (disp G s) (nacc G s) (moves s) (seen s) (do_resc G s)).
Proof. intros g s [? ? ? ? ?]. constructor; cbn; auto using Qle_refl. Qed.

Theorem best_of_all : forall g x todo g' x' s,
  sa_run G bld costf None ndim idxp move accept flag g x todo = Some (g', x', s) ->
  g' = g /\ (forall f, In f (seen s) -> (costf g' x' <= f)%Q) /\ In (costf g' x') (seen s) /\
  (costf g' x' <= costf g x)%Q.
Proof.
  intros g x todo g' x' s E. unfold sa_run in E.
  destruct (sa_loop _ _ _ _ _ _ _ _ _ _ _ _ _) as [s1|] eqn:El; [|discriminate]. injection E as <- <- <-.
  assert (I : best_inv g s1 /\ In (costf g x) (seen s1)).
  { apply (loop_gen None (fun s => best_inv g s /\ In (costf g x) (seen s))) in El; auto.
    - intros s h _ [I J]. split; [apply param_best; auto|]. unfold sa_param.
      destruct (move _ _ _ _). destruct (Qle_bool _ _); [destruct (qltb _ _)|destruct (accept _)]; cbn; auto.
    - intros s [[] J]. split; [constructor; auto|auto].
    - intros s [I J]. split; [apply back_best; auto|auto].
    - intros f s [I J]. split; [apply check_best; auto|]. unfold sa_check.
      destruct (negb _ && _); cbn; auto. destruct bld; cbn; auto.
    - unfold sa_init. split; [constructor; cbn; auto; try lra|cbn; auto].
      intros f [<-|[]]. lra. }
  destruct I as [[[Hg Hgo] Ho Hs Hi Hc] J].
  assert (Eg : (match bld with BMeam => geo_opt s1 | _ => geo s1 end) = g) by (destruct bld; auto).
  rewrite Eg. rewrite <- Ho. repeat split; auto.
Qed.

(** Every cost that was compared is in [seen], and the current cost always is the cost of
    the current vector when a move changes only the parameter it is about. *)
Theorem current_cost : forall g x todo s,
  (bld = BApot -> forall k h y v, h < ndim -> fst (move k h y v) = upd y (idxp h) (nth (idxp h) (fst (move k h y v)) 0%Q)) ->
  sa_loop G bld costf None ndim idxp move accept flag todo 0 (repeat (costf g x) NEPS) (sa_init G costf ndim g x) = Some s ->
  fcur s = costf g (xi s).
Proof.
  intros g x todo s Hm E.
  apply (loop_gen None (fun s => best_inv g s /\ fcur s = costf g (xi s))) in E; [tauto| | | | | |].
  - intros s0 h Hh [I J]. split; [apply param_best; auto|]. destruct I as [[Hg _] _ _ _ _]. unfold sa_param.
    pose proof (fun B => Hm B (moves s0) h (xi s0) (disp G s0) Hh) as K.
    destruct (move (moves s0) h (xi s0) (disp G s0)) as [xn v']. cbn [fst] in K. rewrite Hg.
    assert (X : (match bld with BApot => upd (xi s0) (idxp h) (nth (idxp h) xn 0%Q) | _ => xn end) = xn).
    { destruct bld; auto. symmetry. auto. }
    destruct (Qle_bool _ _); [destruct (qltb _ _)|destruct (accept _)]; cbn; rewrite ?X; auto.
  - intros s0 [[] J]. split; [constructor; auto|auto].
  - intros m s0 H. exact H.
  - intros s0 [I J]. split; [apply back_best; auto|]. destruct I; auto.
  - intros f s0 [I J]. split; [apply check_best; auto|]. unfold sa_check.
    destruct I as [[Hg Hgo] Ho _ _ _].
    destruct (negb _ && _); cbn; auto. destruct bld; cbn; auto. rewrite Hgo. auto.
  - split; [|reflexivity]. unfold sa_init. constructor; cbn; auto; try lra.
    intros f [<-|[]]. lra.
Qed.

(** ** With rescaling, MEAM builds: never worse than the start *)
Record meam_inv (f0 : Q) (s : sa) : Prop := {
  mi_opt : f_opt s = costf (geo_opt s) (xi_opt s);
  mi_le : (f_opt s <= f0)%Q }.

Theorem meam_not_worse : forall resc g x todo g' x' s, bld = BMeam ->
  sa_run G bld costf resc ndim idxp move accept flag g x todo = Some (g', x', s) ->
  (costf g' x' <= costf g x)%Q.
Proof.
  intros resc g x todo g' x' s B E. unfold sa_run in E.
  destruct (sa_loop _ _ _ _ _ _ _ _ _ _ _ _ _) as [s1|] eqn:El; [|discriminate]. injection E as <- <- <-.
  rewrite B at 1. apply (loop_gen resc (meam_inv (costf g x))) in El; auto.
  - destruct El as [Ho L]. rewrite <- Ho. auto.
  - intros s h _ [Ho L]. unfold sa_param. destruct (move _ _ _ _) as [xn v'].
    destruct (Qle_bool _ _); [qcase (costf (geo s) xn) (f_opt s)|destruct (accept _)]; constructor; rewrite ?B; cbn; auto; lra.
  - intros s [Ho L]. constructor; auto.
  - intros m s [Ho L]. unfold rescale_step. destruct resc as [r|]; [|constructor; auto].
    destruct (_ && _); [|constructor; auto]. destruct (r _ _) as [[? ?]|]; constructor; auto.
  - intros s [Ho L]. constructor; auto.
  - intros f s [Ho L]. unfold sa_check. rewrite B. destruct (negb _ && _); constructor; auto.
  - unfold sa_init. constructor; cbn; auto. lra.
Qed.

(** ** Termination *)
Section Term.
Variable resc : option (G -> list Q -> option (G * list Q)).

Lemma loop_total : forall todo lc f s, KMAX - lc <= todo -> 0 < todo ->
  exists s', sa_loop G bld costf resc ndim idxp move accept flag todo lc f s = Some s'.
Proof.
  induction todo; intros lc f s H H0; [lia|]. cbn [sa_loop].
  destruct (sa_temp _ _ _ _ _ _ _ _ _ lc (3 * ndim) 0 s) as [s1 br].
  destruct (sa_check _ _ _ f s1) as [[s2 f'] ag].
  destruct (Nat.ltb_spec (S (if br then S KMAX else lc)) KMAX) as [L|L]; cbn [andb].
  - destruct ag; [|eauto]. apply IHtodo; destruct br; lia.
  - eauto.
Qed.

(** Number of evaluations, start included. *)
Definition per_temp : nat := 3 * ndim * (NSTEP * ndim + 1).

Lemma param_count : forall s h, length (seen (sa_param G bld costf idxp move accept s h)) = S (length (seen s)).
Proof.
  intros. unfold sa_param. destruct (move _ _ _ _).
  destruct (Qle_bool _ _); [destruct (qltb _ _)|destruct (accept _)]; reflexivity.
Qed.

Lemma params_count : forall l s, length (seen (fold_left (sa_param G bld costf idxp move accept) l s)) = length l + length (seen s).
Proof. induction l; intros s; simpl; auto. rewrite IHl, param_count. lia. Qed.

Lemma steps_count : forall (l : list nat) s, length (seen (fold_left (fun s _ => fold_left (sa_param G bld costf idxp move accept) (seq 0 ndim) s) l s))
  = length l * ndim + length (seen s).
Proof. induction l; intros s; simpl; auto. rewrite IHl, params_count, seq_length. lia. Qed.

Lemma temp_count : forall lc todo m s,
  length (seen (fst (sa_temp G bld costf resc ndim idxp move accept flag lc todo m s))) <= todo * (NSTEP * ndim + 1) + length (seen s).
Proof.
  intros lc. induction todo; intros m s; [cbn; lia|]. cbn [sa_temp].
  set (s1 := fold_left _ (seq 0 NSTEP) s).
  assert (H1 : length (seen s1) = NSTEP * ndim + length (seen s)).
  { unfold s1. rewrite steps_count, seq_length. auto. }
  clearbody s1. destruct (flag lc m).
  - cbn [fst SimannModel.seen adjust]. unfold adjust. cbn [SimannModel.seen]. lia.
  - etransitivity; [apply IHtodo|].
    assert (length (seen (rescale_step G costf resc m (adjust G s1))) <= S (length (seen s1))).
    { unfold rescale_step. destruct resc as [r|]; [|cbn; lia]. destruct (_ && _); [|cbn; lia].
      destruct (r _ _) as [[? ?]|]; cbn; lia. }
    lia.
Qed.

Lemma loop_count : forall todo lc f s s',
  sa_loop G bld costf resc ndim idxp move accept flag todo lc f s = Some s' ->
  length (seen s') <= todo * (per_temp + 1) + length (seen s).
Proof.
  induction todo; intros lc f s s' E; [discriminate|]. cbn [sa_loop] in E.
  pose proof (temp_count lc (3 * ndim) 0 s) as H1.
  destruct (sa_temp _ _ _ _ _ _ _ _ _ lc (3 * ndim) 0 s) as [s1 br]. cbn [fst] in H1.
  assert (H2 : length (seen (fst (fst (sa_check G bld costf f s1)))) <= S (length (seen s1))).
  { unfold sa_check. destruct (negb _ && _); cbn; try lia. destruct bld; cbn; lia. }
  destruct (sa_check _ _ _ f s1) as [[s2 f'] ag]. cbn [fst] in H2.
  unfold per_temp in *. destruct (_ && ag).
  - apply IHtodo in E. lia.
  - injection E as <-. nia.
Qed.

Theorem sa_terminates : forall g x, exists g' x' s,
  sa_run G bld costf resc ndim idxp move accept flag g x KMAX = Some (g', x', s) /\
  length (seen s) <= 1 + KMAX * (3 * ndim * (20 * ndim + 1) + 1).
Proof.
  intros g x. unfold sa_run.
  destruct (loop_total KMAX 0 (repeat (costf g x) NEPS) (sa_init G costf ndim g x)) as [s E].
  { lia. } { unfold KMAX; lia. }
  pose proof (loop_count _ _ _ _ _ E) as C. rewrite E. repeat eexists.
  change (length (seen (sa_init G costf ndim g x))) with 1 in C. unfold per_temp, NSTEP in C. lia.
Qed.
End Term.

(** ** Only free entries change in bounded builds *)
Theorem fixed_unchanged : forall resc g x todo g' x' s p, bld = BApot -> resc = None ->
  (forall k h y v q, h < ndim -> (forall j, j < ndim -> q <> idxp j) -> nth q (fst (move k h y v)) 0%Q = nth q y 0%Q) ->
  (forall j, j < ndim -> p <> idxp j) ->
  sa_run G bld costf resc ndim idxp move accept flag g x todo = Some (g', x', s) ->
  nth p x' 0%Q = nth p x 0%Q.
Proof.
  intros resc g x todo g' x' s p B -> Hm Hp E. unfold sa_run in E.
  destruct (sa_loop _ _ _ _ _ _ _ _ _ _ _ _ _) as [s1|] eqn:El; [|discriminate]. injection E as <- <- <-.
  apply (loop_gen None (fun s => nth p (xi s) 0%Q = nth p x 0%Q /\ nth p (xi_opt s) 0%Q = nth p x 0%Q)) in El; [tauto| | | | | |].
  - intros s h Hh [A O]. unfold sa_param.
    pose proof (Hm (moves s) h (xi s) (disp G s) p Hh Hp) as K.
    destruct (move (moves s) h (xi s) (disp G s)) as [xn v']. cbn [fst] in K. rewrite A in K. rewrite B.
    destruct (Qle_bool _ _); [destruct (qltb _ _)|destruct (accept _)]; cbn; rewrite ?nth_upd_neq; auto.
  - intros s H. exact H.
  - intros m s H. exact H.
  - intros s [A O]. cbn. auto.
  - intros f s [A O]. unfold sa_check. destruct (negb _ && _); cbn; auto.
  - cbn. auto.
Qed.
End Run.

(** ** Moves in bounded builds *)
Lemma try_in : forall us x lo hi v l, (exists u, In u us /\ (lo <= x + (2 * u - 1) * v <= hi)%Q) ->
  (lo <= try_move x lo hi v us l <= hi)%Q.
Proof.
  induction us as [|u us]; intros x lo hi v l [w [H1 H2]]; [contradiction|].
  cbn [try_move]. destruct (Qle_bool lo _ && Qle_bool _ hi) eqn:E.
  - apply andb_prop in E. destruct E as [E1 E2]. apply Qle_bool_iff in E1. apply Qle_bool_iff in E2. lra.
  - destruct H1 as [->|H1].
    + destruct H2 as [A B]. apply Qle_bool_iff in A. apply Qle_bool_iff in B. rewrite A, B in E. discriminate.
    + apply IHus. eauto.
Qed.

Lemma try_dist : forall us x lo hi v l, (0 <= v)%Q -> (forall u, In u us -> (0 <= u <= 1)%Q) ->
  (x - v <= l <= x + v)%Q -> (x - v <= try_move x lo hi v us l <= x + v)%Q.
Proof.
  induction us as [|u us]; intros x lo hi v l Hv Hu Hl; cbn [try_move]; auto.
  assert (K : (x - v <= x + (2 * u - 1) * v <= x + v)%Q).
  { destruct (Hu u); [left; auto|].
    assert (0 <= u * v)%Q by (apply Qmult_le_0_compat; lra).
    assert (0 <= (1 - u) * v)%Q by (apply Qmult_le_0_compat; lra). lra. }
  destruct (_ && _); auto. apply IHus; auto. intros; apply Hu; right; auto.
Qed.

Theorem move_in_bounds : forall x lo hi v us,
  (exists u, In u (firstn 10 us) /\ (lo <= x + (2 * u - 1) * cap_step v lo hi <= hi)%Q) ->
  (lo <= apot_move x lo hi v us <= hi)%Q.
Proof. intros. apply try_in. auto. Qed.

Theorem move_distance : forall x lo hi v us, (lo <= hi)%Q -> (0 <= v)%Q ->
  (forall u, In u us -> (0 <= u <= 1)%Q) -> us <> [] ->
  (Qabs (apot_move x lo hi v us - x) <= hi - lo)%Q /\ (Qabs (apot_move x lo hi v us - x) <= v)%Q.
Proof.
  intros x lo hi v us H Hv Hu N. unfold apot_move. destruct us as [|u us]; [contradiction|].
  cbn [firstn try_move].
  set (w := cap_step v lo hi).
  assert (W : (0 <= w /\ w <= v /\ w <= hi - lo)%Q). { unfold w, cap_step. qcase (hi - lo)%Q v; lra. }
  assert (B : forall y, (x - w <= y <= x + w)%Q -> (Qabs (y - x) <= hi - lo)%Q /\ (Qabs (y - x) <= v)%Q).
  { intros y Y. split; apply Qabs_case; intros; lra. }
  assert (K : (x - w <= x + (2 * u - 1) * w <= x + w)%Q).
  { destruct (Hu u); [left; auto|].
    assert (0 <= u * w)%Q by (apply Qmult_le_0_compat; lra).
    assert (0 <= (1 - u) * w)%Q by (apply Qmult_le_0_compat; lra). lra. }
  apply B. destruct (_ && _); auto. apply try_dist; auto; try lra.
  intros z Hz. apply Hu. right. rewrite <- (firstn_skipn 9 us). apply in_or_app. auto.
Qed.

Lemma move_out : exists x lo hi v us, (lo <= x <= hi)%Q /\ (0 < v)%Q /\
  (forall u, In u us -> (0 <= u < 1)%Q) /\ length us = 10 /\ (apot_move x lo hi v us < lo)%Q.
Proof.
  exists 0%Q, 0%Q, 1%Q, (1#10)%Q, (repeat (1#4)%Q 10). repeat split; try lra; try reflexivity.
  all: intros; apply repeat_spec in H; subst; lra.
Qed.

(** ** Moves of tabulated potentials *)
Section Tab.
Variables (idx : list nat) (ndim first last n : nat) (amount : nat -> Q).

Definition free (p : nat) : Prop := exists k, k < ndim /\ nth_error idx k = Some p.

Lemma upd_other : forall (l : list Q) p q x, q <> p -> nth q (upd l p x) 0%Q = nth q l 0%Q.
Proof. intros. apply nth_upd_neq. auto. Qed.

Lemma tab_step_other : forall xi i xi' q, n < ndim ->
  tab_step idx ndim first last n amount (Some xi) i = Some xi' ->
  ~ free q -> (n + i = ndim -> nth_error idx ndim <> Some q) -> nth q xi' 0%Q = nth q xi 0%Q.
Proof.
  intros xi i xi' q Hn E Hf He. unfold tab_step in E.
  assert (A : forall up, (if n + i <=? ndim then
        match nth_error idx (n + i) with
        | None => None
        | Some p => if p <=? last then
            match nth_error xi p with Some x => Some (upd xi p (x + amount i)%Q) | None => None end
            else Some xi
        end
      else Some xi) = Some up -> nth q up 0%Q = nth q xi 0%Q).
  { intros up. destruct (Nat.leb_spec (n + i) ndim).
    - destruct (nth_error idx (n + i)) as [p|] eqn:Ep; [|discriminate].
      destruct (p <=? last); [|intros [= <-]; auto]. destruct (nth_error xi p); [|discriminate].
      intros [= <-]. apply upd_other. intros ->.
      destruct (Nat.eq_dec (n + i) ndim) as [Q|Q].
      + rewrite Q in Ep. apply (He Q). auto.
      + apply Hf. exists (n + i). split; [lia|auto].
    - intros [= <-]; auto. }
  destruct (if n + i <=? ndim then _ else _) as [up|]; [|discriminate].
  specialize (A up eq_refl). rewrite <- A. destruct (Nat.leb_spec i n); [|injection E as <-; auto].
  destruct (nth_error idx (n - i)) as [p|] eqn:Ep; [|discriminate].
  destruct (first <=? p); [|injection E as <-; auto]. destruct (nth_error up p); [|discriminate].
  injection E as <-. apply upd_other. intros ->. apply Hf. exists (n - i). split; [lia|auto].
Qed.

Lemma tab_fold_none : forall l, fold_left (tab_step idx ndim first last n amount) l None = None.
Proof. induction l; simpl; auto. Qed.

Lemma tab_fold_other : forall m s xi xi' q, n < ndim ->
  fold_left (tab_step idx ndim first last n amount) (seq s m) (Some xi) = Some xi' ->
  ~ free q -> (ndim < n + s + m -> nth_error idx ndim <> Some q) -> nth q xi' 0%Q = nth q xi 0%Q.
Proof.
  induction m; intros s xi xi' q Hn E Hf He; cbn [seq fold_left] in E.
  - injection E as <-. auto.
  - destruct (tab_step idx ndim first last n amount (Some xi) s) as [x1|] eqn:E1.
    + rewrite (IHm (S s) x1 xi' q); auto.
      * eapply tab_step_other; eauto. intros. apply He. lia.
      * intros. apply He. lia.
    + rewrite tab_fold_none in E. discriminate.
Qed.

(** A move whose window stays below the number of free parameters changes only free
    entries; a longer one in addition the entry named by the index one past the end. *)
Theorem tab_move_free : forall m xi xi', n < ndim ->
  tab_move idx ndim first last n m amount xi = Some xi' ->
  forall q, ~ free q -> (n + m < ndim \/ nth_error idx ndim <> Some q) -> nth q xi' 0%Q = nth q xi 0%Q.
Proof.
  intros m xi xi' Hn E q Hf Hm. unfold tab_move in E.
  eapply tab_fold_other; eauto. intros. destruct Hm; [lia|auto].
Qed.
End Tab.

(** Witness: one pair potential, entry 0 = end gradient (fixed), entries 2..4 free, last
    point fixed; the index array is longer than the number of free parameters. *)
Lemma tab_refuted : exists idx ndim first last n m amount xi xi' q,
  n < ndim /\ ndim < length idx /\ (forall k, ndim <= k -> k < length idx -> nth_error idx k = Some 0) /\
  tab_move idx ndim first last n m amount xi = Some xi' /\
  ~ free idx ndim q /\ ~ (nth q xi' 0 == nth q xi 0)%Q.
Proof.
  exists [2; 3; 4; 0; 0; 0], 3, 2, 5, 1, 2, (fun _ => 1%Q), [0; 0; 5; 5; 5; 0]%Q, [1; 0; 6; 7; 6; 0]%Q, 0.
  split; [lia|]. split; [simpl; lia|]. split.
  - intros k H1 H2. simpl in H2. do 6 (destruct k; [reflexivity || lia|]). lia.
  - split; [reflexivity|]. split.
    + intros [k [H1 H2]]. do 3 (destruct k; [discriminate|]). lia.
    + simpl. lra.
Qed.

(** If every sampling point were free the same read would leave the index array. *)
Lemma tab_oob : tab_move [0; 1; 2] 3 0 2 2 1 (fun _ => 1%Q) [5; 5; 5]%Q = None.
Proof. reflexivity. Qed.

(** ** Witnesses for the rescaling and automatic temperature *)
(** Geometry = width of the density interval; the cost depends on value*geometry only, and
    rescaling (double the values, halve the geometry) leaves the cost unchanged. *)
Definition wg_cost (g : Q) (x : list Q) : Q := ((nth 0 x 0 * g - 1) * (nth 0 x 0 * g - 1))%Q.
Definition wg_resc (g : Q) (x : list Q) : option (Q * list Q) :=
  Some ((g * (1#2))%Q, map (fun y => (y * 2)%Q) x).

Lemma wg_invariant : forall g x g' x', wg_resc g x = Some (g', x') -> (wg_cost g' x' == wg_cost g x)%Q.
Proof.
  intros g x g' x' [= <- <-]. unfold wg_cost.
  destruct x; cbn [nth map]; field.
Qed.

(** four free parameters of which only the first matters; no move is ever better *)
Definition wg_move (k h : nat) (x v : list Q) : list Q * list Q := (x, v).
Definition wg_flag (lc m : nat) : bool := m =? 10.
Notation wg_run := (sa_run Q BTab wg_cost (Some wg_resc) 4 (fun h => h) wg_move (fun _ => false) wg_flag
  1%Q [1; 1; 1; 1]%Q 1).

Lemma wg_run_def : exists g' s, wg_run = Some (g', [1; 1; 1; 1]%Q, s) /\ (wg_cost g' [1; 1; 1; 1]%Q == 1 # 4)%Q.
Proof.
  assert (match wg_run with Some (g', x', _) => Qeq_bool (wg_cost g' [1; 1; 1; 1]%Q) (1#4) && 
     match x' with [a; b; c; d] => true | _ => false end | None => false end = true) by (vm_compute; reflexivity).
  destruct wg_run as [[[g' x'] s]|] eqn:E; [|discriminate].
  apply andb_prop in H. destruct H as [H _]. apply Qeq_bool_iff in H.
  exists g', s. split; auto.
  assert (x' = [1; 1; 1; 1]%Q).
  { assert (option_map (fun t => snd (fst t)) wg_run = Some [1; 1; 1; 1]%Q) by (vm_compute; reflexivity).
    rewrite E in H0. injection H0 as ->. reflexivity. }
  subst. auto.
Qed.

Lemma rescale_refuted : exists (costf : Q -> list Q -> Q) resc ndim idxp move accept flag g x g' x' s,
  (forall g x g' x', resc g x = Some (g', x') -> (costf g' x' == costf g x)%Q) /\
  sa_run Q BTab costf (Some resc) ndim idxp move accept flag g x 1 = Some (g', x', s) /\
  (costf g x < costf g' x')%Q.
Proof.
  destruct wg_run_def as (g' & s & E & C).
  exists wg_cost, wg_resc, 4, (fun h => h), wg_move, (fun _ => false), wg_flag, 1%Q, [1; 1; 1; 1]%Q, g', [1; 1; 1; 1]%Q, s.
  split; [exact wg_invariant|]. split; [exact E|].
  rewrite C. vm_compute. reflexivity.
Qed.

(** Automatic temperature: a trial move reaches cost 0, every later move is a failure. *)
Definition wa_cost (g : unit) (x : list Q) : Q := (nth 0 x 0)%Q.
Definition wa_move (k h : nat) (x v : list Q) : list Q * list Q := if k =? 0 then ([1#2]%Q, v) else ([2]%Q, v).

Lemma auto_refuted : exists (costf : unit -> list Q -> Q) move1 move2 accept flag x x' s f,
  In f (auto_seen unit costf move1 (10 * 1) (fun _ => 0) tt x [1#10]%Q) /\
  sa_run unit BApot costf None 1 (fun h => h) move2 accept flag tt x KMAX = Some (tt, x', s) /\
  (f < costf tt x')%Q.
Proof.
  exists wa_cost, wa_move, (fun _ _ _ v => ([2]%Q, v)), (fun _ => false), (fun _ _ => true), [1]%Q, [1]%Q.
  eexists. exists (1#2)%Q. split; [left; reflexivity|]. split; [vm_compute; reflexivity|]. vm_compute. reflexivity.
Qed.
