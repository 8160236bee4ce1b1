From Coq Require Import String List Arith Bool ZArith Reals Lia.
From Verif Require Import BcModel BcSpec BcProof MpiModel MpiProof MpiProps.
Import ListNotations.

(** shares of the processes lie inside the list of atoms *)
Lemma share_bounds : forall ncpu inconf shares, (1 <= ncpu)%Z -> (forall n, In n inconf -> (0 <= n)%Z) -> distribute ncpu inconf = MpiOk shares ->
  forall p s, nth_error shares p = Some s -> (0 <= first_atom s /\ 0 <= my_atoms s /\ first_atom s + my_atoms s <= natoms inconf)%Z.
Proof.
  intros ncpu inconf shares Hn Hp D p s E. unfold distribute in D. destruct (ncpu =? 1)%Z; [discriminate|]. destruct (ncpu >? _)%Z eqn:G; [discriminate|].
  injection D as D. subst shares. rewrite nth_error_map in E. destruct (nth_error (seq 0 (Z.to_nat ncpu)) p) as [q|] eqn:Q; [|discriminate]. cbn [option_map] in E.
  injection E as E. subst s. cbn [first_atom my_atoms].
  assert (Lp : (p < Z.to_nat ncpu)%nat) by (rewrite <- (seq_length (Z.to_nat ncpu) 0); apply nth_error_Some; rewrite Q; discriminate).
  assert (q = p) by (rewrite (nth_error_nth' _ 0%nat) in Q by (rewrite seq_length; exact Lp); rewrite seq_nth in Q by exact Lp; injection Q as Q; lia). subst q.
  assert (Li : (Z.of_nat p < ncpu)%Z) by lia.
  rewrite Z.gtb_ltb in G. apply Z.ltb_ge in G.
  assert (M : forall i j, (i <= j)%Z -> (atom_dist ncpu inconf i <= atom_dist ncpu inconf j)%Z).
  { intros i j L. unfold atom_dist. apply cnfstart_mono; [exact Hp|].
    pose proof (conf_dist_mono ncpu (Z.of_nat (length inconf)) Hn ltac:(lia) i j L). lia. }
  rewrite atom_len_eq by lia. pose proof (M (Z.of_nat p) (Z.of_nat p + 1)%Z ltac:(lia)).
  pose proof (M (Z.of_nat p + 1)%Z ncpu ltac:(lia)). rewrite atom_dist_end in H0 by lia.
  pose proof (cnfstart_nonneg inconf Hp (Z.to_nat (conf_dist ncpu (Z.of_nat (length inconf)) (Z.of_nat p)))). unfold atom_dist at 1. lia.
Qed.

(** every process holds the atoms of its configurations *)
Lemma parallel_atoms : forall (byte : Type) (b : build) (zero : byte) ncpu inconf shares (l : list (atom byte)),
  (1 <= ncpu)%Z -> (forall n, In n inconf -> (0 <= n)%Z) -> distribute ncpu inconf = MpiOk shares -> Z.of_nat (length l) = fold_right Z.add 0%Z inconf ->
  (dTHREEBODY b = true -> dANG b = false -> forall a, In a l -> a_angle byte a <> []) ->
  forall p s, nth_error shares p = Some s -> forall loc, exists conf,
    local_atoms byte b (p =? 0)%nat (Z.to_nat (first_atom s)) (Z.to_nat (my_atoms s)) zero l loc = Ok conf /\
    forall c a at_, computes s c -> atom_of inconf c a -> nth_error l (Z.to_nat a) = Some at_ ->
      exists ca, nth_error conf (Z.to_nat (a - first_atom s)) = Some ca /\ received byte b ca at_.
Proof.
  intros byte b zero ncpu inconf shares l Hn Hp D Ll Ha p s E loc. destruct (share_bounds ncpu inconf shares Hn Hp D p s E) as (B1 & B2 & B3).
  destruct (C02_partition ncpu inconf shares Hn Hp D) as (_ & _ & R & _ & S).
  assert (NA : natoms inconf = fold_right Z.add 0%Z inconf) by reflexivity.
  destruct (local_ok byte b (p =? 0)%nat (Z.to_nat (first_atom s)) (Z.to_nat (my_atoms s)) zero l loc) as (conf & Ec & Lc & K).
  - lia.
  - intros T G j a _ Ej. exact (Ha T G a (nth_error_In _ _ Ej)).
  - exists conf. split; [exact Ec|]. intros c a at_ C A Ea. assert (St : stores s a) by (apply (S p s c a E (R p s c E C) A); exact C).
    unfold stores in St. apply (K (Z.to_nat (a - first_atom s)) at_); [lia|]. rewrite <- Ea. f_equal. lia.
Qed.

Local Open Scope string_scope.
(** global variables *)
Definition known (b : build) (cp gl : bool) : bool :=
  forallb (fun n => existsb (String.eqb n) (sent b cp gl ++ ["apot_table.sw_kappa"; "compnodes"])) (read_by_worker b cp gl).
Lemma known_all : forall b cp gl, known b cp gl = true.
Proof. intros [[] [] [] []] [] []; vm_compute; reflexivity. Qed.

Lemma globals_ok : forall (val : Type) (init rootg : string -> val) b cp gl, rootg "compnodes" = init "compnodes" ->
  forall n, In n (read_by_worker b cp gl) -> n <> "apot_table.sw_kappa" -> worker_globals val init b cp gl rootg n = rootg n.
Proof.
  intros val init rootg b cp gl Hc n I N. unfold worker_globals. destruct (existsb (String.eqb n) (sent b cp gl)) eqn:E; [reflexivity|].
  pose proof (known_all b cp gl) as K. unfold known in K. rewrite forallb_forall in K. specialize (K n I). rewrite existsb_app, E in K. cbn [orb existsb] in K.
  destruct (String.eqb_spec n "apot_table.sw_kappa") as [->|_]; [contradiction|]. destruct (String.eqb_spec n "compnodes") as [->|_]; [symmetry; exact Hc|discriminate].
Qed.

Lemma tails_ok : forall tail is_root sw kappa0 kappa r old, (sw = true -> kappa = kappa0) ->
  process_tail tail is_root sw kappa0 kappa r old = tail r kappa /\ init_force_defined is_root sw = true.
Proof.
  intros tail is_root sw kappa0 kappa r old H. unfold process_tail, used_tail, stored_tail, worker_sw, init_force_defined.
  destruct is_root, sw; cbn; (split; [|reflexivity]); try reflexivity. rewrite (H eq_refl). reflexivity.
Qed.

Lemma scatter_ok : forall (A : Type) ncpu inconf shares, (1 <= ncpu)%Z -> (forall n, In n inconf -> (0 <= n)%Z) -> distribute ncpu inconf = MpiOk shares ->
  forall p s, nth_error shares p = Some s -> forall (l : list A) c, length l = length inconf -> computes s c ->
  (0 <= first_conf s)%Z /\ nth_error (scatterv (Z.to_nat (first_conf s)) (Z.to_nat (my_conf s)) l) (c - Z.to_nat (first_conf s)) = nth_error l c.
Proof.
  intros A ncpu inconf shares Hn Hp D p s E l c Ll C.
  assert (F : (0 <= first_conf s)%Z).
  { unfold distribute in D. destruct (ncpu =? 1)%Z; [discriminate|]. destruct (ncpu >? _)%Z; [discriminate|].
    injection D as D. subst shares. rewrite nth_error_map in E. destruct (nth_error (seq 0 (Z.to_nat ncpu)) p) as [q|]; [|discriminate]. cbn [option_map] in E.
    injection E as E. subst s. cbn [first_conf]. pose proof (conf_dist_mono ncpu (Z.of_nat (length inconf)) Hn ltac:(lia) 0%Z (Z.of_nat q) ltac:(lia)) as M.
    rewrite conf_dist_0 in M by lia. exact M. }
  split; [exact F|]. unfold computes in C. unfold scatterv. rewrite nth_error_firstn_lt by lia. rewrite nth_error_skipn_add. f_equal. lia.
Qed.
