(** Main routine of uncertainty quantification: C150, C151, C152. *)
From Coq Require Import Reals List Arith ZArith Lra Lia.
From Verif Require Import UqModel UqSpec EigModel EigSpec EigProof EigProof2 EigProof3.
Import ListNotations.
Open Scope R_scope.

(** C150.  The Hessian is calculated at most ten times: [d] are the steps of the difference
    scheme.  The matrix handed on belongs to the last of a chain of better fits, around which
    no better fit (of a cost below 10^12) was seen; or ten better fits were found and the
    program stops. *)
Theorem C150_hessians : forall n cost (pertf : vec -> R -> vec) d,
  (forall x c k, x k = 0 -> d x c k = pertf x c k) ->
  (forall x c k, x k <> 0 -> d x c k = pertf x c k * x k) ->
  forall h0 x c,
  (exists H x' c' k, hessians n cost pertf 11 h0 x c = HDone H x' c' (S k) /\ (k < 10)%nat /\
     chain n cost d k x c x' c' /\ (k = 0%nat -> x' = x /\ c' = c) /\ ((0 < k)%nat -> c' = cost x' /\ c' < c) /\
     second_differences n cost c' (d x' c') x' H /\
     forall y, one_step n (d x' c') x' y \/ opposite_steps n (d x' c') x' y -> cost y < c' -> 10 ^ 12 <= cost y) \/
  (exists x' c', hessians n cost pertf 11 h0 x c = HTooMany x' c' /\ chain n cost d 10 x c x' c').
Proof. exact hessians_spec. Qed.
Print Assumptions C150_hessians.
Example C150_ex : exists y,
  chain 1 (fun y => y 0%nat * y 0%nat) (fun _ _ _ => 1) 1 (fun _ => 1) 1 y (y 0%nat * y 0%nat) /\ y 0%nat = 0.
Proof. exact ex_chain. Qed.

(** C151.  The search for eigenvalues ends for all results of the library. *)
Theorem C151_ends : forall n syevx gesvd use_svd h v0 w0, eigen n syevx gesvd use_svd 13 h v0 w0 <> ENoEnd.
Proof. exact eigen_ends. Qed.
Print Assumptions C151_ends.
(** When dsyevx converges, one round gives eigenvalues and (as rows) orthonormal eigenvectors. *)
Theorem C151_eigenvectors : forall n syevx gesvd use_svd h v0 w0, (0 < n)%nat -> use_svd <> 1%Z -> symmetric n h ->
  syevx_contract n h (sy_a (syevx h)) (sy_z (syevx h)) (sy_w (syevx h)) (sy_m (syevx h)) (sy_info (syevx h)) ->
  sy_info (syevx h) = 0%Z ->
  exists v w, eigen n syevx gesvd use_svd 13 h v0 w0 = EDone v w 1 /\ eigenpairs n h v w.
Proof. exact eigen_first. Qed.
Print Assumptions C151_eigenvectors.
Example C151_ex : eigenpairs 2 h23 unit2 (fun k => INR k + 2).
Proof. exact ex_pairs. Qed.
(** With use_svd: singular values, not negative, and singular vectors. *)
Theorem C151_svd : forall n syevx gesvd h v0 w0 v w k, (0 < n)%nat -> symmetric n h ->
  gesvd_contract n h (sv_u (gesvd h)) (sv_s (gesvd h)) (sv_info (gesvd h)) ->
  eigen n syevx gesvd 1 13 h v0 w0 = EDone v w k -> k = 1%nat /\ singular n h v w.
Proof. exact eigen_svd. Qed.
Print Assumptions C151_svd.
(** When dsyevx does not converge, it is called again with the matrix it has destroyed: the
    eigenvectors are those of the remains ... *)
Theorem C151_remains : forall n syevx gesvd use_svd h v0 w0, (0 < n)%nat -> use_svd <> 1%Z ->
  syevx_contract n h (sy_a (syevx h)) (sy_z (syevx h)) (sy_w (syevx h)) (sy_m (syevx h)) (sy_info (syevx h)) ->
  sy_info (syevx h) <> 0%Z ->
  let h2 := sy_a (syevx h) in
  syevx_contract n h2 (sy_a (syevx h2)) (sy_z (syevx h2)) (sy_w (syevx h2)) (sy_m (syevx h2)) (sy_info (syevx h2)) ->
  sy_info (syevx h2) = 0%Z ->
  exists v w, eigen n syevx gesvd use_svd 13 h v0 w0 = EDone v w 2 /\ eigenpairs n (lower h2) v w.
Proof. exact eigen_retry. Qed.
Print Assumptions C151_remains.
(** ... which are not those of the Hessian. *)
Theorem C151_second_attempt_refuted : exists syevx,
  (forall a, syevx_contract 2 a (sy_a (syevx a)) (sy_z (syevx a)) (sy_w (syevx a)) (sy_m (syevx a)) (sy_info (syevx a))) /\
  forall gesvd v0 w0, exists v w, eigen 2 syevx gesvd 0 13 h23 v0 w0 = EDone v w 2 /\
    symmetric 2 h23 /\ ~ eigenpairs 2 h23 v w.
Proof. exact (ex_intro _ careless (conj careless_ok careless_run)). Qed.
Print Assumptions C151_second_attempt_refuted.

(** C152.  A run that ends has acc_moves + 1 lines, the first for the best fit at which the
    Hessian was taken; every line has its own cost; the warnings are the negative eigenvalues;
    a file exists exactly for the members better than the best fit and for every
    write_ensemble-th one, with its parameters, and no number is used twice. *)
Theorem C152_run : forall n cost (pertf d : vec -> R -> vec),
  (forall x c k, x k = 0 -> d x c k = pertf x c k) ->
  (forall x c k, x k <> 0 -> d x c k = pertf x c k * x k) ->
  forall syevx gesvd resc temp em us we acc rs u fuel h0 v0 w0 x l pots neg, 0 <= em ->
  ensemble_generation n cost pertf syevx gesvd resc temp em us we acc rs u fuel h0 v0 w0 x (cost x) = Written l pots neg ->
  exists k H x' v w r, (k < 10)%nat /\ chain n cost d k x (cost x) x' (cost x') /\ cost x' <= cost x /\
    second_differences n cost (cost x') (d x' (cost x')) x' H /\
    eigen n syevx gesvd us 13 H v0 w0 = EDone v w r /\
    List.length l = S acc /\
    (exists wt at_ l', l = Line x' (cost x') wt at_ :: l') /\
    (forall y, In y l -> l_cost y = cost (l_x y)) /\
    (forall i, In i neg <-> (i < n)%nat /\ w i < 0) /\
    NoDup (map fst pots) /\
    (forall j y, In (j, y) pots <-> (1 <= j <= Z.of_nat acc)%Z /\
       y = l_x (nth (Z.to_nat j) l (Line x' 0 0 0)) /\
       (cost y < cost x' \/ (we <> 0 /\ exists q, j = q * we)%Z)).
Proof. exact run_spec. Qed.
Print Assumptions C152_run.
(** The only part that may not end is the search for an accepted move. *)
Theorem C152_ends : forall n cost (pertf d : vec -> R -> vec),
  (forall x c k, x k = 0 -> d x c k = pertf x c k) ->
  (forall x c k, x k <> 0 -> d x c k = pertf x c k * x k) ->
  forall syevx gesvd resc temp em us we acc rs u fuel h0 v0 w0 x c,
  ensemble_generation n cost pertf syevx gesvd resc temp em us we acc rs u fuel h0 v0 w0 x c = NoEnd ->
  exists H x' c' k v w r, hessians n cost pertf 11 h0 x c = HDone H x' c' k /\
    eigen n syevx gesvd us 13 H v0 w0 = EDone v w r /\
    ensemble n cost (if Req_EM_T em 0 then 1 else em) resc temp v c' rs u fuel acc x' w = None.
Proof. exact run_ends. Qed.
Print Assumptions C152_ends.
Example C152_ex : forall h0 v0 w0, exists l pots neg,
  ensemble_generation 1 (fun _ => 1) (fun _ _ _ => 1) one_by_one (fun a => SV a (fun _ => 0) a 1) 1 1 0 0 1 1
    (fun _ _ => 1) (fun _ => 0) 1 h0 v0 w0 (fun _ => 3) 1 = Written l pots neg.
Proof. exact ex_run. Qed.
