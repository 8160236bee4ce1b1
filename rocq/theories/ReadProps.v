(** Theorems about the reader of configuration files (src/config.c). *)
From Coq Require Import ZArith List Bool Ascii String QArith Qcanon Arith Lia.
From Verif Require Import ParamsModel LinesModel ReadModel ReadSpec ReadProof ReadProof2 ReadProof3 ReadProof4 ReadProof5 ReadProof6 ReadProof7.
Import ListNotations.
Local Open Scope nat_scope.

(** C115: a file in the documented format is read completely, and every value is stored for the
    configuration and atom it belongs to ([placed], ReadProof4.v); comment lines and the order
    of the header do not matter, the last of several lines of a kind counts. *)
Theorem C115_round_trip : forall scan_f atoi ntypes scale min_at stressb pd pf,
  (forall t, scan_f (" "%char :: t) = scan_f t) -> (0 < min_at)%Z ->
  forall fixed names cs, cs <> [] -> Forall (cfg_ok scan_f ntypes min_at pd pf) cs ->
  (exists c a, In c cs /\ In a (f_atoms c) /\ fst (fst a) = (Z.of_nat ntypes - 1)%Z) ->
  exists g, read_config scan_f atoi ntypes scale min_at stressb fixed names (file pd pf cs) = Ok g /\
    nconf g = List.length cs /\ natoms g = total cs /\ elements g = names /\
    (forall i c, nth_error cs i = Some c -> placed scale stressb i (offset cs i) c g) /\
    (forall z, na_type g (List.length cs) z = Z.of_nat (list_sum (map (of_type z) cs))) /\
    with_forces g = List.length (filter (fun c => negb (f_use c =? 0)%Z) cs) /\
    with_stresses g = List.length (filter (fun c => stressb && match last_of selS (f_hdr c) with Some _ => true | None => false end) cs).
Proof. exact round_trip. Qed.
Print Assumptions C115_round_trip.
Example C115_ex : Forall (cfg_ok scan_i 2 2 pd1 pf1) [good_cfg; good_cfg] /\
  (exists c a, In c [good_cfg; good_cfg] /\ In a (f_atoms c) /\ fst (fst a) = (Z.of_nat 2 - 1)%Z) /\
  view (rd (file pd1 pf1 [good_cfg; good_cfg])) = Ok (2, 1%Z, [0; 1; 0; 1]%Z, 2%Z, 5%Q).
Proof.
  split; [apply Forall_cons; [exact good_cfg_ok|apply Forall_cons; [exact good_cfg_ok|apply Forall_nil]]|]. split.
  - exists good_cfg. eexists. split; [left; reflexivity|]. split; [right; left; reflexivity|reflexivity].
  - vm_compute. reflexivity.
Qed.

(** C116: no write behind the arrays; refuted by an indented line "#N", by a file that ends
    with "#N 2 1" without line end, and by a negative number of atoms in a header. *)
Theorem C116_memory_partial : forall scan_f atoi ntypes scale min_at stressb,
  (forall t q r, scan_f t = Some (q, r) -> exists p, t = p ++ r) ->
  forall fixed names t, (0 <= min_at)%Z -> ~ In CR t ->
  (forall p s, t = p ++ txt "#N" ++ s -> p = [] \/ exists p', p = p' ++ [LF]) ->
  (exists t', t = t' ++ [LF]) ->
  (forall p s l r e n r', t = p ++ txt "#N" ++ s -> fgets (txt "#N" ++ s) = Some (l, r, e) ->
     scan_d (skipn 3 l) = Some (n, r') -> (0 <= n)%Z) ->
  read_config scan_f atoi ntypes scale min_at stressb fixed names t <> Oob /\
  read_config scan_f atoi ntypes scale min_at stressb fixed names t <> Loop.
Proof. exact safe. Qed.
Print Assumptions C116_memory_partial.
Theorem C116_memory_refuted :
  rd (unlines (txt "#N 2 1" :: body ++ txt " #N 2 1" :: body)) = Oob /\
  rd (unlines (txt "#N 2 1" :: body) ++ txt "#N 2 1") = Oob /\
  rd (unlines (txt "#N 2 1" :: txt "#N -1 1" :: body)) = Oob.
Proof. exact (conj indented_oob (conj cut_off_oob negative_oob)). Qed.
Print Assumptions C116_memory_refuted.

(** C117: upper and lower case mean the same; lines without # are ignored.  Refuted. *)
Theorem C117_case_refuted :
  view (rd upper_file) = Ok (2, 1%Z, [0; 1; 1; 1]%Z, 1%Z, 5%Q) /\ view (rd lower_file) = Ok (1, 1%Z, [1; 1]%Z, 0%Z, 7%Q).
Proof. exact (conj upper_view lower_view). Qed.
Print Assumptions C117_case_refuted.
Theorem C117_ignored_refuted : exists l, hd "#"%char l <> "#"%char /\
  view (rd good) = Ok (1, 1%Z, [0; 1]%Z, 1%Z, 5%Q) /\ In l (map txt ["#N 2 1"; "#X 9 0 0"; "#Y 0 9 0"; "#Z 0 0 9"; "#E 5"; "DEF 3"; "#F"]%string) /\
  view (rd noise_file) = Ok (1, 1%Z, [0; 1]%Z, 1%Z, 3%Q).
Proof. exists (txt "DEF 3"). split; [discriminate|]. split; [exact good_view|]. split; [cbn; tauto|exact noise_view]. Qed.
Print Assumptions C117_ignored_refuted.

(** C118: the names of the elements in all configurations agree; refuted for names that begin
    with a digit; equal names are accepted, refuted for names of more than 14 characters. *)
Theorem C118_agree_partial : forall atoi ntypes dnum, (forall i, atoi (dnum i) = Z.of_nat i) ->
  forall ls el nf, chem_all atoi ntypes ls dnum 0 = Ok (el, nf) ->
  (forall l w, In l ls -> In w (names_of l) -> atoi w = 0%Z) ->
  forall l k w, In l ls -> nth_error (names_of l) k = Some w -> k < ntypes -> el k = short w.
Proof. exact names_agree. Qed.
Print Assumptions C118_agree_partial.
Theorem C118_accepted_partial : forall atoi ntypes dnum, (forall i, atoi (dnum i) = Z.of_nat i) ->
  forall T ls, (forall l k w, In l ls -> nth_error (names_of l) k = Some w -> k < ntypes -> w = T k) ->
  (forall k, List.length (T k) <= 14) -> (forall k, atoi (T k) = 0%Z) ->
  exists el nf, chem_all atoi ntypes ls dnum 0 = Ok (el, nf).
Proof. exact names_accepted. Qed.
Print Assumptions C118_accepted_partial.
Theorem C118_names_refuted :
  names_view (chem_all atoi_c 3 (map txt ["#C A"; "#C A 1 2b"; "#C A 1 X"]%string) num1 0) = Ok (map txt ["A"; "1"; "X"]%string) /\
  chem_all atoi_c 2 (map txt ["#C ABCDEFGHIJKLMNO"; "#C ABCDEFGHIJKLMNO"]%string) num1 0 = Err EElement.
Proof. exact (conj numeric_ok two_long_err). Qed.
Print Assumptions C118_names_refuted.
Example C118_ex : names_view (chem_all atoi_c 3 (map txt ["#C Al"; "#C Al Ni Co"; "#C Al Ni"]%string) num1 0) = Ok (map txt ["Al"; "Ni"; "Co"]%string)
  /\ chem_all atoi_c 3 (map txt ["#C Al"; "#C Al Ni Co"; "#C Ni Al"]%string) num1 0 = Err EElement.
Proof. split; vm_compute; reflexivity. Qed.

(** C119: the vector of the reference data *)
Theorem C119_layout : forall stressb extra g d,
  let F := force_0 stressb extra g in let e := 3 * natoms g in let s := e + nconf g in
  let p := s + (if stressb then 6 * nconf g else 0) in
  List.length F = p + extra /\
  (forall a c, a < natoms g -> c < 3 -> nth (3 * a + c) F d = comp (a_force (atoms g a)) c) /\
  (forall i, i < nconf g -> nth (e + i) F d = coheng g i) /\
  (stressb = true -> forall i c, i < nconf g -> c < 6 -> nth (s + 6 * i + c) F d = if usestress g i then tcomp (stress g i) c else Q2Qc 0) /\
  (forall k, k < extra -> nth (p + k) F d = Q2Qc 0).
Proof. exact layout. Qed.
Print Assumptions C119_layout.
Example C119_ex : match rd (file pd1 pf1 [good_cfg]) with Ok g => map this (force_0 true 2 g) | _ => [] end
  = [0; 0; 0; 0; 0; 1; 5; 1; 2; 3; 4; 5; 6; 0; 0]%Q.
Proof. vm_compute. reflexivity. Qed.

(** C120: comment lines behind the last configuration are skipped.  Refuted. *)
Theorem C120_comment_refuted : view (rd good) = Ok (1, 1%Z, [0; 1]%Z, 1%Z, 5%Q) /\
  rd (good ++ txt "# end" ++ [LF]) = Err EEof /\ view (rd (good ++ txt "# end")) = Ok (1, 1%Z, [0; 1]%Z, 1%Z, 5%Q).
Proof. exact (conj good_view (conj comment_eof comment_ok)). Qed.
Print Assumptions C120_comment_refuted.
