(** C166: start of KIM models and their own parameters. *)
From Coq Require Import Reals List Arith Lia Lra.
From Verif Require Import KiniModel KiniSpec KiniProof.
Import ListNotations.
Local Open Scope R_scope.

(** The program goes on exactly for the answers described by [acceptable]. *)
Theorem C166_accepted : forall name (l : library name), acceptable l <-> exists k, init_kim_model l = Some k.
Proof. exact @accepted. Qed.
Print Assumptions C166_accepted.
(** The species are those the model supports, in their order. *)
Theorem C166_species : forall name (l : library name) k, init_kim_model l = Some k ->
  l_extension l = Some (k_extension k) /\ l_write l = Some (k_write k) /\
  k_species k = flat_map (fun x => match x with Some (n, Some true) => [n] | _ => [] end) (l_species l).
Proof. exact @species_supported. Qed.
Print Assumptions C166_species.
(** With default parameters every value of the model has its place in the table of the
    potential; all of them are free. *)
Theorem C166_defaults : forall name (l : library name) k, init_kim_model l = Some k ->
  length (defaults k) = k_total k /\
  fst (default_table k) = map (fun p => fst (fst p)) (defaults k) /\ snd (default_table k) = seq 0 (k_total k) /\
  forall i q j r, nth_error (l_params l) i = Some (Some q) -> (j < p_extent q)%nat -> p_get q j = Some r ->
    nth_error (defaults k) (offset (l_params l) i + j) = Some (r, r, r).
Proof. exact @default_values. Qed.
Print Assumptions C166_defaults.
Example C166_ex : exists k, init_kim_model broken = Some k /\ k_species k = [7%nat] /\ k_total k = 2%nat /\
  nth_error (defaults k) 0 = Some (5, 5, 5).
Proof. eexists. repeat (split; [reflexivity|]). reflexivity. Qed.
(** The free default parameters have no room: both limits are the value. *)
Theorem C166_no_room : forall name (k : kim name) v a b, In (v, a, b) (defaults k) -> a = v /\ b = v.
Proof. exact @default_range. Qed.
Print Assumptions C166_no_room.
Example C166_no_room_ex : exists k, init_kim_model broken = Some k /\ In (5, 5, 5) (defaults k).
Proof. eexists. split; [reflexivity|]. left. reflexivity. Qed.
(** A value that cannot be read from the model is 0, without an error. *)
Theorem C166_value_refuted : exists (l : library nat) q k, nth_error (l_params l) 0 = Some (Some q) /\ (1 < p_extent q)%nat /\ p_get q 1 = None /\
  init_kim_model l = Some k /\ nth_error (defaults k) 1 = Some (0, 0, 0).
Proof.
  exact (match broken_taken with ex_intro _ k (conj a b) =>
    ex_intro _ broken (ex_intro _ _ (ex_intro _ k (conj eq_refl (conj (le_n 2) (conj eq_refl (conj a b)))))) end).
Qed.
Print Assumptions C166_value_refuted.
