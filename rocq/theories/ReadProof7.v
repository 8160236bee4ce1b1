(** Concrete files. *)
From Coq Require Import ZArith List Bool Ascii String QArith Qcanon Arith Lia.
From Verif Require Import ParamsModel LinesModel ReadModel ReadSpec ReadProof ReadProof2 ReadProof3 ReadProof4 ReadProof5 ReadProof6.
Import ListNotations.
Local Open Scope nat_scope.

(** numbers without a fraction *)
Definition qz (z : Z) : Qc := Q2Qc (inject_Z z).
Definition scan_i (t : text) : option (Qc * text) := match scan_d t with Some (z, r) => Some (qz z, r) | None => None end.
Definition atoi_c (t : text) : Z := match scan_d t with Some (z, _) => z | None => 0%Z end.
(** one digit *)
Definition pd1 (z : Z) : text := [ascii_of_nat (48 + Z.to_nat z)].
Definition pf1 (q : Qc) : text := pd1 (Qnum (this q)).
Definition num1 (i : nat) : text := pd1 (Z.of_nat i).

Lemma scan_i_skip : forall t, scan_i (" "%char :: t) = scan_i t.
Proof. reflexivity. Qed.
Lemma scan_i_suf : forall t q r, scan_i t = Some (q, r) -> suffix r t.
Proof.
  intros t q r H. unfold scan_i in H. destruct (scan_d t) as [[z s]|] eqn:E; [|discriminate]. injection H as <- <-.
  exact (scan_d_suf t z s E).
Qed.

(** a reading with two types, no scaling, at least two atoms, build with stresses *)
Definition rd (t : text) : res glob := read_config scan_i atoi_c 2 (qz 1) 2 true false num1 t.
Definition body : list text := map txt ["#X 9 0 0"; "#Y 0 9 0"; "#Z 0 0 9"; "#E 5"; "#F"; "0 0 0 0 0 0 0"; "1 2 2 2 0 0 1"]%string.
Definition good : text := unlines (txt "#N 2 1" :: body).

(** the second "#N" is indented *)
Definition indented : text := unlines (txt "#N 2 1" :: body ++ txt " #N 2 1" :: body).
Lemma indented_oob : rd indented = Oob.
Proof. vm_compute. reflexivity. Qed.
(** a file cut off behind "#N 2 1" *)
Definition cut_off : text := unlines (txt "#N 2 1" :: body) ++ txt "#N 2 1".
Lemma cut_off_oob : rd cut_off = Oob.
Proof. vm_compute. reflexivity. Qed.
(** a "#N" with a negative number in a header *)
Definition negative : text := unlines (txt "#N 2 1" :: txt "#N -1 1" :: body).
Lemma negative_oob : rd negative = Oob.
Proof. vm_compute. reflexivity. Qed.

Definition upper_file : text :=
  unlines (map txt ["#N 2 1"; "#X 9 0 0"; "#Y 0 9 0"; "#Z 0 0 9"; "#E 5"; "#F"; "0 0 0 0 0 0 0"; "1 2 2 2 0 0 1";
                    "#N 2 0"; "#X 8 0 0"; "#Y 0 8 0"; "#Z 0 0 8"; "#E 7"; "#F"; "1 1 1 1 0 0 3"; "1 2 2 2 0 0 4"]%string).
(** the first F in lower case *)
Definition lower_file : text :=
  unlines (map txt ["#N 2 1"; "#x 9 0 0"; "#y 0 9 0"; "#z 0 0 9"; "#e 5"; "#f"; "0 0 0 0 0 0 0"; "1 2 2 2 0 0 1";
                    "#N 2 0"; "#X 8 0 0"; "#Y 0 8 0"; "#Z 0 0 8"; "#E 7"; "#F"; "1 1 1 1 0 0 3"; "1 2 2 2 0 0 4"]%string).
Definition view (r : res glob) : res (nat * Z * list Z * Z * Q) :=
  match r with
  | Ok g => Ok (nconf g, useforce g 0, map (fun k => a_type (atoms g k)) (seq 0 (natoms g)), na_type g (nconf g) 0%Z, this (coheng g 0))
  | Err e => Err e | Oob => Oob | Loop => Loop
  end.
Lemma upper_view : view (rd upper_file) = Ok (2, 1%Z, [0; 1; 1; 1]%Z, 1%Z, 5%Q).
Proof. vm_compute. reflexivity. Qed.
Lemma lower_view : view (rd lower_file) = Ok (1, 1%Z, [1; 1]%Z, 0%Z, 7%Q).
Proof. vm_compute. reflexivity. Qed.

(** a line of a header without # *)
Definition noise_file : text := unlines (map txt ["#N 2 1"; "#X 9 0 0"; "#Y 0 9 0"; "#Z 0 0 9"; "#E 5"; "DEF 3"; "#F"; "0 0 0 0 0 0 0"; "1 2 2 2 0 0 1"]%string).
Lemma noise_view : view (rd noise_file) = Ok (1, 1%Z, [0; 1]%Z, 1%Z, 3%Q).
Proof. vm_compute. reflexivity. Qed.
Lemma good_view : view (rd good) = Ok (1, 1%Z, [0; 1]%Z, 1%Z, 5%Q).
Proof. vm_compute. reflexivity. Qed.
(** a comment behind the last configuration, with and without line end *)
Lemma comment_eof : rd (good ++ txt "# end" ++ [LF]) = Err EEof.
Proof. vm_compute. reflexivity. Qed.
Lemma comment_ok : view (rd (good ++ txt "# end")) = Ok (1, 1%Z, [0; 1]%Z, 1%Z, 5%Q).
Proof. vm_compute. reflexivity. Qed.

(** names *)
Definition two_long : list text := map txt ["#C ABCDEFGHIJKLMNO"; "#C ABCDEFGHIJKLMNO"]%string.
Lemma two_long_err : chem_all atoi_c 2 two_long num1 0 = Err EElement.
Proof. vm_compute. reflexivity. Qed.
Definition numeric : list text := map txt ["#C A"; "#C A 1 2b"; "#C A 1 X"]%string.
Definition names_view (r : res ((nat -> text) * nat)) : res (list text) := match r with Ok (el, _) => Ok (map el (seq 0 3)) | Err e => Err e | Oob => Oob | Loop => Loop end.
Lemma numeric_ok : names_view (chem_all atoi_c 3 numeric num1 0) = Ok (map txt ["A"; "1"; "X"]%string).
Proof. vm_compute. reflexivity. Qed.

(** the file [good] in the format of ReadSpec.v *)
Definition good_cfg : cfg :=
  Cfg [txt "first"] 1 [HX (qz 9, qz 0, qz 0); HCom (txt " box"); HZ (qz 0, qz 0, qz 9); HE (qz 4); HY (qz 0, qz 9, qz 0); HW (qz 3); HE (qz 5);
                       HS [qz 1; qz 2; qz 3; qz 4; qz 5; qz 6]]
      [(0%Z, (qz 0, qz 0, qz 0), (qz 0, qz 0, qz 0)); (1%Z, (qz 2, qz 2, qz 2), (qz 0, qz 0, qz 1))].
Lemma pf1_reads : forall z, In z [0; 1; 2; 3; 4; 5; 6; 9]%Z -> reads_f scan_i pf1 (qz z).
Proof.
  intros z I. repeat (destruct I as [<-|I]; [split; [split; intros [H|[]]; discriminate H|];
    intros r S; destruct r as [|c r]; [reflexivity|destruct S as [-> | ->]; reflexivity]|]). destruct I.
Qed.
Lemma pd1_reads : forall z, In z [0; 1; 2]%Z -> reads_d pd1 z.
Proof.
  intros z I. repeat (destruct I as [<-|I]; [split; [split; intros [H|[]]; discriminate H|]; split; [intros c [<-|[]]; discriminate|]; split; [discriminate|];
    intros r S; destruct r as [|c r]; [reflexivity|destruct S as [-> | ->]; reflexivity]|]). destruct I.
Qed.
Lemma good_cfg_ok : cfg_ok scan_i 2 2 pd1 pf1 good_cfg.
Proof.
  assert (FT : forall l, Nat.ltb (List.length l) LINE = true -> fits l) by (intros l H; apply Nat.ltb_lt; exact H).
  assert (Q : forall z, In z [0; 1; 2; 3; 4; 5; 6; 9]%Z -> reads_f scan_i pf1 (qz z)) by exact pf1_reads.
  assert (D : forall z, In z [0; 1; 2]%Z -> reads_d pd1 z) by exact pd1_reads.
  unfold cfg_ok. cbn [good_cfg f_pre f_use f_hdr f_atoms].
  split; [constructor; [|constructor]; split; [noc|apply FT; reflexivity]|].
  split; [apply D; cbn; tauto|]. split; [apply D; cbn; tauto|]. split; [apply FT; reflexivity|].
  split.
  { unfold hdr_ok. repeat (apply Forall_cons; [split; [cbn [item_ok vl]|apply FT; reflexivity]|]); [..|apply Forall_nil].
    1,3,5: repeat (apply Forall_cons; [apply Q; cbn; tauto|]); apply Forall_nil.
    - noc.
    - apply Q; cbn; tauto.
    - split; [apply Q; cbn; tauto|discriminate].
    - apply Q; cbn; tauto.
    - split; [reflexivity|]. repeat (apply Forall_cons; [apply Q; cbn; tauto|]); apply Forall_nil. }
  split; [discriminate|]. split; [discriminate|]. split; [discriminate|]. split; [discriminate|].
  split; [|cbn; lia].
  repeat (apply Forall_cons; [split; [split; [apply D; cbn; tauto|split; [cbn [vl app]|cbn; lia]]|apply FT; reflexivity]|]); [..|apply Forall_nil].
  all: repeat (apply Forall_cons; [apply Q; cbn; tauto|]); apply Forall_nil.
Qed.
