(** Checks of a KIM model before a run: kim.c:136-215 (check_KIM_model_support) and 221-312
    (initialize_KIM).  What the KIM library answers (codes of the species, status of the
    arguments and callbacks, results of setting pointers) are arguments of the functions; the
    results of the enquiries themselves are taken to be without an error.  [None] is the end
    of the program by error(1, ...). *)
From Coq Require Import ZArith List Bool String.
Import ListNotations.

Inductive status := RequiredByAPI | Required | Optional | NotSupported.
(** compute arguments of the KIM API; the four inputs, the three results potfit knows, others *)
Inductive argument := Particles | Species | Contributing | Coordinates | Energy | Forces | Virial | OtherArg (n : nat).
Inductive callback := NeighborList | DEDr | D2EDr2 | OtherCall (n : nat).
(** answer for the name of an element: unknown name, known but not supported, code *)
Inductive species := Unknown | Unsupported | Code (z : Z).

Definition is_required (s : status) : bool := match s with Required => true | _ => false end.
Definition is_optional (s : status) : bool := match s with Optional => true | _ => false end.
Definition is_notsupported (s : status) : bool := match s with NotSupported => true | _ => false end.

(** 142-154 *)
Fixpoint species_map (answer : string -> species) (elements : list string) : option (list Z) :=
  match elements with
  | [] => Some []
  | e :: elements =>
      match answer e with
      | Code z => option_map (cons z) (species_map answer elements)
      | _ => None
      end
  end.

(** 157-172: useforce and usestress of each configuration; the loop is left early *)
Fixpoint used (stress : bool) (confs : list (bool * bool)) (use_forces use_stress : bool) : bool * bool :=
  match confs with
  | [] => (use_forces, use_stress)
  | (uf, us) :: confs =>
      let use_forces := if uf then true else use_forces in
      let use_stress := if (stress && us)%bool then true else use_stress in
      if (if stress then use_forces && use_stress else use_forces)%bool then (use_forces, use_stress)
      else used stress confs use_forces use_stress
  end.

(** 187-213: one argument, [true]: accepted *)
Definition argument_ok (stress use_forces use_stress : bool) (a : argument) (s : status) : bool :=
  match a with
  | Energy => negb (is_notsupported s)
  | Forces => if use_forces then negb (is_notsupported s) else negb (is_required s)
  | Virial => if (stress && use_stress)%bool then negb (is_notsupported s) else negb (is_required s)
  | _ => negb (is_required s)
  end.
(** 179-214 *)
Fixpoint arguments_ok (stress use_forces use_stress : bool) (l : list (argument * status)) : bool :=
  match l with
  | [] => true
  | (a, s) :: l => if argument_ok stress use_forces use_stress a s then arguments_ok stress use_forces use_stress l else false
  end.

(** 247-284: the callbacks whose pointers are set; [fails]: the library refuses a pointer *)
Fixpoint set_callbacks (fails : callback -> bool) (l : list (callback * status)) : option (list callback) :=
  match l with
  | [] => Some []
  | (c, s) :: l =>
      match c with
      | NeighborList => if fails c then None else option_map (cons c) (set_callbacks fails l)
      | DEDr | D2EDr2 =>
          if (is_required s || is_optional s)%bool
          then if fails c then None else option_map (cons c) (set_callbacks fails l)
          else set_callbacks fails l
      | OtherCall _ => if is_required s then None else set_callbacks fails l
      end
  end.

(** 286-308: pointers of the arguments, for every configuration *)
Definition pointers : list argument := [Particles; Species; Contributing; Coordinates; Forces].

(** one configuration: callbacks set, and its number in the helper (302) *)
Definition prepare (refuses : argument -> bool) (fails : callback -> bool) (calls : list (callback * status))
    (i : nat) : option (nat * list callback) :=
  match set_callbacks fails calls with
  | None => None
  | Some cs => if existsb refuses pointers then None else Some (i, cs)
  end.
Fixpoint prepare_all (refuses : argument -> bool) (fails : callback -> bool) (calls : list (callback * status))
    (todo i : nat) : option (list (nat * list callback)) :=
  match todo with
  | O => Some []
  | S todo =>
      match prepare refuses fails calls i with
      | None => None
      | Some h => option_map (cons h) (prepare_all refuses fails calls todo (S i))
      end
  end.

(** 221-312: map of the species and the callbacks of each configuration.  The checks are made
    with the first configuration. *)
Definition initialize_KIM (stress : bool) (answer : string -> species) (elements : list string)
    (confs : list (bool * bool)) (args : list (argument * status)) (calls : list (callback * status))
    (refuses : argument -> bool) (fails : callback -> bool) : option (list Z * list (nat * list callback)) :=
  match confs with
  | [] => Some ([], [])
  | _ =>
      match species_map answer elements with
      | None => None
      | Some m =>
          let '(f, s) := used stress confs false false in
          if arguments_ok stress f s args
          then option_map (fun h => (m, h)) (prepare_all refuses fails calls (List.length confs) 0)
          else None
      end
  end.

(** ** Codes of the atoms: init_neighbors_kim, config.c:967-987, 1018, 1063.
    The map of the species, -1 at first, is completed for each configuration with the names
    known at that time ([fixed] of them); [known]: code of a name that the model supports. *)
Definition complete (known : string -> option Z) (fixed : nat) (elements : nat -> string) (m : nat -> Z) : nat -> Z :=
  fun i => if (Nat.ltb i fixed && (m i =? -1)%Z)%bool
           then match known (elements i) with Some z => z | None => (-1)%Z end
           else m i.
Record kconf := KConf { kc_fixed : nat; kc_elements : nat -> string; kc_types : list nat }.
(** species_codes of each configuration (real atoms; a padding atom has the type of its source) *)
Fixpoint codes (known : string -> option Z) (confs : list kconf) (m : nat -> Z) : list (list Z) :=
  match confs with
  | [] => []
  | c :: confs => let m := complete known (kc_fixed c) (kc_elements c) m in map m (kc_types c) :: codes known confs m
  end.
