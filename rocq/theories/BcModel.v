(** What the processes of a parallel run receive from the root process at the start:
    src/mpi_utils.c create_custom_datatypes 198-461, broadcast_basic_data 467-511,
    broadcast_calcpot_table 517-556, broadcast_apot_table 562-686, the scattered arrays of
    broadcast_configurations 744-766, broadcast_atoms 775-790, broadcast_neighbors 796-825
    and broadcast_angles 831-868; src/potfit.c 96-112, 246-259.

    MPI is modelled by its meaning: MPI_Bcast delivers the bytes of the root process that the
    datatype describes, MPI_Scatterv delivers a slice of an array.  Errors of MPI itself and
    KIM builds are left out. *)
From Coq Require Import String List Arith Bool ZArith Reals.
Import ListNotations.
Open Scope string_scope.

(** ** Builds: wscript 54-108 *)
Inductive inter := IPair | IAdp | IAng | IAngEl | ICoulomb | IDipole | IEam | IEamCoul | IEamDip | IMeam | IStiweb
  | ITbeam | ITersoff | ITersoffmod.
Record build := mk_build { b_inter : inter; b_apot : bool; b_contrib : bool; b_stress : bool }.

Definition dPAIR b := match b_inter b with IPair => true | _ => false end.
Definition dADP b := match b_inter b with IAdp => true | _ => false end.
Definition dANG b := match b_inter b with IAng | IAngEl => true | _ => false end.
Definition dCOULOMB b := match b_inter b with IAngEl | ICoulomb | IDipole | IEamCoul | IEamDip => true | _ => false end.
Definition dDIPOLE b := match b_inter b with IDipole | IEamDip => true | _ => false end.
Definition dEAM b := match b_inter b with IEam | IEamCoul | IEamDip | ITbeam => true | _ => false end.
Definition dTBEAM b := match b_inter b with ITbeam => true | _ => false end.
Definition dMEAM b := match b_inter b with IMeam => true | _ => false end.
Definition dSTIWEB b := match b_inter b with IStiweb => true | _ => false end.
Definition dTERSOFF b := match b_inter b with ITersoff | ITersoffmod => true | _ => false end.
(** src/defines.h:38 *)
Definition dTHREEBODY b := dMEAM b || dSTIWEB b || dTERSOFF b || dANG b.
(** src/defines.h:102-117 *)
Definition SLOTS b : nat :=
  if dADP b then 4 else if dTBEAM b || dMEAM b then 3 else if dEAM b || dSTIWEB b || dANG b then 2 else 1.

(** #if *)
Definition on {A} (c : bool) (l : list A) : list A := if c then l else [].

(** ** Structures: src/types.h *)
Inductive ctype := Int | Double | Vector | Stens | Pointer.
Definition csize (t : ctype) : nat := match t with Int => 4 | Double => 8 | Vector => 24 | Stens => 48 | Pointer => 8 end.

(** a member: name, type, number of elements *)
Record field := mk_field { f_name : string; f_type : ctype; f_count : nat }.
Definition one (n : string) (t : ctype) : field := mk_field n t 1.
Definition f_bytes (f : field) : nat := csize (f_type f) * f_count f.

(** types.h:71-112 *)
Definition neigh_t b : list field :=
  [one "type" Int; one "nr" Int; one "r" Double; one "r2" Double; one "inv_r" Double; one "dist" Vector; one "dist_r" Vector;
   mk_field "slot" Int (SLOTS b); mk_field "shift" Double (SLOTS b); mk_field "step" Double (SLOTS b); mk_field "col" Int (SLOTS b)] ++
  on (dADP b) [one "sqrdist" Stens; one "u_val" Double; one "u_grad" Double; one "w_val" Double; one "w_grad" Double] ++
  on (dCOULOMB b) [one "fnval_el" Double; one "grad_el" Double; one "ggrad_el" Double] ++
  on (dTHREEBODY b) [one "f" Double; one "df" Double; one "ijk_start" Int] ++
  on (dMEAM b) [one "drho" Double] ++
  on (dTERSOFF b) [one "dzeta" Vector].

(** types.h:117-129 *)
Definition angle_t b : list field :=
  [one "cos" Double] ++ on (dANG b) [one "theta" Double] ++
  on (dMEAM b || dANG b) [one "slot" Int; one "shift" Double; one "step" Double; one "g" Double; one "dg" Double].

(** types.h:190-240; lambda of ADP is a tensor *)
Definition atom_t b : list field :=
  [one "type" Int; one "num_neigh" Int; one "pos" Vector; one "force" Vector; one "absforce" Double; one "conf" Int] ++
  on (b_contrib b) [one "contrib" Int] ++
  on (dEAM b || dADP b || dMEAM b) ([one "rho" Double; one "gradF" Double] ++ on (dTBEAM b) [one "rho_s" Double; one "gradF_s" Double]) ++
  on (dADP b) [one "mu" Vector; one "lambda" Stens; one "nu" Double] ++
  on (dDIPOLE b) [one "E_stat" Vector; one "p_sr" Vector; one "E_ind" Vector; one "p_ind" Vector; one "E_old" Vector; one "E_tot" Vector] ++
  on (dTHREEBODY b) ([one "num_angles" Int] ++ on (dMEAM b) [one "rho_eam" Double]) ++
  [one "neigh" Pointer] ++ on (dTHREEBODY b) [one "angle_part" Pointer].

(** ** create_custom_datatypes: the array of types and lengths, and the array of addresses *)
(** 221-253 *)
Definition neigh_items b : list (nat * ctype) :=
  [(1, Int); (1, Int); (1, Double); (1, Double); (1, Double); (1, Vector); (1, Vector);
   (SLOTS b, Int); (SLOTS b, Double); (SLOTS b, Double); (SLOTS b, Int)]%nat ++
  on (dADP b) [(1, Stens); (1, Double); (1, Double); (1, Double); (1, Double)]%nat ++
  on (dCOULOMB b) [(1, Double); (1, Double); (1, Double)]%nat ++
  on (dTHREEBODY b) [(1, Double); (1, Double); (1, Int)]%nat ++
  on (dMEAM b) [(1, Double)]%nat ++
  on (dTERSOFF b) [(1, Vector)]%nat.
(** 255-289 *)
Definition neigh_addr b : list string :=
  ["type"; "nr"; "r"; "r2"; "inv_r"; "dist"; "dist_r"; "slot"; "shift"; "step"; "col"] ++
  on (dADP b) ["sqrdist"; "u_val"; "u_grad"; "w_val"; "w_grad"] ++
  on (dCOULOMB b) ["fnval_el"; "grad_el"; "ggrad_el"] ++
  on (dTHREEBODY b) ["f"; "df"; "ijk_start"] ++
  on (dMEAM b) ["drho"] ++
  on (dTERSOFF b) ["dzeta"].
(** 317-328 *)
Definition angle_items b : list (nat * ctype) :=
  [(1, Double)]%nat ++ on (dANG b) [(1, Double)]%nat ++
  on (dMEAM b || dANG b) [(1, Int); (1, Double); (1, Double); (1, Double); (1, Double)]%nat.
(** 330-340 *)
Definition angle_addr b : list string :=
  ["cos"] ++ on (dANG b) ["theta"] ++ on (dMEAM b || dANG b) ["slot"; "shift"; "step"; "g"; "dg"].
(** 369-401 *)
Definition atom_items b : list (nat * ctype) :=
  [(1, Int); (1, Int); (1, Vector); (1, Vector); (1, Double); (1, Int)]%nat ++
  on (b_contrib b) [(1, Int)]%nat ++
  on (dEAM b || dADP b || dMEAM b) [(1, Double); (1, Double)]%nat ++
  on (dADP b) [(1, Vector); (1, Stens); (1, Double)]%nat ++
  on (dDIPOLE b) [(1, Vector); (1, Vector); (1, Vector); (1, Vector); (1, Vector); (1, Vector)]%nat ++
  on (dTHREEBODY b) ([(1, Int)]%nat ++ on (dMEAM b) [(1, Double)]%nat).
(** 406-437 *)
Definition atom_addr b : list string :=
  ["type"; "num_neigh"; "pos"; "force"; "absforce"; "conf"] ++
  on (b_contrib b) ["contrib"] ++
  on (dEAM b || dADP b || dMEAM b) ["rho"; "gradF"] ++
  on (dADP b) ["mu"; "lambda"; "nu"] ++
  on (dDIPOLE b) ["E_stat"; "p_sr"; "E_ind"; "p_ind"; "E_old"; "E_tot"] ++
  on (dTHREEBODY b) (["num_angles"] ++ on (dMEAM b) ["rho_eam"]).

(** 203 *)
Definition MAX_MPI_COMPONENTS : nat := 20.

(** A datatype: blocks of bytes at the start of members.  The arrays have
    MAX_MPI_COMPONENTS elements (more is undefined); different sizes end the run (291-296). *)
Inductive result (A : Type) := Ok (a : A) | Exit | Undef.
Arguments Ok {A}. Arguments Exit {A}. Arguments Undef {A}.
Definition datatype := list (string * nat).
Definition create (items : list (nat * ctype)) (addr : list string) : result datatype :=
  if (MAX_MPI_COMPONENTS <? length items)%nat || (MAX_MPI_COMPONENTS <? length addr)%nat then Undef
  else if negb (length items =? length addr)%nat then Exit
  else Ok (combine addr (map (fun it => csize (snd it) * fst it)%nat items)).

(** ** Memory of a structure *)
Section Copy.
Variable byte : Type.
Definition mem := string -> nat -> byte.

(** a block has to stay inside its member *)
Definition member_bytes (fs : list field) (n : string) : option nat :=
  match find (fun f => String.eqb (f_name f) n) fs with Some f => Some (f_bytes f) | None => None end.
Definition block_ok (fs : list field) (blk : string * nat) : bool :=
  match member_bytes fs (fst blk) with Some s => (snd blk <=? s)%nat | None => false end.
Definition put_block (src dst : mem) (blk : string * nat) : mem :=
  fun n k => if String.eqb n (fst blk) && (k <? snd blk)%nat then src n k else dst n k.
(** MPI_Bcast of one element: the bytes of the root process [src] in the memory [dst] *)
Definition bcast (fs : list field) (dt : datatype) (src dst : mem) : option mem :=
  if forallb (block_ok fs) dt then Some (fold_left (put_block src) dt dst) else None.

(** ** Atoms of a process *)
Record atom := mk_atom { a_mem : mem; a_neigh : list mem; a_angle : list mem }.
(** conf_atoms: the memory of the structure and the two arrays if they were made here *)
Record catom := mk_catom { c_mem : mem; c_neigh : option (list mem); c_angle : option (list mem) }.

Variable b : build.
Variable root : bool.                 (* g_mpi.myid == 0 *)
Variables first my : nat.             (* firstatom, myatoms *)
Variable zero : byte.
Definition zeros : mem := fun _ _ => zero.
Definition mine (i : nat) : bool := (first <=? i)%nat && (i <? first + my)%nat.

(** receive one structure into the local variable: 784-786, 817-819, 860-862 *)
Definition receive (fs : list field) (dt : datatype) (src loc : mem) : option mem :=
  if root then Some src else bcast fs dt src loc.

Fixpoint set_nth {A} (l : list A) (k : nat) (x : A) : list A :=
  match l, k with [], _ => [] | _ :: r, O => x :: r | y :: r, S k' => y :: set_nth r k' x end.

(** 775-790: conf_atoms starts as zeros (Malloc) *)
Fixpoint bc_atoms (dt : datatype) (i : nat) (l : list atom) (loc : mem) (conf : list catom) : option (list catom) :=
  match l with
  | [] => Some conf
  | a :: r =>
      match receive (atom_t b) dt (a_mem a) loc with
      | None => None
      | Some loc' => bc_atoms dt (S i) r loc' (if mine i then set_nth conf (i - first) (mk_catom loc' None None) else conf)
      end
  end.
Definition broadcast_atoms (dt : datatype) (l : list atom) (loc : mem) : option (list catom) :=
  bc_atoms dt 0 l loc (repeat (mk_catom zeros None None) my).

(** the inner loop 815-822, 858-865: [arr] is the array made before, [keep] tells whether the
    atom belongs to this process *)
Fixpoint bc_list (fs : list field) (dt : datatype) (keep : bool) (j : nat) (l : list mem) (loc : mem) (arr : list mem)
  : option (mem * list mem) :=
  match l with
  | [] => Some (loc, arr)
  | x :: r =>
      match receive fs dt x loc with
      | None => None
      | Some loc' => bc_list fs dt keep (S j) r loc' (if keep then set_nth arr j loc' else arr)
      end
  end.

Definition upd_neigh (arr : list mem) (c : catom) : catom := mk_catom (c_mem c) (Some arr) (c_angle c).
Definition upd_angle (arr : list mem) (c : catom) : catom := mk_catom (c_mem c) (c_neigh c) (Some arr).
Definition upd_nth (f : catom -> catom) (conf : list catom) (k : nat) : list catom :=
  match nth_error conf k with Some c => set_nth conf k (f c) | None => conf end.

(** 796-825 *)
Fixpoint bc_neigh (dt : datatype) (i : nat) (l : list atom) (loc : mem) (conf : list catom) : option (list catom) :=
  match l with
  | [] => Some conf
  | a :: r =>
      let num := length (a_neigh a) in
      match bc_list (neigh_t b) dt (mine i) 0 (a_neigh a) loc (repeat zeros num) with
      | None => None
      | Some (loc', arr) =>
          bc_neigh dt (S i) r loc' (if (0 <? num)%nat && mine i then upd_nth (upd_neigh arr) conf (i - first) else conf)
      end
  end.
Definition broadcast_neighbors (dt : datatype) (l : list atom) (conf : list catom) : option (list catom) :=
  bc_neigh dt 0 l zeros conf.

(** 831-868; Malloc of zero bytes is an error (memory.c:70-77) *)
Fixpoint bc_angle (dt : datatype) (i : nat) (l : list atom) (loc : mem) (conf : list catom) : result (list catom) :=
  match l with
  | [] => Ok conf
  | a :: r =>
      let num := length (a_angle a) in
      if dANG b && (num =? 0)%nat then bc_angle dt (S i) r loc conf
      else if mine i && (num =? 0)%nat then Exit
      else
        match bc_list (angle_t b) dt (mine i) 0 (a_angle a) loc (repeat zeros num) with
        | None => Undef
        | Some (loc', arr) => bc_angle dt (S i) r loc' (if mine i then upd_nth (upd_angle arr) conf (i - first) else conf)
        end
  end.
Definition broadcast_angles (dt : datatype) (l : list atom) (conf : list catom) : result (list catom) :=
  if dTHREEBODY b then bc_angle dt 0 l zeros conf else Ok conf.

(** broadcast_params_mpi 136, 141-143; [loc] is the uninitialised variable of 777 *)
Definition local_atoms (l : list atom) (loc : mem) : result (list catom) :=
  match create (neigh_items b) (neigh_addr b), (if dTHREEBODY b then create (angle_items b) (angle_addr b) else Ok []),
        create (atom_items b) (atom_addr b) with
  | Ok dn, Ok dg, Ok da =>
      match broadcast_atoms da l loc with
      | None => Undef
      | Some conf =>
          match broadcast_neighbors dn l conf with
          | None => Undef
          | Some conf' => broadcast_angles dg l conf'
          end
      end
  | Undef, _, _ | _, Undef, _ | _, _, Undef => Undef
  | _, _, _ => Exit
  end.
End Copy.

(** ** Other data *)
(** Names of the global variables sent to all processes: 470-508, 519-553, 565-683 and
    potfit.c:107. *)
Definition sent_basic b : list string :=
  ["mdim"; "ntypes"; "natoms"; "nconf"; "paircol"; "opt"; "inconf"; "cnfstart"; "force_0"; "conf_weight"; "eweight"; "sweight"; "format_type"] ++
  on (dCOULOMB b) ["dp_cut"] ++ on (dDIPOLE b) ["dp_tol"; "dp_mix"].
Definition sent_calc_pot : list string :=
  ["calc_pot.len"; "calc_pot.ncols"; "calc_pot.begin"; "calc_pot.end"; "calc_pot.step"; "calc_pot.invstep"; "calc_pot.first"; "calc_pot.last";
   "calc_pot.table"; "calc_pot.d2tab"; "calc_pot.xcoord"].
(** [cp], [gl]: enable_cp and have_globals of the root process *)
Definition sent_apot b (cp gl : bool) : list string :=
  on (b_apot b) (
  ["enable_cp"; "opt_pot.len"; "apot_table.number"] ++ on (dCOULOMB b) ["apot_table.total_ne_par"] ++ on cp ["na_type"] ++
  ["apot_table.names"; "smooth_pot"; "invar_pot"; "calc_list"; "apot_table.n_par"; "rcut"; "rmin"; "apot_table.end"; "apot_table.begin"; "apot_table.idxpot";
   "cp_start"; "have_globals"; "global_idx"; "apot_table.globals"; "opt_pot.first"] ++
  on (dCOULOMB b) ["apot_table.last_charge"; "apot_table.ratio"] ++
  on gl ["apot_table.n_glob"; "apot_table.global_idx"] ++ ["opt_pot.table"]).
Definition sent b cp gl : list string := sent_basic b ++ sent_calc_pot ++ sent_apot b cp gl.

(** Names read by a worker in calc_forces and update_calc_table (force_*.c,
    potential_input.c:623-694, force_common.c:80-133), given enable_cp and have_globals. *)
Definition read_by_worker b (cp gl : bool) : list string :=
  ["mdim"; "ntypes"; "natoms"; "nconf"; "paircol"; "inconf"; "cnfstart"; "force_0"; "conf_weight"; "eweight"; "format_type";
   "calc_pot.len"; "calc_pot.begin"; "calc_pot.end"; "calc_pot.step"; "calc_pot.invstep"; "calc_pot.first"; "calc_pot.last"; "calc_pot.table"; "calc_pot.xcoord"] ++
  on (b_stress b) ["sweight"] ++
  on (dCOULOMB b) (["dp_cut"] ++ on (b_apot b) ["apot_table.number"; "apot_table.total_ne_par"; "apot_table.ratio"; "apot_table.sw_kappa"]) ++
  on (dDIPOLE b) ["dp_tol"; "dp_mix"] ++
  on (b_apot b) (["calc_pot.ncols"; "opt_pot.len"; "opt_pot.first"; "opt_pot.table"; "calc_list"; "smooth_pot"; "invar_pot"; "apot_table.n_par"; "apot_table.names";
                  "apot_table.end"; "have_globals"] ++
    on (dSTIWEB b || dTERSOFF b || gl) ["global_idx"] ++ on gl ["apot_table.globals"; "apot_table.n_glob"; "apot_table.global_idx"] ++
    on (dPAIR b) (["enable_cp"] ++ on cp ["na_type"; "cp_start"; "compnodes"])).

(** initialize_global_variables (memory.c) zeroes everything before the files are read, and
    the root process never sets compnodes (the reader of composition nodes is disabled,
    potential_input_f0.c:400-457). *)
Section Globals.
Variable val : Type.
Variable init : string -> val.
Definition worker_globals b cp gl (rootg : string -> val) : string -> val :=
  fun n => if existsb (String.eqb n) (sent b cp gl) then rootg n else init n.
End Globals.

(** ** Tails of the electrostatic functions
    init_force (force_elstat.c:53-59, force_eam_elstat.c:52-58, force_ang_elstat.c:58-64) and
    init_tails (functions.c:495-512) on the root process, the copy by broadcast_neighbors, and
    the update in each evaluation (force_elstat.c:322-330).  [tail r kappa] stands for
    elstat_shift / elstat_dsf. *)
Section Tails.
Variable tail : R -> R -> R.
(** root: sw_kappa is the flag of a fixed kappa, dp_kappa[0] the value read *)
Definition stored_tail (sw : bool) (kappa0 : R) (r old : R) : R := if sw then tail r kappa0 else old.
(** in calc_forces with the process's own sw_kappa and kappa from the parameters *)
Definition used_tail (sw : bool) (kappa : R) (r stored : R) : R := if sw then stored else tail r kappa.
(** start value of sw_kappa of a worker: zero *)
Definition worker_sw : bool := false.
(** process: is it the root *)
Definition process_tail (is_root sw : bool) (kappa0 kappa r old : R) : R :=
  used_tail (if is_root then sw else worker_sw) kappa r (stored_tail sw kappa0 r old).
(** init_force reads dp_kappa[0]; the array exists on the root process only *)
Definition init_force_defined (is_root sw : bool) : bool := negb (if is_root then sw else worker_sw) || is_root.
End Tails.

(** ** Scattered arrays, 744-766 *)
Definition scatterv {A} (firstconf myconf : nat) (l : list A) : list A := firstn myconf (skipn firstconf l).
