(** The parameter cell_scale in the reading of configurations: config.c:802-813
    (read_box_vector: box and box of contributing atoms), 821-842 (read_sphere_center),
    331-335 (positions), 348-352 (atoms that contribute).  Lines are given by their numbers,
    None for a line with too few of them; real numbers. *)
From Coq Require Import Reals List Bool.
From Verif Require Import Vec ConfModel NbrModel.
Import ListNotations.
Local Open Scope R_scope.

(** what a configuration has in its lines: box #X #Y #Z, lines #B_O, #B_A, #B_B, #B_C (all or
    none, 303-305), #B_S, positions *)
Record conf := Conf {
  c_box : vec * vec * vec; c_contrib : option (vec * vec * vec * vec); c_spheres : list (vec * R); c_atoms : list vec }.

Section Scale.
Variable scale : R.
(** 331-335, 805-809, 833-836; multiplied only if the scale is not 1 *)
Definition scaled (v : vec) : vec :=
  if Req_EM_T scale 1 then v else V3 (vx v * scale) (vy v * scale) (vz v * scale).
(** 833-838 *)
Definition scaled_sphere (s : vec * R) : vec * R :=
  if Req_EM_T scale 1 then s
  else (V3 (vx (fst s) * scale) (vy (fst s) * scale) (vz (fst s) * scale), snd s * scale).
(** the configuration after reading *)
Definition read_conf (c : conf) : conf :=
  let '(x, y, z) := c_box c in
  Conf (scaled x, scaled y, scaled z)
       (match c_contrib c with
        | None => None
        | Some (o, a, b, d) => Some (scaled o, scaled a, scaled b, scaled d)
        end)
       (map scaled_sphere (c_spheres c)) (map scaled (c_atoms c)).
End Scale.
(** argument of does_contribute *)
Definition contrib_of (c : conf) : contrib :=
  match c_contrib c with
  | None => Contrib false v0 v0 v0 v0 (c_spheres c)
  | Some (o, a, b, d) => Contrib true o a b d (c_spheres c)
  end.
(** 348-352: contrib of the atoms; None: division by zero *)
Definition contribs (c : conf) : list (option bool) :=
  map (fun pos => if (have_box (contrib_of c) || negb (match c_spheres c with [] => true | _ => false end))%bool
                  then does_contribute pos (contrib_of c) else Some true) (c_atoms c).
(** argument of make_box, 318 *)
Definition box_of (c : conf) : box := let '(x, y, z) := c_box c in mk_box x y z.
