# Formal model of potfit in Rocq (Coq 8.16.1)

## Approach

* The C sources in `/repo/src` are read as text and modelled function by function in
  Gallina.  Each definition cites the file and the lines it models; each simplification
  is stated next to the definition.
* One topic = a few files under `rocq/theories/`:
  `<Topic>Model.v` (executable model, no proofs), `<Topic>Spec.v` (what is meant,
  independent of the model's helpers; sometimes at the start of the proof file),
  `<Topic>Proof*.v` (lemmas), `<Topic>Props.v` (property theorems closed by `exact`,
  non-vacuity examples, `Print Assumptions`).
* `double` is modelled by exact reals (`R`) where the property is one of analysis
  (splines, forces, exports), by rationals (`Q`) in the optimisers so that witnesses can be
  computed, by `SpecFloat` binary64 numbers where a witness is about rounding.
  Rounding is *not* modelled unless stated; NaN is modelled where the code branches on it.
* `int` is `Z` with explicit wrap-around where the property is about ranges, otherwise
  unbounded (`Z` or `nat`).
* Out-of-range array accesses are explicit outcomes (`None` / error constructor), not
  defaults, wherever the property speaks about bounds.
* Random numbers, cost functions, linear algebra routines (LAPACK/MKL), square roots, the
  C allocator and MPI are universally quantified parameters (section variables that become
  explicit arguments of the theorems), never axioms.
* When the code violates a property, the full statement stays in `properties.jsonl`,
  a theorem `..._refuted` gives a concrete witness on the faithful model, and the part
  that does hold is proved under an explicit side condition (`..._partial` or a plain name
  if the statement is complete in itself).  `MANIFEST.json` says "partial" for all of these.
* Seeded defects (`seeded/LOG.jsonl`): the model is edited as a realistic bug in a scratch
  copy and the theorems that fail are recorded; a theorem that survives a defect it should
  see is tightened.  "Failed" means that the proof of the theorem, or of a lemma it
  depends on, no longer compiles after the edit.  It does not by itself show that the
  statement became false: a proof script can also break on a harmless edit.  Entries whose
  edit was not a valid test (for example one that changed the number of arguments of a
  definition) say so in their note.

## What is modelled

| topic (files) | code | properties |
|----|-------|-------|
| PairIndex | column formulas config.c, potential_output_imd.c | C01 |
| Mpi | mpi_utils.c distribution of configurations, force_common.c gather | C02, C03 |
| Memory | memory.c registry and free_allocated_memory | C04 |
| Params | params.c get_param_*, read_parameters, check_parameters_complete | C05, C06, C08 |
| Lines | potential_input.c fgets_potfit | C07 |
| DevVec | config.c mdim and offsets, force_common.c pointers, functions.c punishments | C09 |
| DiffEvo | diff_evo.c | C10-C12, C114 |
| Simann | simann.c | C13-C16 |
| LineMin | bracket.c, brent.c, linmin.c | C17-C19 |
| Powell | powell_lsq.c | C20, C21, C66 |
| Spline | splines.c, table lookup, config.c set_neighbor_slot | C22-C24, C67 |
| Nbr | config.c init_box_vectors, make_box, init_neighbors | C25, C26, C63 |
| Pair, ForceLoop, Bond | force_pair.c | C27-C29 |
| Eam | force_eam.c (EAM, TBEAM, RESCALE/NORESCALE) | C30, C31, C70, C71 |
| Cell, Grad | pair and EAM routines in a repeated cell; forces as gradients | C32, C72 |
| Func | functions.c cutoff, check_params, punishments, electrostatic functions; chempot.c | C34-C40 |
| Apot | potential_input_f0.c, update_apot_table, update_calc_table, calculate_cutoffs | C44-C48 |
| Elem | elements.c | C53 |
| Kim | potential_input_f5.c (entries, index), force_kim.c (update_kim_model, forces), config.c init_neighbors_kim and its use | C56, C68, C73-C75 |
| Angle | config.c init_angles, update_slots (angles); loops over angles in force_stiweb.c, force_tersoff.c, force_meam.c, force_ang.c | C64, C76 |
| Conf | config.c does_contribute, write_pair_distribution_file (counts), minimal distances and begin of the analytic tables in read_config | C54, C55, C69 |
| Bind | force_stiweb.c update_stiweb_pointers; force_tersoff.c update_tersoff_pointers (both builds); not: the test for a changed address, c2 and d2 | C57, C58, C78 |
| Uq | uq.c calc_hessian, first bracket of the perturbation search, mc_moves, generate_mc_sample, ensemble_generation; random.c normdist; not: subsection_pert, LAPACK calls, file formats; calc_forces is taken as a function of the parameters that does not change them | C59-C61, C79, C80 |
| Tab | potential_input_f3.c, potential_input_f4.c, parts of potential_input.c (header), potential_output.c write_pot_table3/4, write_pot_table_potfit; files are token lists, doubles canonical rationals, printf/scanf any functions meeting the C standard (TabSpec); not: plot files, comments, sampling for the spline initialisation, formats 0 and 5 | C41, C42, C43 (values), C82, C94 |
| Rcut | potential_input.c calculate_cutoffs, columns of init_neighbors (config.c) | C81 |
| Err | errors.c write_errors and the sums of write_force_errors, write_energy_errors, write_stress_errors; not: tables of single entries, NaN tests | C33, C83 |
| Lammps | potential_output_lammps.c (SW, Tersoff, Tersoff mod, pair tables, setfl blocks); force_stiweb.c and force_tersoff.c single pair, triple and bond energies; LAMMPS formulas in LammpsSpec; printing by a parameter `pr`; not: headers, element names, suitability test | C50-C52, C84, C85 |
| Proc | communication of potfit.c main, start_mpi_worker, error; mpi_utils.c shutdown_mpi, broadcast_params_mpi, potsync; calc_forces of all routines with MPI; force_common.c gather_variable, gather_forces. Collectives complete when all processes call them; contents of the initial distribution are not modelled | C62 |
| Rescale | rescale.c rescale; mpi_utils.c potsync (columns of embedding functions); not: embed_shift (never called), downward energies | C49, C65, C86, C87 |
| Sw (with Three, Add: full neighbour lists and three-body sums) | force_stiweb.c calc_forces, one process; not: NaN error sums | C88, C32 |
| Ptr | force_stiweb.c update_stiweb_pointers, force_tersoff.c update_tersoff_pointers; addresses are numbers, all pointer arrays zero at the start | C89, C90 |
| Ang | force_ang.c calc_forces from the second derivatives of the splines on, one process; not: NaN error sums, punishments | C91, C32 |
| Ters (with Bo: bond-order sums) | force_tersoff.c calc_forces, both forms, one process; powers of numbers that are not positive are a parameter; not: NaN error sums | C92, C93, C32 |
| Adp | force_adp.c calc_forces from the second derivatives of the splines on, one process; not: NaN error sums, punishments | C95, C96 (with EAM), C72, C32 |
| Meam | force_meam.c calc_forces from the second derivatives of the splines on, one process; not: NaN error sums, punishments | C97, C98, C72, C32 |
| El | force_elstat.c calc_forces from the second derivatives of the splines on, with and without DIPOLE, one process; tail functions are parameters (C72: elstat_shift, elstat_dsf); not: NaN error sums, punishments, table formats | C99 - C104, C72, C32 |
| Ee | force_eam_elstat.c calc_forces from the second derivatives of the splines on, with and without DIPOLE, without NORESCALE (does not compile), one process; not: NaN error sums, punishments, table formats | C105, C106, C32 |
| Rt | potential_output.c write_pot_table0 (76-260, behind the header) as tokens; the tokeniser of potential_input_f0.c (301-936) | C43 |
| Pert | uq.c subsection_pert and the end of hess_bracketing (329-476) | C80 |
| Rng | random.c eqdist, init_rng; random_dsfmt.c do_recursion, dsfmt_gen_rand_all, initial_mask, period_certification, dsfmt_chk_init_by_array (standard C, little endian); random_dsfmt.h genrand_close1_open2, genrand_close_open | C107, C108, C109 |
| Norm | random.c normdist, real arithmetic | C110 |
| Rmeam | rescale_meam.c rescale (38-480), tables of formats 3 and 4; not: printing, memory, the block for EAM (480-592, never compiled) | C111, C112, C113, C49 |
| Read | config.c read_config (89-457), reset_cstate, create_memory_for_configs, read_box_vector, read_chemical_elements; without CONTRIB, neighbour lists, messages | C115-C120 |
| Ae | force_ang_elstat.c calc_forces from the second derivatives of the splines on, one process; charges and tail functions as in El; not: NaN error sums, punishments, table formats | C121, C32 |
| Imd | potential_output_imd.c, all of it except text, number formats and dipole parameters; init_calc_table0 (first, last); real arithmetic | C122 - C125 |
| Slot | config.c read_config 462-572 (begins of analytic tables), update_slots and update_neighbor_slots, columns of init_neighbors; real arithmetic | C126 |
| Run | potfit.c main 117-140, optimize.c, and of the optimisers every statement changing opt_pot.table as a whole or apot_table.values; what they find is arbitrary | C127 |
| Self | ElModel.self_factor against FuncModel.elstat_shift, elstat_dsf (no new model) | C128 |
| Plot | potential_output.c write_plotpot_pair 544-686, without the text; real arithmetic | C129 |
| Head | potential_input.c read_pot_table 67-128 (header), read_pot_line_F/T/I/G/C 169-386; without KIM; text files | C130, C131 |
| Chk | functions.c check_correct_apot_functions 168-257, with SwModel, TersModel and FuncModel (apot_check_params) | C132, C133 |
| Temp | simann.c get_annealing_temperature 130-181; real arithmetic, atof left out | C134 |
| Rep | errors.c (ErrModel) together with the error sums of the Stillinger-Weber, Tersoff, angular, MEAM, ADP and electrostatic routines | C33 |
| Etab | errors.c 273-551: the lines of .force, .energy, .stress and .punish; titles, numbers and element names of the lines left out | C135, C136 |
| Name | memory of the names of files (params.c 392-501, errors.c, config.c 1548-1564, potential_output_imd.c, potential_output_lammps.c, uq.c 243-244) and of parameters (potential_input_f0.c); `output_prefix` without a value is treated as absent | C137, C138 |
| Loc | errors.c 212-269: lines and means of the local electron densities after a run of the EAM routine; not the file and the texts, not ADP and MEAM | C139 |
| Alib | functions_impl.c (all functions), functions.itm, functions.c: table, lookup, assignment, lists of special punishments, numerical gradient; real arithmetic, `power_1`/`pow` as an oracle or Rpower | C140-C144 |
| Bc | mpi_utils.c 198-868: datatypes, broadcast of global data, atoms, neighbours and angles, scattered arrays; init_tails; MPI by its meaning, KIM left out, list of variables read by the force routines collected by hand | C145-C147 |
| Fill | random_dsfmt.c 192-428 (convert_*, gen_rand_array_*), 580-643 (fill_array_*), 655-677 (init_gen_rand), random_dsfmt.h 288-412 (genrand_*); standard C version, entries of the array as not written / bits / numbers, failing assertion and undefined behaviour both `None` | C148, C149 |
| Eig | uq.c 72-262, 780-889: repeated Hessians, eigenvalue loop, warnings, files of the members; dsyevx and dgesvd are oracles with the documented contract, hess_bracketing an oracle for the perturbations, text of the output and MIN_STEP not modelled | C150-C152 |
| Upd | force_common.c 225-252 (update_splines) and the loops over the columns in force_pair.c, force_eam.c, force_adp.c, force_elstat.c 223-246, force_eam_elstat.c 232-282, force_ang.c 197-214, force_ang_elstat.c 230-246, force_meam.c 214-230; the splines are those of the topic Spline | C153 |
| Kout | potential_input.c 700-713 (update_kim_table), potential_output.c 490-525 (write_pot_table5), potential_input_f5.c 151-163 (template), 370-546 (reader); a union of int and double is a pattern of 64 bits, doubles are spec_float, lines are given by what the scan functions find, printf and scanf are arguments; not: header, global section, KIM library | C154-C156 |
| Chem | chempot.c 83-90 (multidim), 128-170 (1d, chemical_potential of builds without CN); the 2d case with nodes is in Func | C157, C40 |
| Kev | force_kim.c 73-108 (check of cutoffs), 200-290 (calc_forces: deviations), 311-330 (get_neigh), potential_input_f5.c 372-397 (read_max_cutoff), apot_punish of KIM builds; the results of the KIM library (forces, energy, virial) are arguments; the convention of its virial (sum of r f, order xx yy zz yz xz xy) comes from the documentation of the KIM API and is not in /repo | C158-C161 |
| Ksup | kim.c 136-215 (check_KIM_model_support), 221-312 (initialize_KIM), config.c 967-987, 1018, 1063 (species codes); the answers of the KIM library are arguments; that it takes no pointer for an argument the model does not support is a hypothesis of C162_unused_forces_refuted (documentation of the KIM API) | C162, C163 |
| Hist | potential_output.c 694-769 (write_bindist_file, BINDIST builds without MPI, tabulated potentials), config.c 1301-1345 (slots); real numbers; the text of the file and analytic potentials (slots belong to calc_pot, the array is as long as opt_pot) are not modelled | C164 |
| Anneal | simann.c 204-256 (store_pot_data, restore_pot_data), 269-483 (tables and parameters during the annealing; temperature, random numbers, counters and results of rescale() are events given from outside) | C165 |
| Kini | kim.c 36-130 (check_model_routines, init_kim_model), potential_input_f5.c 398-421 (default parameters), 573-619 (table and index of free parameters); the answers of the KIM library are arguments | C166 |
| Scale | config.c 331-335, 802-842 (cell_scale in the reading of boxes, spheres and positions), 348-352; does_contribute from Conf, make_box from Nbr | C167 |
| Kcut | potential_input_f5.c 322-357 (read_cutoff_parameter), on the characters of the lines; lines shorter than 254 characters that end with a newline; 143-163 (template) only for its empty first line | C168 |

Helpers: `ListUtil`, `LoopUtil` (bounded loops), `Vec` (3-vectors).

## Simplifications common to the models

* Doubles without rounding (see above); overflow of doubles to infinity is not modelled.
* The contents of memory blocks are not modelled in `Memory`; only their registration.
* Text: hexadecimal floats and locales are not modelled; decimal numbers are read exactly,
  not rounded to binary64; lines are shorter than the buffers unless a property is about
  longer ones.
* The cost function is a pure function of the parameters in the optimisers (in-place
  normalisation of angles is C34).
* Pair functions enter the force routines as functions of the two types and the distance
  (that the stored slots give the spline's values is C24).
* `n_image` is a ghost field of neighbour entries (which periodic image it is), used only
  in specifications.
* Powell: the RESCALE last resort is left out.  TBEAM: the bands are treated one by one.
* C72 speaks about fixed bond lists (functions vanish with their slopes at the cutoff).
* erfc is any function with the right derivative.
* Analytic potentials are modelled from the token level on.

## Not modelled

File system errors, printf formatting except where a property is about it, LAPACK/MKL
internals, the KIM library, the dSFMT generator, the command line, log output.

## Findings (deviations of the code from the properties)

Each has a `..._refuted` theorem unless marked (*) = seen while reading, not modelled.

* memory.c: when the registry itself cannot grow, the error exit walks a NULL registry (C04).
* params.c: integers wrap through the cast from `long`; trailing garbage and NaN accepted;
  `imdpot` and `kim_model_params` without a value leave NULL names (*) (C05).
* A missing energy weight is not reported (C08).  Carriage returns inside lines (C07).
* The regions of the deviation vector overlap for punishments of analytic potentials, for
  TBEAM and KIM (C09); in KIM builds `punish_par_p` stays 0 and force_kim.c:281-285
  overwrites force entries (*).
* diff_evo.c: the sort does not sort; the start can be lost; zeros are returned when no
  cost is below 10e10 (C11, C12).
* simann.c: rescaling/automatic temperature can lose the best point (C13); a random index
  one past the end (C15); the last value is used after ten failed attempts (C16).  In
  EAM/ADP RESCALE builds xi_opt is restored without the geometry of the embedding
  table (*).
* powell_lsq.c:154: the derivative matrix is rebuilt against forces_2 of another point
  (C66).  In bounded builds the line search may step beyond t=1 and is only punished (*).
* splines.c: splint_comb_ed and splint_ed at r == end read behind the column (C23).
* config.c: atoms outside of the cell miss neighbours (C25); left-handed boxes have a
  negative volume (C63).
* force_eam.c: jump of the embedding function at the right end of its table (C31); TBEAM
  pairs beyond the d-band are skipped even if the s-band reaches them (C71).
* functions.c: angle normalisation does not end for huge angles and can leave the
  bounds (C34); the eopp punishment vanishes at a forbidden point (C36); entries of
  punishments are not reset (C37); ms/buck shift has a slope at the cutoff (C39);
  DSF together with DIPOLE uses the unshifted second derivative (*).
* chempot.c: wrong index between composition nodes (C40); compnodelist[i] read before the
  test of i (*).
* potential_input_f0.c: fixed chemical potentials do not advance the index; electrostatic
  and global parameters are read at each other's places; swapped bounds skip the range
  check; electrostatic parameters are never checked; globals are bound by prefix; an
  invariant potential with a global keeps a stale table (C44-C47).
  mpi_utils.c:594/645 idxpot allocated and sent with `number` instead of total_par
  entries (*); init_calc_table0 uses begin instead of end in the cutoff (*); the width
  line of a smooth cutoff with bad numbers is not refused (*).
* potential_input.c calculate_cutoffs ignores columns of TBEAM, ADP, MEAM, ANG (C48).
- elements.c: the symbols of Seaborgium and Bohrium are stored as "XX" and "Bf", so "Sg" and "Bh" are unknown.
- potential_input_f5.c:461-473: integer KIM parameters starting with 9, - or + are refused; '!' lines of double parameters give a free parameter with value and limits 0.
- force_kim.c:53-71: values are compared with the defaults, not with the last value passed, so a parameter that returns to its default is not updated; `pos` does not advance for integer parameters.
- force_kim.c:204-233: forces are added to the old contents of the deviation vector.
- config.c:1435-1440 ("how did this ever work ???") and update_slots, which exists in analytic builds only: tabulated MEAM and ANG builds evaluate the angular function at slot 0 with step 0 for every angle.
- config.c:655-670: no correction for the last slot; for ANG and cosine 1 the slope is taken from the entries behind the column (the first of these is the 10e30 flag of the next column).
- config.c:1659-1668: the projections are truncated to int, so positions in (-1,2) of each box vector contribute; skew boxes are tested with the wrong projections.
- config.c:1588-1596: a neighbour with r equal to the cutoff is counted one bin behind its column.
- force_pair.c:262-293 (and the other force routines): weights enter the error sum but not the deviation vector, so powell_lsq.c solves normal equations of the unweighted deviations and gamma_update projects with the wrong norm unless all weights are 1.
- force_stiweb.c:499: the loop for the pair of a global lambda counts up from ntypes-1, so every global lambda except that of the last type with itself is written outside of the array.
- force_tersoff.c:952: like pairs are recognised by `i % ntypes == 0`, which is right for one and two types (and for some columns only from three types on); globals of mixing tables (force_tersoff.c:963) are applied by column number instead of mixing table number.
- potential_input_f0.c:751 accepts `_sc` for stiweb_2, stiweb_3 and tersoff_pot, but the binding of the pointers does not step over the added cutoff parameter.
- uq.c:560-690: the costs with both parameters increased or both decreased are never compared with the best cost, so a better fit found there is thrown away.
- uq.c:560-690: parameters are restored by adding and subtracting, in double precision only up to rounding.
- uq.c:762: after a better fit was found write_errors uses the forces of the last trial, not of the better fit.
- uq.c ensemble_generation: the last line repeats the weight of the line before and counts it again in the attempts.
- uq.c: the search for a perturbation never ends for a parameter with the value zero (perturbations are relative).
- potential_output.c:61: no break after format 3, the file is overwritten in format 4.
- potential_input_f4.c: MEAM columns behind the pair functions are not read; TBEAM loops use wrong counts (columns unread, taken for another class, or read beyond the arrays); the last value of ADP quadrupole functions is free in format 4 only.
- potential_input_f3.c/f4.c: the angular functions of ANG are never read from tables; the MEAM part of f3.c uses `invar_pot`, which is not declared there.
- potential_output.c: `#I` is written only if a flag is 1, other nonzero flags (which also fix) are lost.
- potential_input.c:529-542: cutoffs ignore the second band (TBEAM), dipole and quadrupole (ADP) and angular f functions (MEAM, ANG, STIWEB).
- errors.c:171, 177, 207: the rms stress in MPa is obtained by dividing by 160.2 (GPa per eV/A^3) instead of multiplying.
- errors.c: configurations without used forces or stresses are counted in the rms with deviation zero; punishments up to 0.01 and without optimisation are not reported.
- potential_output_lammps.c (stiweb): a1 = a2 compared for the first pair only; -1/3 printed with %g; division by B.
- potential_output_lammps.c (tersoff): chi exported although force_tersoff.c never uses it; lines i j k use pair (i,j) for omega and cutoffs although LAMMPS takes them from the line i k k or i j k of the triple.
- potential_output_lammps.c (pair tables, tabulated): gradient written with the wrong sign.
- potential_output_lammps.c:548, 584 analytic dipole and quadrupole functions multiplied by r; block order differs from adp for three types; tabulated functions beginning after the first step end in error(1).
- potfit.c:300-313: error(1) before init_done leaves without any MPI call although the workers wait in MPI_Bcast (the -1 that shutdown_mpi could send is never sent on this path); error(1) inside an evaluation (splines.c:99, 130, 167) broadcasts a flag while the other processes are in MPI_Reduce.
- rescale.c:118-147: images of the atom itself are left out of the densities, unlike in force_eam.c.
- rescale.c:186-217: embedding functions are sampled on new points, so energies change unless the function is one cubic.
- rescale.c:165-166: for a type without atoms the range is (1e100, -1e100).
- mpi_utils.c:167-190: xcoord of the embedding functions is not sent, so with format 4 the workers keep the points from before the rescaling.
- rescale.c:409-438: embed_shift is never called.
- force_stiweb.c:181-184: pairs of an atom with its own images are halved once more although the list is full, so energy and stress of small cells are wrong (C88, C32).
- force_stiweb.c:330-372: three-body forces and stresses are added also if the configuration does not use forces; the entries are not scored but kept.
- force_stiweb.c:500: the search for the row of a global lambda counts k up from ntypes-1; except for the last pair of types it ends outside of the arrays (C89).
- force_tersoff.c:945: i % ntypes is not the test for a pair of equal types if there are three or more (C90).
- force_tersoff.c:957: columns of chi and omega are compared with paircol + pair index instead of the number of the mixed pair (C90).
- force_ang.c:490-501 (and 471-483): forces and stresses are scored without a test of uf and us; a configuration without used forces adds its reference stresses to the error sum (C91).
- force_tersoff.c: pairs of an atom with its own images are halved in the repulsive part but not in the attractive part, so energy and stress of small cells are wrong (C92, C93, C32); attractive forces are added also if the configuration does not use forces; chi is read from the potential file but not used.
- force_adp.c:320-324 and 539-546: for bonds of an atom to its own images both the quadrupole function and the sum of the matrices are halved, but the trace is not (557-559): stress wrong in small cells (C95, C32); energies and forces are right.
- force_meam.c:708: the limit entry of a configuration is multiplied by its weight and then squared, so it counts with the square of the weight (EAM, ADP: with the weight); 681-701: stresses of configurations whose forces are not used are scored; 741: the mean density constraint ignores NOPUNISH (C98).
- force_elstat.c:654-700: the projections rp_i, rp_j are set only if the other atom has a charge, so dipole-dipole terms of a polarisable type without charge use values of an earlier pair (C100).
- force_elstat.c:510-552: the field of the dipoles has the sign opposite to that of their energy, so the self-consistent dipoles do not minimise the energy and forces at fixed dipoles are not its gradient (C103); with mixing, the tolerance does not bound the inconsistency (C102); E_ind is never reset, so a repeated call gives another energy (C104); after giving up, E_ind is set to E_stat, from which the next call starts.
- (*) force_elstat.c: case POTENTIAL_FORMAT_TABULATED_NON_EQ_DIST has no break and falls into the KIM error.
- force_eam_elstat.c:821: tests the polarisability of type2 where force_elstat.c has type1; the charge-dipole term of a polarisable atom with a charged unpolarisable neighbour is lost or kept depending on the numbering of the two atoms (C106).
- (*) force_eam_elstat.c: the NORESCALE branch uses names that are not declared (calc_pot, energy_p, limit_p, dummy_p); case POTENTIAL_FORMAT_TABULATED_NON_EQ_DIST has no break.
- C43: write_pot_table0 prints limits with four (chemical potentials: two) decimals: a free parameter whose limits agree in print is read as a fixed one, and values near a limit are moved to the rounded limit when the file is read for an optimisation.
- C43: write_elstat does not write the line "ratio" that read_elstat_table demands: with charges no potential file that was written (also temporary files and end potentials) can be read.
- C43: global parameters that no function uses are dropped by a round trip.
- C80: subsection_pert recurses without end (in C: until the stack is exhausted) if the cost jumps over the aim; hess_bracketing divides 0 by 0 if the aim is met exactly.  The branch that changes signs is never reached from hess_bracketing; it would continue with the old range[].
- C111: rescale of MEAM reads the angular function through slots that tabulated builds never compute; it scales the columns of g, but the part of the density that comes from them is a constant of the table and stays as it was, so atoms can leave the new interval.
- C111: a type without atoms gets the interval (1e100, -1e100) times the factor: it runs backwards, with a negative step.
- C49, C112: on the negative side (factor a < 0) rescale.c:229-285 and rescale_meam.c:417-430 set the end slopes to -F'/a; the chain rule gives F'/a.
- C113: ANG and MEAM (and rescale of MEAM) always use spline_ed, with the mean step, also for free points.
- C114: diff_evo.c:383 tests k == j with the loop counter k and the running index j; no entry is forced unless the loop starts at entry 1, and then all entries but entry 0 are.
- C116: create_memory_for_configs counts lines, read_config skips white space behind atoms: an indented #N, or a file cut off behind "#N 2 1", makes read_config write behind its arrays.
- C117: #f does not end a header (only F does); the atoms are taken for header lines and the next configuration is read in its place. Header lines without # are used.
- C118: element names of more than 14 characters never match themselves; C120: a comment line at the end of the configuration file is an error.
- force_ang_elstat.c:585-600: stresses are scored without a test of uf and us (forces are tested); a configuration without used forces adds its reference stresses to the error sum (C121).
- potential_output_imd.c:252: the last number of a table is 0.0 whatever the function is there (C122).
- potential_output_imd.c:625: g of MEAM is read with calc_pot's indices from opt_pot.table, for analytic potentials behind its end (C123).
- potential_output_imd.c:654-669: names[1], names[2] are read with one type of atoms too; only three functions are tested before the parameters of all are written (C124).
- potential_output_imd.c:691: r_cut is end[0] for all pairs (C124).
- (*) potential_output_imd.c:353-358: root is computed and not used; `#endif  // APOT` at 521 closes ADP.
- simann.c:347-349: an accepted move copies only the perturbed entry, although calc_forces may have exchanged S and R of a Tersoff potential in the trial vector; the current cost then belongs to another vector (C13).
- powell_lsq.c:133-136: returns before update_apot_table; after a perfect global fit the start values are written (C127).
- force_elstat.c:825: without DSF the self energy lacks the constant of the shifted function (C128); a constant per charge, and depends on the charges when they are fitted.
- potential_output.c:593-612: transfer and embedding functions of MEAM are plotted twice; 572: functions of the second band and of ANG are not plotted; 566 etc.: the last point is 0 (C129).
- (*) potential_output.c:781-835: write_coulomb_table is never called; it takes -q/2 for the charge of the second type.
- potential_input.c:315: only the flag 1 of #I is counted, but every nonzero flag fixes the function; 258-259: a second #F line clears the flags, not the count (C131).
- functions.c:212-256: for Tersoff potentials the cutoff S (R2) is not compared with the cutoff of the file (C132); max S = min R is accepted; the exchange of S and R at 297-307 ignores their limits and is missing for the modified form (C133).
- simann.c:165: a + in the formula of the automatic start temperature where the acceptance ratio needs a -; the run stops if exactly half of the trial steps are downhill (C134).
- errors.c:297-307 sums the forces of all configurations, also of those with useforce = 0; the three-body routines leave nonzero entries there, so the reported sums exceed the total (C33).
- errors.c:389: with a weight of 0 the column w*de^2 of .energy is 0/0; errors.c:313 (FWEIGHT) shows the ratio of the scaled deviation; unused configurations show the reference as calculated force (C135).
- errors.c:509-541: for TBEAM the constraints of the second band are missing in .punish, and the squares of the limits lack the configuration weight (C136).
- Names of files are made in arrays of 255 bytes (errors.c, config.c, uq.c, export) and parameter names are copied to 30 bytes (potential_input_f0.c) without a check; longer ones are accepted (C137, C138).
- errors.c:212-269: the densities shown are cut to the range of the embedding function (RESCALE); a type without atoms is shown with 0/0; the second band of TBEAM is not shown (C139).
- functions.c:145-162: the name is compared with strncmp(…, "eopp", 4), so eopp_exp also gets the punishment of eopp, which then compares a decay constant with an exponent (C144).
- functions_impl.c: vas and stiweb_3 are larger than one beyond their radius instead of zero (C142); sheng_rho jumps at 1.45 (C142).
- mpi_utils.c:853: without ANG, an atom without angles leads to Malloc(0) and the end of the parallel run; the serial program accepts it (C146).
- uq.c 134-158: when dsyevx reports vectors that did not converge, the loop calls it again (and at last dgesvd) with the matrix the first call has overwritten; range = 'A' makes the growing interval (vl, vu) meaningless (C151).
- force_elstat.c:237-243 and force_eam_elstat.c: no break after the case of tables with coordinates, so that these stop with "KIM format is not supported" (C153).
- potential_input.c:706-711: update_kim_table writes the entry of the optimiser (0.0) as a double over integer parameters; the potential file then says 0 for each of them (C154).
- potential_output.c:518: without a fit the values of the KIM model as loaded are written, not those of the potential file that was read (C154).
- potential_output.c:518-519: "%f" has six decimals; small parameters come back as 0 and fixed (C155).
- potential_input_f5.c:450: strncmp over the length of the name in the file accepts every prefix of the name of the parameter (C156).
- potential_input_f5.c:272: `buffer[0] > 65` refuses all names of global parameters starting with a letter other than A, and accepts digits (noted, no theorem).
- force_kim.c:287: the energy of the whole cell is compared with the reference energy per atom (C159).
- force_kim.c stresses: the virial of KIM has the opposite sign and another order of components than the stresses of potfit (C160).
- force_kim.c:73-108: a cutoff that shrinks and returns stops the run; get_neigh tests `>` instead of `>=`, the first padding atom gets the list of the next configuration's first atom (C161).
- chempot.c swap_chem_pot does not exchange invar_par (noted, no theorem).
- kim.c:306: the array of the forces is always handed to the model; models without forces fail even if no forces are used, those that require them are refused in line 212 if no forces are used (C162).
- config.c:974-987: codes of species are stored while the configurations are read; atoms of configurations before the first line with element names get -1, and check_KIM_model_support repairs only the map (C163).
- potential_output.c:740, 761: a density at or above the end of the embedding table is counted in freq[last], which is not written; 736: with RESCALE the index is not limited and can leave the array (C164).
- simann.c:466-472: builds with RESCALE other than MEAM combine the parameters of the optimum with tables of later rescalings; 414-419: a lower cost after rescaling is not recorded as optimum (C165).
- kim.c:123-125: the results of GetParameterInteger and GetParameterDouble are not looked at, the value stays 0; potential_input_f5.c:398-421: default parameters are free, but both limits are the value (C166).
- potential_input_f5.c:331-334: for an empty first line `name` is compared before it is set; the template of print_model_parameters_impl (line 152) has an empty line there. A line of blanks is an error; an indented KIM_CUTOFF ends the search but is not accepted (C168).

## Trusted base

* The Coq 8.16.1 kernel (checked again with `coqchk`), the standard library and its
  axioms listed below; no other library's axioms, no axioms of our own.
* The reading of the C code recorded in the comments of the model files, including the
  simplifications stated there and above.
* The statements in the `*Props.v` files together with the specification definitions they
  mention (`*Spec.v`).

### Print Assumptions for each theorem

`sig_forall_dec`, `sig_not_dec` (Coq.Reals.ClassicalDedekindReals),
`functional_extensionality_dep` (Coq.Logic.FunctionalExtensionality) and `classic`
(Coq.Logic.Classical_Prop) are the axioms of the standard library's real numbers.

* no axioms (closed under the global context):
    C140_table, C140_assigned, C140_named, C140_complete, C144_names, C165_restored,
  C44_index_partial, C145_types, C146_atoms, C146_no_angles, C146_refuted, C147_globals,
  C147_tails, C147_scattered, C57_layout, C57_pointers, C57_other_globals, C57_refuted,
  C58_pair_parameters, C58_mixing_partial, C58_refuted, C58_global_refuted, C58_tersoffmod,
  C78_shift, C78_refuted, C09_tabulated, C09_analytic_data, C09_analytic_partial,
  C09_punishments_overlap_refuted, C09_out_of_bounds_refuted, C09_tbeam_refuted,
  C09_kim_refuted, C10_candidates_in_bounds, C10_start_total, C10_generation_total,
  C11_costs_stay_paired_partial, C11_quicksort_rearranges, C11_sort_refuted,
  C11_lowest_half_refuted, C12_best_monotone, C12_result_cost, C12_tabulated_not_worse,
  C12_start_lost_refuted, C12_zeros_refuted, C11_selection, C10_trial_composed,
  C114_trial_exact, C114_parent_refuted, C114_all_mutated_refuted, C114_same_trial_refuted,
  C151_ends, C53_mass_agrees, C53_own_element, C53_unknown, C53_every_number,
  C53_masses_plausible, C148_same, C148_sizes, C148_middle, C149_range, C149_related,
  C149_array, C149_seed, C34_termination_refuted, C130_accepted, C130_refused, C130_unfinished,
  C131_fixed_partial, C131_flag_refuted, C131_second_format_refuted, C164_column,
  C124_charges_partial, C124_one_type_refuted, C125_stiweb, C125_tersoff, C125_tersoffmod,
  C161_get_neigh, C56_read_iff_plain, C56_refuted, C56_too_large_refuted,
  C168_marked_partial, C168_unknown_partial, C168_none_partial, C168_template_refuted,
  C168_blanks_refuted, C168_indented_refuted, C168_sound, C166_no_room,
  C154_doubles, C154_integers, C154_integers_refuted, C154_without_fit,
  C154_without_fit_refuted, C155_read_back, C155_template, C155_integers_refuted,
  C155_small_refuted, C155_printf, C156_sections, C156_names_refuted, C162_accepted,
  C162_use_forces, C162_use_stress, C162_unused_forces_refuted, C162_required_forces_refuted,
  C162_unused_stress_refuted, C163_callbacks, C163_required, C163_species, C163_codes,
  C163_codes_refuted, C84_order, C85_order_partial, C85_order_refuted, C17_bracket,
  C17_bracket_bounded, C18_brent, C19_linmin, C07_crlf_same_words, C07_unix_lines_unchanged,
  C07_inner_cr_refuted, C04_no_leak_no_double_free, C04_all_blocks_released,
  C04_registry_failure_refuted, C02_accepted, C02_partition, C03_parallel_vector,
  C03_serial_entries, C137_heap, C137_exact, C137_stack, C137_long_prefix_refuted,
  C137_distinct, C137_imd_distinct, C137_default_endpot, C137_endpot, C138_exact,
  C01_pair_columns_bijective, C01_imd_export_same_numbering, C01_number_of_columns,
  C05_int_in_range, C05_int_exact, C05_int_wrap_refuted, C05_int_garbage_refuted,
  C05_double_in_range, C05_double_exact, C05_double_nan_refuted, C06_last_assignment_wins,
  C06_unmentioned_default, C06_other_lines_irrelevant, C06_acceptance_linewise,
  C08_missing_setting_reported, C08_accepted_values_usable, C08_eng_weight_refuted,
  C20_normal_equations, C20_init, C20_update, C21_never_worse, C21_terminates, C66_gradient,
  C66_exact_if_affine, C66_restart_refuted, C20_replaced_column, C20_direction, C66_step,
  C62_all_finish, C62_lockstep, C62_input_refuted, C62_refuted, C89_pointers_partial,
  C89_lambda_global_refuted, C90_pointers, C90_mix_partial, C90_diagonal_refuted,
  C90_global_refuted, C115_round_trip, C116_memory_partial, C116_memory_refuted,
  C117_case_refuted, C117_ignored_refuted, C118_agree_partial, C118_accepted_partial,
  C118_names_refuted, C119_layout, C120_comment_refuted, C107_range, C107_array, C107_stream,
  C107_recursion, C108_injective, C108_returns, C108_periodic, C109_certified, C109_only,
  C13_best_of_all_seen, C13_current_cost, C13_current_cost_refuted, C13_meam_rescale_not_worse,
  C13_rescale_refuted, C13_auto_temperature_refuted, C14_terminates,
  C15_bounded_fixed_unchanged, C15_tab_move_partial, C15_tab_move_refuted,
  C16_move_in_bounds_partial, C16_move_distance, C16_move_refuted, C15_step_width,
  C15_accepted_count, C88_pair_symmetric, C41_digits, C41_format3, C41_format4, C41_through,
  C41_adp_refuted, C41_flag_refuted, C42_format4, C42_refuted, C43_value_refuted, C82_columns3,
  C82_columns4, C82_free3, C82_free4, C82_gradients, C94_defaults, C82_lost4_refuted,
  C82_ang_refuted, C82_tbeam4_refuted, C82_tbeam1_refuted, C134_half64, C92_pair_symmetric,
  C93_pair_symmetric, C59_rounding_refuted.
* `sig_forall_dec`:
    C44_fixed_chempot_refuted, C151_eigenvectors, C151_svd, C151_remains, C136_limit_lines,
  C166_accepted, C166_species, C166_defaults, C166_value_refuted, C27_stress_components.
* `functional_extensionality_dep`, `sig_forall_dec`:
    C96_adp_error, C142_lj, C142_poly_5, C142_sheng_rho_refuted, C143_parabola, C64_angles,
  C76_analytic, C76_end_refuted, C76_tabulated_refuted, C165_optimum, C165_not_worse, C165_best,
  C165_tables_refuted, C165_rescaled_refuted, C44_table_follows_partial,
  C44_elstat_globals_refuted, C45_start_in_bounds_partial, C45_line, C45_swapped_refuted,
  C45_elstat_refuted, C46_binding_partial, C46_unique_names, C46_prefix_refuted,
  C47_table_current_partial, C47_current_parameters, C47_update_total,
  C47_invariant_global_refuted, C48_cutoff_partial, C48_cutoff_refuted,
  C32_supercell_same_crystal, C157_linear, C40_between, C40_one_node, C132_stiweb_accepts,
  C133_tersoff_accepts, C133_tersoffmod_accepts, C133_refused_partial, C133_order_refuted,
  C55_counts, C55_bins, C55_cutoff_refuted, C55_column_refuted, C69_table_starts,
  C31_left_continuous, C31_clamped_continuous, C31_right_continuous_iff, C31_refuted,
  C70_error_sum_of_final_vector, C31_slope, C150_hessians, C151_second_attempt_refuted,
  C99_neutral, C33_unweighted, C83_refuted, C135_zero_weight_refuted,
  C135_weighted_ratio_refuted, C136_bands_refuted, C136_columns, C136_limits,
  C136_limits_refuted, C35_factor, C35_smooth, C36_bounds, C36_general, C36_eopp_refuted,
  C37_entries, C37_stale_refuted, C40_sorted, C40_no_nodes, C40_first_partial, C40_last_partial,
  C40_between_refuted, C164_histogram, C164_lines, C164_below, C164_above, C164_above_4,
  C164_density_lost_refuted, C164_rescale_refuted, C124_cutoffs_refuted, C124_kind_refuted,
  C161_lists_suffice, C161_history, C161_return_refuted, C73_limits_and_index, C73_refuted,
  C74_values_passed, C74_default_refuted, C74_integer_refuted, C75_exact, C75_fresh_vector,
  C75_refuted, C68_particle_place, C52_tabulated, C52_refuted, C84_analytic,
  C84_tabulated_refuted, C84_step_refuted, C85_scaled_refuted, C03_parallel_error_sum,
  C138_written_names, C138_long_name_refuted, C63_dual, C63_reconstruct, C63_volume,
  C63_volume_positive_refuted, C28_final_when_scored, C77_norm_partial, C77_norm_refuted,
  C80_result, C80_jump_refuted, C80_jump, C80_exact_refuted, C129_blocks_partial,
  C129_points_partial, C129_last_point_refuted, C129_meam_twice_refuted, C129_missing_refuted,
  C129_analytic, C81_cutoff_partial, C81_symmetric, C81_largest, C81_extremes,
  C81_all_functions, C81_all_starts, C81_refuted, C81_starts_refuted, C81_sufficient,
  C33_all_used, C49_factor, C49_nodes, C49_not_needed, C86_eq_dist, C86_refuted,
  C111_absent_refuted, C112_nodes, C112_negative_slope_refuted, C113_format4_refuted,
  C43_readable, C43_exact, C43_stable, C43_errors, C43_free_refuted, C43_moved_refuted,
  C43_elstat_refuted, C43_unused_globals, C127_end_potential_partial,
  C127_start_written_refuted, C127_table, C167_volume, C126_tables, C126_slots, C126_angles,
  C22_spline_ed, C22_spline_ne, C23_comb_ed, C23_comb_ne, C23_comb_dir, C23_comb_ed_end_refuted,
  C24_slot_ed, C24_slot_ne, C24_bisection, C24_short, C67_inside, C67_left, C67_right,
  C134_given, C153_equidistant, C153_points, C153_charges, C153_charges_refuted, C59_matrix,
  C59_quadratic, C59_both_increased_refuted, C60_eigenvalues, C60_raised, C60_negative,
  C80_bracket, C80_zero_refuted.
* `functional_extensionality_dep`, `sig_forall_dec`, `sig_not_dec`:
    C95_textbook_adp_partial, C95_any_density, C95_forces_sum_to_zero, C95_stress_refuted,
  C96_eam_limits, C96_adp_limits, C72_adp_force_is_gradient, C32_adp_cells_partial,
  C32_adp_cells_refuted, C121_values, C121_gradient, C121_sum_zero, C121_error_sum_partial,
  C121_unused_stress_refuted, C32_ang_elstat_cell_independent, C91_values, C91_gradient,
  C91_sum_zero, C91_error_sum_partial, C91_unused_stress_refuted, C32_ang_cell_independent,
  C64_range, C32_pair_cell_independent, C32_eam_cell_independent, C133_exchange_refuted,
  C133_mod_refuted, C54_exact_test, C54_inside_partial, C54_outside_refuted, C54_skew_refuted,
  C30_textbook_eam, C30_textbook_any_density, C30_forces_sum_to_zero, C70_constraints,
  C71_refuted, C72_pair_force_is_gradient, C72_eam_force_is_gradient, C105_textbook,
  C105_dipoles, C105_constraints, C105_error, C105_forces_sum_to_zero, C106_numbering_refuted,
  C105_is_sum, C32_eam_elstat_cell_independent, C152_run, C152_ends, C100_textbook, C100_error,
  C100_forces_sum_to_zero, C100_stale_refuted, C101_iteration, C101_others_unchanged,
  C102_consistent_partial, C102_mixing_refuted, C103_slope_partial, C103_minimum_refuted,
  C104_charges_only_partial, C104_repeat_refuted, C72_charges_force_is_gradient,
  C72_dsf_force_is_gradient, C72_dipoles_force_is_gradient_partial, C32_el_cell_independent,
  C33_pair_sum, C33_eam_sum, C33_hidden_refuted, C33_rms_forces_partial, C33_rms_energies,
  C33_rms_stresses_partial, C33_rms_refuted, C135_pair_tables, C135_unused_refuted, C136_gauge,
  C34_normalised, C38_shift_zero, C38_shift_gradient, C38_shift_second, C38_dsf_zero,
  C38_dsf_gradient, C38_shortrange_gradient, C39_values_zero, C39_ms_slope_partial,
  C39_buck_slope_partial, C39_buck_refuted, C122_tables_partial, C122_whole_partial,
  C122_last_value_refuted, C123_meam_analytic_refuted, C158_error_sum, C158_entries,
  C159_per_atom_refuted, C160_stresses, C160_stresses_refuted, C68_padding, C51_cutoff,
  C51_mod_cutoff, C139_lines, C139_averages, C139_clamped_refuted, C97_textbook_meam,
  C97_any_density, C97_forces_sum_to_zero, C72_meam_force_is_gradient,
  C32_meam_cell_independent, C98_error_sum_partial, C98_limits, C98_limit_weight_refuted,
  C98_unused_stress_refuted, C25_complete_and_sound, C25_outside_refuted, C26_passes_agree,
  C26_each_pair_once, C27_textbook_pair_model, C27_forces_sum_to_zero, C28_lists_ordered,
  C29_error_nonneg, C29_zero_iff_all_match, C33_ang_sum, C33_ang_elstat_sum, C33_meam_sum,
  C33_adp_sum, C33_elstat_sum, C33_eam_elstat_sum, C49_energy_partial, C49_update_partial,
  C49_refuted, C65_densities_partial, C65_others, C65_refuted, C87_contains, C87_refuted,
  C111_densities_partial, C111_tables_refuted, C112_energy_partial, C112_between_refuted,
  C112_negative_refuted, C167_contrib, C167_distances, C128_self_energy_dsf_partial,
  C128_self_energy_shift_partial, C128_self_energy_shift_refuted, C60_members,
  C79_last_line_refuted.
* `classic`, `functional_extensionality_dep`, `sig_forall_dec`, `sig_not_dec`:
    C140_parameters, C141_relations, C142_morse, C142_universal, C142_gen_lj, C142_bjs,
  C142_bjs_zero, C142_vas, C142_vas_refuted, C143_bound, C144_eopp_exp_refuted, C132_stiweb,
  C132_tersoff_partial, C132_tersoffmod_partial, C132_tersoff_refuted, C34_bounds_refuted,
  C39_ms_refuted, C50_two_body, C50_three_body, C50_three_body_close, C50_refuted,
  C50_digits_refuted, C50_degenerate_refuted, C51_energy_partial, C51_chi_refuted,
  C51_omega_refuted, C51_cutoffs_refuted, C51_mod_energy_partial, C51_mod_cutoffs_refuted,
  C52_analytic, C110_pair, C110_returns, C80_ends, C33_sw_sum, C33_tersoff_sum,
  C33_tersoffmod_sum, C33_sw_refuted, C88_values, C88_textbook_partial, C88_self_refuted,
  C88_gradient, C88_cutoff_error, C88_sum_zero, C88_error_sum, C88_unused_forces_refuted,
  C32_sw_cell_independent_partial, C32_sw_cells_refuted, C134_fails, C134_positive,
  C134_share_partial, C134_share_less, C134_share_more, C134_share_refuted, C134_half_refuted,
  C92_values, C92_textbook_partial, C92_self_refuted, C92_gradient, C92_sum_zero, C92_error_sum,
  C92_unused_forces_refuted, C32_ters_cell_independent_partial, C32_ters_cells_refuted,
  C93_values, C93_textbook_partial, C93_self_refuted, C93_gradient, C93_sum_zero, C93_error_sum,
  C93_unused_forces_refuted, C32_mod_cell_independent_partial, C32_mod_cells_refuted, C61_valid,
  C61_two_deviates.
