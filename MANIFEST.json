{
 "claims": [
  {
   "property": "C01",
   "status": "proved",
   "theorems": [
    "C01_pair_columns_bijective",
    "C01_imd_export_same_numbering",
    "C01_number_of_columns"
   ],
   "note": ""
  },
  {
   "property": "C02",
   "status": "proved",
   "theorems": [
    "C02_accepted",
    "C02_partition"
   ],
   "note": "the MPI build refuses one process and more processes than configurations; both are part of the model"
  },
  {
   "property": "C03",
   "status": "proved",
   "theorems": [
    "C03_parallel_vector",
    "C03_parallel_error_sum",
    "C03_serial_entries"
   ],
   "note": "exact arithmetic; the per-configuration result is an arbitrary function"
  },
  {
   "property": "C04",
   "status": "partial",
   "theorems": [
    "C04_no_leak_no_double_free",
    "C04_all_blocks_released",
    "C04_registry_failure_refuted"
   ],
   "note": "REFUTED when the registry itself cannot grow: the error exit then walks a NULL registry. Otherwise: every registered block is released exactly once."
  },
  {
   "property": "C05",
   "status": "partial",
   "theorems": [
    "C05_int_in_range",
    "C05_int_exact",
    "C05_int_wrap_refuted",
    "C05_int_garbage_refuted",
    "C05_double_in_range",
    "C05_double_exact",
    "C05_double_nan_refuted"
   ],
   "note": "REFUTED: integers wrap through the cast from long to int and trailing garbage is accepted; NaN passes the range test of doubles. Positive theorems give the exact conditions."
  },
  {
   "property": "C06",
   "status": "proved",
   "theorems": [
    "C06_last_assignment_wins",
    "C06_unmentioned_default",
    "C06_other_lines_irrelevant",
    "C06_acceptance_linewise"
   ],
   "note": "A string keyword without value only complains and keeps the previous value; this is part of the model."
  },
  {
   "property": "C07",
   "status": "partial",
   "theorems": [
    "C07_crlf_same_words",
    "C07_unix_lines_unchanged",
    "C07_inner_cr_refuted"
   ],
   "note": "REFUTED for carriage returns inside a line; proved for line ends."
  },
  {
   "property": "C08",
   "status": "partial",
   "theorems": [
    "C08_missing_setting_reported",
    "C08_accepted_values_usable",
    "C08_eng_weight_refuted"
   ],
   "note": "REFUTED: a missing energy weight is not reported. Proved for the checked settings."
  },
  {
   "property": "C09",
   "status": "partial",
   "theorems": [
    "C09_tabulated",
    "C09_analytic_data",
    "C09_analytic_partial",
    "C09_punishments_overlap_refuted",
    "C09_out_of_bounds_refuted",
    "C09_tbeam_refuted",
    "C09_kim_refuted"
   ],
   "note": "REFUTED for analytic builds with punishments (regions overlap or leave the vector), for TBEAM and for KIM; proved for tabulated potentials and for the data part of analytic ones."
  },
  {
   "property": "C10",
   "status": "proved",
   "theorems": [
    "C10_candidates_in_bounds",
    "C10_start_total",
    "C10_generation_total",
    "C10_trial_composed"
   ],
   "note": "Cost function pure (in-place normalisation is C34); bounds within 1e31."
  },
  {
   "property": "C100",
   "status": "partial",
   "theorems": [
    "C100_textbook",
    "C100_error",
    "C100_forces_sum_to_zero",
    "C100_stale_refuted"
   ],
   "note": "Values, error and sum of forces proved for all inputs in which every polarisable type has a charge (always true without dipoles). REFUTED without that condition: rp_i, rp_j keep old values (C100_stale_refuted)."
  },
  {
   "property": "C101",
   "status": "proved",
   "theorems": [
    "C101_iteration",
    "C101_others_unchanged"
   ],
   "note": "refinement of the iteration"
  },
  {
   "property": "C102",
   "status": "partial",
   "theorems": [
    "C102_consistent_partial",
    "C102_mixing_refuted"
   ],
   "note": "REFUTED with mixing (C102_mixing_refuted); proved for dp_mix = 0."
  },
  {
   "property": "C103",
   "status": "partial",
   "theorems": [
    "C103_slope_partial",
    "C103_minimum_refuted"
   ],
   "note": "REFUTED: the field of the dipoles has the sign opposite to that of the energy; C103_slope_partial gives the slope of the energy for all dipoles."
  },
  {
   "property": "C104",
   "status": "partial",
   "theorems": [
    "C104_charges_only_partial",
    "C104_repeat_refuted"
   ],
   "note": "REFUTED with dipoles; proved for charges only."
  },
  {
   "property": "C105",
   "status": "partial",
   "theorems": [
    "C105_textbook",
    "C105_dipoles",
    "C105_constraints",
    "C105_error",
    "C105_forces_sum_to_zero",
    "C105_is_sum"
   ],
   "note": "conditional: with dipoles, the charged atoms of a configuration are all polarisable or all not, and polarisable types have a charge (otherwise wrong, see C106, C100)"
  },
  {
   "property": "C106",
   "status": "partial",
   "theorems": [
    "C106_numbering_refuted",
    "C105_textbook"
   ],
   "note": "REFUTED: force_eam_elstat.c:821 tests type2 for type1, the charge-dipole energy of a polarisable atom with a charged unpolarisable neighbour is lost if the polarisable atom has the smaller number; positive: C105 under its condition"
  },
  {
   "property": "C107",
   "status": "proved",
   "theorems": [
    "C107_range",
    "C107_array",
    "C107_stream",
    "C107_recursion"
   ],
   "note": "binary64 subtraction by SpecFloat; malloc in init_rng not modelled; the values of rand() are arbitrary words"
  },
  {
   "property": "C108",
   "status": "proved",
   "theorems": [
    "C108_injective",
    "C108_returns",
    "C108_periodic"
   ],
   "note": "for the 19937 parameters in the header; the length of the period is not proved"
  },
  {
   "property": "C109",
   "status": "proved",
   "theorems": [
    "C109_certified",
    "C109_only"
   ],
   "note": "the condition itself; that it implies a period that is a multiple of 2^19937 - 1 is the theory of the generator and not proved"
  },
  {
   "property": "C11",
   "status": "partial",
   "theorems": [
    "C11_costs_stay_paired_partial",
    "C11_quicksort_rearranges",
    "C11_sort_refuted",
    "C11_lowest_half_refuted",
    "C11_selection"
   ],
   "note": "REFUTED: the partition step skips elements, the sort does not sort and the best candidate can be dropped. Proved: it ends, rearranges, costs stay paired."
  },
  {
   "property": "C110",
   "status": "proved",
   "theorems": [
    "C110_pair",
    "C110_returns"
   ],
   "note": "real arithmetic; the unbounded loop runs with fuel"
  },
  {
   "property": "C111",
   "status": "partial",
   "theorems": [
    "C111_densities_partial",
    "C111_tables_refuted",
    "C111_absent_refuted"
   ],
   "note": "REFUTED for the builds that have the routine (tables): there the slots of the angles are never computed (C76), so g is read as entry 0 of the table and the angular part is not scaled: a density of 3 becomes 1.2 with factor 0.1 and a table that ends at 0.6 (C111_tables_refuted). A type without atoms gets an interval that runs backwards with a negative step (C111_absent_refuted). Proved for slots that belong to the cosines: all structures, both signs, formats 3 and 4."
  },
  {
   "property": "C112",
   "status": "partial",
   "theorems": [
    "C112_nodes",
    "C112_energy_partial",
    "C112_between_refuted",
    "C112_negative_refuted",
    "C112_negative_slope_refuted"
   ],
   "note": "REFUTED: between the points energies change for embedding functions that are not cubic (C112_between_refuted); if the negative side dominates, the end slopes get the wrong sign, for every cubic F, and energies change even for F = u^2 (C112_negative_slope_refuted, C112_negative_refuted). Proved: equality at all new points for every F and both signs (C112_nodes); whole energies for cubic F and positive side (C112_energy_partial)."
  },
  {
   "property": "C113",
   "status": "partial",
   "theorems": [
    "C113_format4_refuted"
   ],
   "note": "REFUTED: these routines call spline_ed with the mean step also in format 4; for the points 0, 1, 3 of the line y = x the value at 1/2 is off by 1/24 and the derivative jumps from 11/9 to 5/9 (C113_format4_refuted). The correct case is C22-C24 (spline_ne for free points, as the pair and EAM routines do)."
  },
  {
   "property": "C114",
   "status": "partial",
   "theorems": [
    "C114_trial_exact",
    "C114_parent_refuted",
    "C114_all_mutated_refuted",
    "C114_same_trial_refuted"
   ],
   "note": "REFUTED: the test k == j compares the counter of the loop with the running index, which agree at every step but the last if the loop starts at entry 1 and never otherwise (C114_trial_exact). So with start 1 all entries but entry 0 are mutated whatever CR is (C114_all_mutated_refuted), and with any other start nothing is forced: a trial can be its parent (C114_parent_refuted, C114_same_trial_refuted). The exact rule is proved for all inputs."
  },
  {
   "property": "C115",
   "status": "proved",
   "theorems": [
    "C115_round_trip"
   ],
   "note": "Model of the whole reader (lines, %d, header, atoms); %lf is an oracle that skips white space and reads back the printed numbers of the file. #C lines are treated in C118. Without CONTRIB."
  },
  {
   "property": "C116",
   "status": "partial",
   "theorems": [
    "C116_memory_partial",
    "C116_memory_refuted"
   ],
   "note": "REFUTED: an indented #N behind an atom is not counted in the first pass but read in the second (write behind all arrays); a file that ends with \"#N 2 1\" without line end: inconf, cnfstart, useforce are written behind the end; a #N line with a negative number inside a header shrinks the array of atoms. Proved: safe and terminating if every #N is at the beginning of a line, the file ends with a line end, no number is negative and there is no carriage return."
  },
  {
   "property": "C117",
   "status": "partial",
   "theorems": [
    "C117_case_refuted",
    "C117_ignored_refuted"
   ],
   "note": "REFUTED: #f does not end the header: the atoms of the configuration are skipped and the header and atoms of the next configuration are used for it; a header line without # is used although the warning says that it is ignored."
  },
  {
   "property": "C118",
   "status": "partial",
   "theorems": [
    "C118_agree_partial",
    "C118_accepted_partial",
    "C118_names_refuted"
   ],
   "note": "REFUTED: a name of more than 14 characters given twice is reported as a mismatch; names that begin with their own number can be overwritten without a message. Proved for names that do not begin with a digit (acceptance: up to 14 characters)."
  },
  {
   "property": "C119",
   "status": "proved",
   "theorems": [
    "C119_layout"
   ],
   "note": "Offsets are those of C09."
  },
  {
   "property": "C12",
   "status": "partial",
   "theorems": [
    "C12_best_monotone",
    "C12_result_cost",
    "C12_tabulated_not_worse",
    "C12_start_lost_refuted",
    "C12_zeros_refuted"
   ],
   "note": "REFUTED in bounded builds: the start can be lost by the faulty sort, and zeros are returned when nothing is below 10e10. Proved: monotone best cost, reported cost belongs to the result, tabulated builds never worse."
  },
  {
   "property": "C120",
   "status": "partial",
   "theorems": [
    "C120_comment_refuted",
    "C115_round_trip"
   ],
   "note": "REFUTED: a comment line with line end behind the last configuration is an error (unexpected end of file); without line end it is accepted. Comment lines before and between configurations: C115."
  },
  {
   "property": "C121",
   "status": "partial",
   "theorems": [
    "C121_values",
    "C121_gradient",
    "C121_sum_zero",
    "C121_error_sum_partial",
    "C121_unused_stress_refuted"
   ],
   "note": "REFUTED for the error sum: it counts the stresses of configurations whose forces or stresses are not used (force_ang_elstat.c:585-600 has no test of uf and us). Values, gradient, Newton's third law and the error sum as it is are proved for all inputs."
  },
  {
   "property": "C122",
   "status": "partial",
   "theorems": [
    "C122_tables_partial",
    "C122_whole_partial",
    "C122_last_value_refuted"
   ],
   "note": "REFUTED for the last number of each table over the squared distance: it is 0 even if the function is not smoothed and not zero there. All other numbers, info blocks, columns and the whole tables of functions that end with zero are proved for all inputs. The embedding tables of tabulated potentials include 500 (rho - end)^3 beyond the end (as the code has it)."
  },
  {
   "property": "C123",
   "status": "partial",
   "theorems": [
    "C123_meam_analytic_refuted",
    "C122_tables_partial"
   ],
   "note": "REFUTED for analytic MEAM potentials: g is read with the indices of calc_pot from opt_pot.table (potential_output_imd.c:625), behind its end for every potential with up to 300 parameters per function. For tabulated MEAM the indices are right: C122_tables_partial proves that the export succeeds."
  },
  {
   "property": "C124",
   "status": "partial",
   "theorems": [
    "C124_charges_partial",
    "C124_one_type_refuted",
    "C124_cutoffs_refuted",
    "C124_kind_refuted"
   ],
   "note": "REFUTED: with one type names[1] is read outside of the array; the cutoff of the first pair is written for all pairs; only three names are tested. Proved: the file is right if there are at least three functions, all of the same kind, apart from the cutoffs."
  },
  {
   "property": "C125",
   "status": "proved",
   "theorems": [
    "C125_stiweb",
    "C125_tersoff",
    "C125_tersoffmod"
   ],
   "note": ""
  },
  {
   "property": "C126",
   "status": "proved",
   "theorems": [
    "C126_tables",
    "C126_slots",
    "C126_angles"
   ],
   "note": "Real arithmetic. Columns are counted from the order of the functions in the potential file (SlotSpec). Rounding of 0.95*r and of shift is not modelled."
  },
  {
   "property": "C127",
   "status": "partial",
   "theorems": [
    "C127_end_potential_partial",
    "C127_start_written_refuted",
    "C127_table"
   ],
   "note": "REFUTED for analytic potentials: powell_lsq.c:133-136 returns before update_apot_table, so after a global fit with an error sum below 1e-12 (annealing without temp file, or differential evolution) the start values are written although the errors of the fit are reported (C127_start_written_refuted). C127_end_potential_partial: correct in all other cases; C127_table: tables, for calc_forces that leave the vector as it is."
  },
  {
   "property": "C128",
   "status": "partial",
   "theorems": [
    "C128_self_energy_dsf_partial",
    "C128_self_energy_shift_partial",
    "C128_self_energy_shift_refuted"
   ],
   "note": "REFUTED for the plain shift (without DSF): the constant of the shifted function is not part of the self energy; the difference is given exactly and is never zero (C128_self_energy_shift_partial, _refuted). Holds for the damped shifted force without dipoles (C128_self_energy_dsf_partial). erfc is any function with the value and slope at zero."
  },
  {
   "property": "C129",
   "status": "partial",
   "theorems": [
    "C129_blocks_partial",
    "C129_points_partial",
    "C129_last_point_refuted",
    "C129_meam_twice_refuted",
    "C129_missing_refuted",
    "C129_analytic"
   ],
   "note": "REFUTED: with tabulated MEAM potentials the transfer and embedding functions are written twice (C129_meam_twice_refuted), with two-band EAM and angular potentials functions are missing (C129_missing_refuted), and the last point of a tabulated function is 0 whatever its value (C129_last_point_refuted). Proved: analytic potentials (C129_analytic); tabulated pair, EAM and ADP potentials (C129_blocks_partial, C129_points_partial)."
  },
  {
   "property": "C13",
   "status": "partial",
   "theorems": [
    "C13_best_of_all_seen",
    "C13_current_cost",
    "C13_meam_rescale_not_worse",
    "C13_rescale_refuted",
    "C13_auto_temperature_refuted",
    "C13_current_cost_refuted"
   ],
   "note": "REFUTED for rescaling in non-MEAM builds, for the trial moves of the automatic temperature, and for the current cost when calc_forces normalises the trial vector (Tersoff S and R exchanged; C13_current_cost_refuted); proved otherwise."
  },
  {
   "property": "C130",
   "status": "proved",
   "theorems": [
    "C130_accepted",
    "C130_refused",
    "C130_unfinished"
   ],
   "note": "Lines longer than the buffer and KIM are not covered."
  },
  {
   "property": "C131",
   "status": "partial",
   "theorems": [
    "C131_fixed_partial",
    "C131_flag_refuted",
    "C131_second_format_refuted"
   ],
   "note": "REFUTED: a flag other than 0 and 1 fixes the function without being counted (C131_flag_refuted); a second #F clears the flags but not the count (C131_second_format_refuted). Proved for one #F and flags 0, 1."
  },
  {
   "property": "C132",
   "status": "partial",
   "theorems": [
    "C132_stiweb_accepts",
    "C132_stiweb",
    "C132_tersoff_partial",
    "C132_tersoffmod_partial",
    "C132_tersoff_refuted"
   ],
   "note": "REFUTED for Tersoff: S (R2) may exceed the cutoff, which is not checked (C132_tersoff_refuted); proved for Stillinger-Weber, and for both Tersoff forms if S (R2) is inside the cutoff."
  },
  {
   "property": "C133",
   "status": "partial",
   "theorems": [
    "C133_tersoff_accepts",
    "C133_tersoffmod_accepts",
    "C133_refused_partial",
    "C133_order_refuted",
    "C133_exchange_refuted",
    "C133_mod_refuted"
   ],
   "note": "REFUTED: limits with max S = min R are accepted although R < S is impossible (C133_order_refuted); exchanging S and R takes them out of their limits (C133_exchange_refuted); R1 and R2 of the modified form are not ordered (C133_mod_refuted). Proved: what is accepted exactly, and that refused limits do not allow R <= S."
  },
  {
   "property": "C134",
   "status": "partial",
   "theorems": [
    "C134_fails",
    "C134_positive",
    "C134_share_partial",
    "C134_share_less",
    "C134_share_more",
    "C134_share_refuted",
    "C134_half_refuted",
    "C134_half64",
    "C134_given"
   ],
   "note": "REFUTED: the sign in the formula is wrong; 3 of 10 steps downhill give a share of 0.92, 5 of 10 stop the run. Proved: the exact share in each case (0.8 if no step is downhill), when exactly the run stops, positive temperature."
  },
  {
   "property": "C135",
   "status": "partial",
   "theorems": [
    "C135_pair_tables",
    "C135_zero_weight_refuted",
    "C135_weighted_ratio_refuted",
    "C135_unused_refuted"
   ],
   "note": "REFUTED: weight 0, relative force weights (ratio column) and unused configurations; everything else of the tables proved for the pair routine"
  },
  {
   "property": "C136",
   "status": "partial",
   "theorems": [
    "C136_gauge",
    "C136_bands_refuted",
    "C136_limits",
    "C136_limits_refuted",
    "C136_columns",
    "C136_limit_lines"
   ],
   "note": "REFUTED: two bands and weighted limits; one band and weight 1 proved"
  },
  {
   "property": "C137",
   "status": "partial",
   "theorems": [
    "C137_heap",
    "C137_exact",
    "C137_stack",
    "C137_long_prefix_refuted",
    "C137_distinct",
    "C137_default_endpot",
    "C137_endpot",
    "C137_imd_distinct"
   ],
   "note": "REFUTED: names of output files made from prefixes of 247 characters and more leave the array of 255 bytes; heap copies, exact condition, distinctness proved"
  },
  {
   "property": "C138",
   "status": "partial",
   "theorems": [
    "C138_exact",
    "C138_written_names",
    "C138_long_name_refuted"
   ],
   "note": "REFUTED: parameter names of 30 characters and more are accepted and leave their block; exact condition and round trip proved"
  },
  {
   "property": "C139",
   "status": "partial",
   "theorems": [
    "C139_lines",
    "C139_averages",
    "C139_clamped_refuted"
   ],
   "note": "REFUTED: with RESCALE the table shows the density cut to the range of the embedding function, and a type without atoms has no mean. Proved: lines and means for all inputs."
  },
  {
   "property": "C14",
   "status": "proved",
   "theorems": [
    "C14_terminates"
   ],
   "note": ""
  },
  {
   "property": "C140",
   "status": "proved",
   "theorems": [
    "C140_table",
    "C140_assigned",
    "C140_parameters",
    "C140_named",
    "C140_complete"
   ],
   "note": "All functions of functions_impl.c and the table of functions.itm"
  },
  {
   "property": "C141",
   "status": "proved",
   "theorems": [
    "C141_relations"
   ],
   "note": ""
  },
  {
   "property": "C142",
   "status": "partial",
   "theorems": [
    "C142_lj",
    "C142_morse",
    "C142_universal",
    "C142_gen_lj",
    "C142_poly_5",
    "C142_bjs",
    "C142_bjs_zero",
    "C142_vas",
    "C142_vas_refuted",
    "C142_sheng_rho_refuted"
   ],
   "note": "REFUTED: vas (and stiweb_3) is larger than one beyond its radius; the density of Sheng jumps at 1.45. The other marks are proved."
  },
  {
   "property": "C143",
   "status": "proved",
   "theorems": [
    "C143_parabola",
    "C143_bound"
   ],
   "note": "Real arithmetic"
  },
  {
   "property": "C144",
   "status": "partial",
   "theorems": [
    "C144_names",
    "C144_eopp_exp_refuted"
   ],
   "note": "REFUTED: eopp_exp is punished as eopp"
  },
  {
   "property": "C145",
   "status": "proved",
   "theorems": [
    "C145_types"
   ],
   "note": "Builds without KIM"
  },
  {
   "property": "C146",
   "status": "partial",
   "theorems": [
    "C146_atoms",
    "C146_no_angles",
    "C146_refuted"
   ],
   "note": "REFUTED: in MEAM, Stillinger-Weber and Tersoff builds an atom with fewer than two neighbours has no angles and the parallel run stops with an allocation error. Otherwise proved."
  },
  {
   "property": "C147",
   "status": "proved",
   "theorems": [
    "C147_globals",
    "C147_tails",
    "C147_scattered"
   ],
   "note": "The list of variables read is taken from the force routines by hand"
  },
  {
   "property": "C148",
   "status": "proved",
   "theorems": [
    "C148_same",
    "C148_sizes",
    "C148_middle"
   ],
   "note": "For a generator at the end of its block (fresh, or after an earlier array), all sizes that pass the assertions; C148_middle gives the exact effect of the use the comment forbids."
  },
  {
   "property": "C149",
   "status": "proved",
   "theorems": [
    "C149_range",
    "C149_related",
    "C149_array",
    "C149_seed"
   ],
   "note": "All seeds, both initialisations, single numbers and arrays."
  },
  {
   "property": "C15",
   "status": "partial",
   "theorems": [
    "C15_bounded_fixed_unchanged",
    "C15_tab_move_partial",
    "C15_tab_move_refuted",
    "C15_step_width",
    "C15_accepted_count"
   ],
   "note": "REFUTED for tabulated potentials (index one past the end); proved for bounded builds and for narrow moves."
  },
  {
   "property": "C150",
   "status": "proved",
   "theorems": [
    "C150_hessians"
   ],
   "note": "costs below 10^12 (VERY_LARGE) as in the code; real arithmetic"
  },
  {
   "property": "C151",
   "status": "partial",
   "theorems": [
    "C151_ends",
    "C151_eigenvectors",
    "C151_svd",
    "C151_remains",
    "C151_second_attempt_refuted"
   ],
   "note": "REFUTED: after a failed dsyevx the destroyed matrix is decomposed; proved for convergence in the first attempt and for SVD; LAPACK by contract"
  },
  {
   "property": "C152",
   "status": "proved",
   "theorems": [
    "C152_run",
    "C152_ends"
   ],
   "note": "real arithmetic; text of the file not modelled"
  },
  {
   "property": "C153",
   "status": "partial",
   "theorems": [
    "C153_equidistant",
    "C153_points",
    "C153_charges",
    "C153_charges_refuted"
   ],
   "note": "REFUTED: elstat and eam_coulomb routines stop with an error for tables with coordinates (missing break). Proved for analytic and equidistant tables in all routines and for tables with coordinates in pair, EAM, TBEAM, ADP; ANG/MEAM with coordinates: C113"
  },
  {
   "property": "C154",
   "status": "partial",
   "theorems": [
    "C154_doubles",
    "C154_integers",
    "C154_integers_refuted",
    "C154_without_fit",
    "C154_without_fit_refuted"
   ],
   "note": "REFUTED: after a fit integers are written as 0; without a fit the defaults of the model are written. Doubles after a fit are proved right"
  },
  {
   "property": "C155",
   "status": "partial",
   "theorems": [
    "C155_read_back",
    "C155_template",
    "C155_integers_refuted",
    "C155_small_refuted",
    "C155_printf"
   ],
   "note": "REFUTED: integers starting with 9 or '-' are refused, limits and values below 5e-7 come back as 0 and fixed. Proved for all other files"
  },
  {
   "property": "C156",
   "status": "partial",
   "theorems": [
    "C156_sections",
    "C156_names_refuted"
   ],
   "note": "REFUTED: a prefix of the name is accepted. Proved with prefixes"
  },
  {
   "property": "C157",
   "status": "proved",
   "theorems": [
    "C157_linear"
   ],
   "note": "Builds without composition nodes (CN not defined)."
  },
  {
   "property": "C158",
   "status": "proved",
   "theorems": [
    "C158_error_sum",
    "C158_entries"
   ],
   "note": "The contents of the KIM results are arguments."
  },
  {
   "property": "C159",
   "status": "partial",
   "theorems": [
    "C159_per_atom_refuted",
    "C158_entries"
   ],
   "note": "REFUTED: the energy of the whole cell is compared with the reference energy per atom (force_kim.c:287); C158_entries gives the entry for all inputs."
  },
  {
   "property": "C16",
   "status": "partial",
   "theorems": [
    "C16_move_in_bounds_partial",
    "C16_move_distance",
    "C16_move_refuted"
   ],
   "note": "REFUTED: after ten failed attempts the last value is used."
  },
  {
   "property": "C160",
   "status": "partial",
   "theorems": [
    "C160_stresses",
    "C160_stresses_refuted"
   ],
   "note": "REFUTED: sign and order of the components differ; C160_stresses gives the entries that remain for references that agree. The convention of the KIM API is taken from its documentation."
  },
  {
   "property": "C161",
   "status": "partial",
   "theorems": [
    "C161_lists_suffice",
    "C161_history",
    "C161_return_refuted",
    "C161_get_neigh"
   ],
   "note": "REFUTED: a radius that shrinks and returns stops the run, and the first padding atom gets the list of another configuration; proved: the lists suffice as long as the run goes on."
  },
  {
   "property": "C162",
   "status": "partial",
   "theorems": [
    "C162_accepted",
    "C162_use_forces",
    "C162_use_stress",
    "C162_unused_forces_refuted",
    "C162_required_forces_refuted",
    "C162_unused_stress_refuted"
   ],
   "note": "REFUTED: models without forces are refused even if no configuration uses forces, and so are models that require forces; the virial is asked for if only configurations without forces have stresses. C162_accepted says exactly which models are accepted. Answers of the KIM library are arguments."
  },
  {
   "property": "C163",
   "status": "partial",
   "theorems": [
    "C163_callbacks",
    "C163_required",
    "C163_species",
    "C163_codes",
    "C163_codes_refuted",
    "C162_accepted"
   ],
   "note": "REFUTED: atoms of configurations before the first one with element names keep the code -1 (config.c:974); C163_codes gives all codes."
  },
  {
   "property": "C164",
   "status": "partial",
   "theorems": [
    "C164_histogram",
    "C164_lines",
    "C164_below",
    "C164_above",
    "C164_above_4",
    "C164_density_lost_refuted",
    "C164_rescale_refuted",
    "C164_column"
   ],
   "note": "REFUTED: a density at or above the end of an embedding table (format 3) is counted in an element of which no line is written, so it is missing in the file; with RESCALE it is counted outside of the array. Proved: the histogram for arguments inside of the tables, the lines, and where densities outside of the table go."
  },
  {
   "property": "C165",
   "status": "partial",
   "theorems": [
    "C165_restored",
    "C165_optimum",
    "C165_not_worse",
    "C165_best",
    "C165_tables_refuted",
    "C165_rescaled_refuted"
   ],
   "note": "REFUTED: builds other than MEAM do not store the tables, so with RESCALE the parameters of the optimum are put into tables of later rescalings and the result can be worse than the start; a potential that became better by rescaling is not recorded. Proved: the tables are restored, MEAM ends with the recorded optimum, without rescaling every build ends with the best parameters."
  },
  {
   "property": "C166",
   "status": "partial",
   "theorems": [
    "C166_accepted",
    "C166_species",
    "C166_defaults",
    "C166_no_room",
    "C166_value_refuted"
   ],
   "note": "REFUTED: a value that cannot be read from the model is taken as 0 without an error. Proved: the exact condition for going on, the species, the places of the values; default parameters are all free, but both limits are the value."
  },
  {
   "property": "C167",
   "status": "proved",
   "theorems": [
    "C167_contrib",
    "C167_distances",
    "C167_volume"
   ],
   "note": "real numbers; stresses, energies and forces are not changed by the parameter"
  },
  {
   "property": "C168",
   "status": "partial",
   "theorems": [
    "C168_marked_partial",
    "C168_unknown_partial",
    "C168_none_partial",
    "C168_template_refuted",
    "C168_blanks_refuted",
    "C168_indented_refuted",
    "C168_sound"
   ],
   "note": "REFUTED: an empty first line after the header (as in potfit's own template) compares a variable that has not been set (C168_template_refuted), lines of blanks are errors (C168_blanks_refuted), an indented keyword counts as none (C168_indented_refuted). Proved for files whose first line is not empty and without such lines: C168_marked_partial, C168_unknown_partial, C168_none_partial. For every file: C168_sound."
  },
  {
   "property": "C17",
   "status": "proved",
   "theorems": [
    "C17_bracket",
    "C17_bracket_bounded"
   ],
   "note": "exact arithmetic; error exit when no bracket is found within 100 evaluations"
  },
  {
   "property": "C18",
   "status": "proved",
   "theorems": [
    "C18_brent"
   ],
   "note": "exact arithmetic"
  },
  {
   "property": "C19",
   "status": "proved",
   "theorems": [
    "C19_linmin"
   ],
   "note": "exact arithmetic"
  },
  {
   "property": "C20",
   "status": "proved",
   "theorems": [
    "C20_normal_equations",
    "C20_init",
    "C20_update",
    "C20_replaced_column",
    "C20_direction"
   ],
   "note": "exact arithmetic; LAPACK solver and square root are arbitrary functions"
  },
  {
   "property": "C21",
   "status": "proved",
   "theorems": [
    "C21_never_worse",
    "C21_terminates"
   ],
   "note": "exact arithmetic; cost is a function of the parameter values; RESCALE last resort left out"
  },
  {
   "property": "C22",
   "status": "proved",
   "theorems": [
    "C22_spline_ed",
    "C22_spline_ne"
   ],
   "note": "Equidistant and listed sampling points, at least two points, clamped and natural ends; second derivatives as stored by update_splines."
  },
  {
   "property": "C23",
   "status": "partial",
   "theorems": [
    "C23_comb_ed",
    "C23_comb_ne",
    "C23_comb_dir",
    "C23_comb_ed_end_refuted",
    "C22_spline_ed",
    "C22_spline_ne"
   ],
   "note": "REFUTED at the right end of an equidistant table: splint_comb_ed takes the gradient there from the entry behind the column (C23_comb_ed_end_refuted). Proved for all other arguments and for listed points; that the gradient is the derivative is part of C22."
  },
  {
   "property": "C24",
   "status": "proved",
   "theorems": [
    "C24_slot_ed",
    "C24_slot_ne",
    "C24_bisection",
    "C24_short"
   ],
   "note": "Equidistant lookup, bisection and the precomputed slots of set_neighbor_slot."
  },
  {
   "property": "C25",
   "status": "proved",
   "theorems": [
    "C25_complete_and_sound",
    "C25_outside_refuted"
   ],
   "note": "For atoms in the unit cell, every cell shape and cutoff, half and full lists. C25_outside_refuted: for atoms outside the cell (not checked by the code) neighbours are missed."
  },
  {
   "property": "C26",
   "status": "proved",
   "theorems": [
    "C26_passes_agree",
    "C26_each_pair_once"
   ],
   "note": "Both passes modelled with the reserved size as a bound; pairs in the half lists."
  },
  {
   "property": "C27",
   "status": "proved",
   "theorems": [
    "C27_textbook_pair_model",
    "C27_forces_sum_to_zero",
    "C27_stress_components"
   ],
   "note": "Doubles as reals; spline values of the pair function and its slope enter as functions of the two types and the distance. Sums over the half lists of init_neighbors equal the textbook sums over all neighbours."
  },
  {
   "property": "C28",
   "status": "proved",
   "theorems": [
    "C28_final_when_scored",
    "C28_lists_ordered",
    "C70_error_sum_of_final_vector"
   ],
   "note": "Pair model: every configuration and every order of lists in which neighbours come later in the configuration (shown for the lists of init_neighbors). EAM: see C70."
  },
  {
   "property": "C29",
   "status": "proved",
   "theorems": [
    "C29_error_nonneg",
    "C29_zero_iff_all_match"
   ],
   "note": "With the punishments of analytic potentials as a given addend."
  },
  {
   "property": "C30",
   "status": "proved",
   "theorems": [
    "C30_textbook_eam",
    "C30_textbook_any_density",
    "C30_forces_sum_to_zero"
   ],
   "note": "Doubles as reals; table values enter as functions. Densities inside the tables (C30_textbook_eam) or anywhere (C30_textbook_any_density). TBEAM builds: bands nested, see C71."
  },
  {
   "property": "C31",
   "status": "partial",
   "theorems": [
    "C31_left_continuous",
    "C31_clamped_continuous",
    "C31_right_continuous_iff",
    "C31_refuted",
    "C31_slope"
   ],
   "note": "REFUTED at the right end of the embedding table: the linear continuation starts from the value half a step before the end (force_eam.c), so there is a jump unless both values agree. Proved: continuity at the left end, continuity everywhere in rescaling builds."
  },
  {
   "property": "C32",
   "status": "partial",
   "theorems": [
    "C32_pair_cell_independent",
    "C32_eam_cell_independent",
    "C32_supercell_same_crystal",
    "C32_sw_cell_independent_partial",
    "C32_sw_cells_refuted",
    "C32_ang_cell_independent",
    "C32_ters_cell_independent_partial",
    "C32_ters_cells_refuted",
    "C32_mod_cell_independent_partial",
    "C32_mod_cells_refuted",
    "C32_adp_cells_partial",
    "C32_adp_cells_refuted",
    "C32_meam_cell_independent",
    "C32_el_cell_independent",
    "C32_eam_elstat_cell_independent",
    "C32_ang_elstat_cell_independent"
   ],
   "note": "REFUTED for Stillinger-Weber, both Tersoff forms (energy) and ADP (stress): pairs of an atom with its own images have the wrong weight, so a one-atom cell and its doubled cell differ. Proved for the pair, EAM, angular and MEAM routines (all cells), for Stillinger-Weber and Tersoff in cells without self images, and for ADP: energies always, stresses up to the own-image terms. Proved for the electrostatic routine too (with dipoles: if the stored fields repeat with the cell and polarisable types have charges)."
  },
  {
   "property": "C33",
   "status": "partial",
   "theorems": [
    "C33_pair_sum",
    "C33_eam_sum",
    "C33_hidden_refuted",
    "C33_rms_forces_partial",
    "C33_unweighted",
    "C33_rms_energies",
    "C33_rms_stresses_partial",
    "C33_rms_refuted",
    "C33_sw_sum",
    "C33_tersoff_sum",
    "C33_tersoffmod_sum",
    "C33_ang_sum",
    "C33_ang_elstat_sum",
    "C33_meam_sum",
    "C33_adp_sum",
    "C33_elstat_sum",
    "C33_eam_elstat_sum",
    "C33_all_used",
    "C33_sw_refuted"
   ],
   "note": "REFUTED: punishments up to 0.01 (or without a fit) are not shown; configurations whose forces are not used count as perfect in the rms; for Stillinger-Weber the reported force sum contains forces of unused configurations that are not part of the total, so the lines exceed it (C33_sw_refuted). Proved for all eleven force routines (KIM excepted): the reported sums, punishments and constraints add up to the total, minus exactly the left-out entries for Stillinger-Weber, Tersoff and angular potentials with charges (zero if all configurations use forces and stresses, C33_all_used); rms values are those of all contributing atoms, all energies and stresses."
  },
  {
   "property": "C34",
   "status": "partial",
   "theorems": [
    "C34_normalised",
    "C34_bounds_refuted",
    "C34_termination_refuted"
   ],
   "note": "REFUTED in two respects: the loop does not end for binary64 angles of 2^57 and more (witness 2^60), and a normalised angle can leave the bounds given for it. Over the reals: ends, angles in [0,2 pi], function values unchanged, Tersoff cutoffs ordered (the exchange itself changes the Tersoff function, which is then evaluated with the exchanged values), nothing else changed."
  },
  {
   "property": "C35",
   "status": "proved",
   "theorems": [
    "C35_factor",
    "C35_smooth"
   ],
   "note": "over the reals"
  },
  {
   "property": "C36",
   "status": "partial",
   "theorems": [
    "C36_bounds",
    "C36_general",
    "C36_eopp_refuted"
   ],
   "note": "REFUTED for the eopp function: the punishment for wrongly ordered exponents is (1+x)^2 with x<0, zero at x=-1. Proved for the bounds, and the exact sum in general."
  },
  {
   "property": "C37",
   "status": "partial",
   "theorems": [
    "C37_entries",
    "C37_stale_refuted"
   ],
   "note": "REFUTED: entries are not reset when a parameter returns into its range. Proved: which entries are written and with what."
  },
  {
   "property": "C38",
   "status": "proved",
   "theorems": [
    "C38_shift_zero",
    "C38_shift_gradient",
    "C38_shift_second",
    "C38_dsf_zero",
    "C38_dsf_gradient",
    "C38_shortrange_gradient"
   ],
   "note": "over the reals; erfc is any function with the derivative of the complementary error function. Damped shifted forces: without dipoles."
  },
  {
   "property": "C39",
   "status": "partial",
   "theorems": [
    "C39_values_zero",
    "C39_ms_slope_partial",
    "C39_buck_slope_partial",
    "C39_ms_refuted",
    "C39_buck_refuted"
   ],
   "note": "REFUTED: the value is zero at the cutoff, the slope is not unless the cutoff is 1 or the gradient vanishes."
  },
  {
   "property": "C40",
   "status": "partial",
   "theorems": [
    "C40_sorted",
    "C40_no_nodes",
    "C40_first_partial",
    "C40_last_partial",
    "C40_between_refuted",
    "C40_between",
    "C40_one_node"
   ],
   "note": "REFUTED for two and more nodes (wrong index between nodes). Proved: sorting, no nodes, left of the first and right of the last node. Composition nodes cannot be read in normal builds (potential_input_f0.c:400 needs CN)."
  },
  {
   "property": "C41",
   "status": "partial",
   "theorems": [
    "C41_digits",
    "C41_format3",
    "C41_format4",
    "C41_through",
    "C41_adp_refuted",
    "C41_flag_refuted"
   ],
   "note": "REFUTED: a format 3 potential is left in format 4 (C42); ADP quadrupole functions then have one more free value, MEAM/TBEAM/ANG cannot read it back (C82); flags of #I other than 0 and 1 are not written (C41_flag_refuted). Proved: 17 digits identify a double; format 3 files (all builds but ANG) and format 4 files (pair, EAM, ADP) round-trip exactly, table, points, gradients and free parameters, for every conversion conforming to the C standard; a format 3 potential read back from format 4 has the same data, and for pair and EAM the same free parameters."
  },
  {
   "property": "C42",
   "status": "partial",
   "theorems": [
    "C42_format4",
    "C42_refuted"
   ],
   "note": "REFUTED: every potential read in format 3 is left in format 4 (missing break). Proved for format 4. Formats 0 and 5 not modelled here."
  },
  {
   "property": "C43",
   "status": "partial",
   "theorems": [
    "C43_readable",
    "C43_exact",
    "C43_stable",
    "C43_errors",
    "C43_value_refuted",
    "C43_free_refuted",
    "C43_moved_refuted",
    "C43_elstat_refuted",
    "C43_unused_globals"
   ],
   "note": "REFUTED: eight decimals do not keep a value (C43_value_refuted); four decimals for the limits turn a free parameter into a fixed one (C43_free_refuted) or move a value by thousands of its last digits (C43_moved_refuted); files with charges cannot be read back at all, the line ratio is not written (C43_elstat_refuted); unused global parameters are dropped. Proved: files without charges are readable and give the rounded table (C43_readable), exactly the same table if all numbers fit (C43_exact), a second trip changes nothing (C43_stable), error bounds (C43_errors)."
  },
  {
   "property": "C44",
   "status": "partial",
   "theorems": [
    "C44_index_partial",
    "C44_table_follows_partial",
    "C44_fixed_chempot_refuted",
    "C44_elstat_globals_refuted"
   ],
   "note": "REFUTED for two kinds of input (fixed chemical potential before a free one; electrostatics together with global parameters: kappa/charges and globals are read at each other's places). Proved for all other analytic inputs: index lists exactly the free parameters, once, at the place where they are read; the analytic table follows the optimised one. Tabulated formats 3/4 not part of these theorems."
  },
  {
   "property": "C45",
   "status": "partial",
   "theorems": [
    "C45_start_in_bounds_partial",
    "C45_line",
    "C45_swapped_refuted",
    "C45_elstat_refuted"
   ],
   "note": "REFUTED: bounds in the wrong order skip the range check; electrostatic parameters are never checked. Proved under the absence of both; exact effect of a checked line proved for all lines."
  },
  {
   "property": "C46",
   "status": "partial",
   "theorems": [
    "C46_binding_partial",
    "C46_unique_names",
    "C46_prefix_refuted"
   ],
   "note": "REFUTED: strncmp compares only the written prefix, last match wins. Proved when no other global name starts with the written name; otherwise binding is to a global with this prefix, and files without one are refused."
  },
  {
   "property": "C47",
   "status": "partial",
   "theorems": [
    "C47_table_current_partial",
    "C47_current_parameters",
    "C47_update_total",
    "C47_invariant_global_refuted"
   ],
   "note": "REFUTED for an invariant potential with a parameter bound to a global (stale table). Proved for every history for all other columns of files without fixed chemical potentials and electrostatics. Old parameters compared with == : NaN and -0 not modelled (reals)."
  },
  {
   "property": "C48",
   "status": "partial",
   "theorems": [
    "C48_cutoff_partial",
    "C48_cutoff_refuted"
   ],
   "note": "REFUTED for TBEAM, ADP, MEAM and angular potentials (columns ignored by calculate_cutoffs); proved for pair and EAM potentials incl. electrostatic cutoff."
  },
  {
   "property": "C49",
   "status": "partial",
   "theorems": [
    "C49_energy_partial",
    "C49_update_partial",
    "C49_nodes",
    "C49_not_needed",
    "C49_refuted",
    "C49_factor",
    "C112_negative_slope_refuted"
   ],
   "note": "REFUTED: between its points the resampled embedding function differs (C49_refuted, light witness). Proved: energies unchanged for cubic embedding functions and pair functions on the points of the transfer functions, positive dominant density; every embedding function is reproduced at its new points."
  },
  {
   "property": "C50",
   "status": "partial",
   "theorems": [
    "C50_two_body",
    "C50_three_body",
    "C50_three_body_close",
    "C50_refuted",
    "C50_digits_refuted",
    "C50_degenerate_refuted"
   ],
   "note": "REFUTED: a1 = a2 is compared for the first pair only, so with several types the three-body function exported can vanish where the fit's does not; -1/3 and all parameters are printed with six digits, so the ideal angle has an energy; B = 0 gives no numbers. Proved for exact printing: the two-body function agrees at all distances (delta > 0, B not 0); the three-body function agrees if a1 = a2 for both pairs, up to exp(-100) of the angular factor next to the cutoff."
  },
  {
   "property": "C51",
   "status": "partial",
   "theorems": [
    "C51_cutoff",
    "C51_energy_partial",
    "C51_chi_refuted",
    "C51_omega_refuted",
    "C51_cutoffs_refuted",
    "C51_mod_cutoff",
    "C51_mod_energy_partial",
    "C51_mod_cutoffs_refuted"
   ],
   "note": "REFUTED: chi is exported though the fit never uses it; the line i j k carries omega and the cutoffs of the pair i j, not i k. Proved (exact printing): same cutoff function for all parameters with S > R; same energy of each bond in each environment when the pairs of the central type agree in cutoffs and omega and chi is 1, for tersoff and tersoff/mod."
  },
  {
   "property": "C52",
   "status": "partial",
   "theorems": [
    "C52_analytic",
    "C52_tabulated",
    "C52_refuted"
   ],
   "note": "REFUTED for tabulated potentials: the fourth column is the derivative, not its negative. Proved: for analytic potentials the third column is the function and the fourth the negative derivative at a point within one step; for equidistant tables all rows have value and derivative of the interpolated function."
  },
  {
   "property": "C53",
   "status": "proved",
   "theorems": [
    "C53_mass_agrees",
    "C53_own_element",
    "C53_unknown",
    "C53_every_number",
    "C53_masses_plausible"
   ],
   "note": "Whole element table: masses of number and name agree, every number 0..112 finds itself, unknown names reported. Finding: the symbols of Seaborgium and Bohrium are stored as XX and Bf."
  },
  {
   "property": "C54",
   "status": "partial",
   "theorems": [
    "C54_exact_test",
    "C54_inside_partial",
    "C54_outside_refuted",
    "C54_skew_refuted"
   ],
   "note": "REFUTED: config.c:1659-1668 truncates to int, so projections in (-1,2) are accepted (27 times the box volume); for skew boxes atoms inside can be rejected. Proved: the exact test, and that no atom of an orthogonal box or a sphere is lost."
  },
  {
   "property": "C55",
   "status": "partial",
   "theorems": [
    "C55_counts",
    "C55_bins",
    "C55_cutoff_refuted",
    "C55_column_refuted"
   ],
   "note": "REFUTED: a neighbour at r = rcut (accepted by init_neighbors) is counted in the next column or behind the block (config.c:1588-1596). Proved: the counts for all neighbours below the cutoff."
  },
  {
   "property": "C56",
   "status": "partial",
   "theorems": [
    "C56_read_iff_plain",
    "C56_refuted",
    "C56_too_large_refuted"
   ],
   "note": "REFUTED: numerals starting with 9, - or + are refused (test of the first character), values beyond int wrap. Proved: exact characterisation, values starting with 0..8 that fit are read as written."
  },
  {
   "property": "C57",
   "status": "partial",
   "theorems": [
    "C57_layout",
    "C57_pointers",
    "C57_other_globals",
    "C57_refuted"
   ],
   "note": "REFUTED: the search for the pair of a global three-body strength counts upwards, so for any number of types every global lambda except that of the last type with itself writes outside of the array (C57_other_globals, C57_refuted). Proved for all numbers of types: all pointers are right when no such global is used. Not modelled: the test whether the address changed."
  },
  {
   "property": "C58",
   "status": "partial",
   "theorems": [
    "C58_pair_parameters",
    "C58_mixing_partial",
    "C58_refuted",
    "C58_global_refuted",
    "C58_tersoffmod"
   ],
   "note": "REFUTED for three or more types: chi and omega of the last like pair are read behind all parameters (C58_refuted, all n >= 3), and for two or more types a global of the first mixing table changes the first like pair (C58_global_refuted). Proved: pair parameters for all numbers of types, mixing parameters for one and two types without such globals, TERSOFFMOD."
  },
  {
   "property": "C59",
   "status": "partial",
   "theorems": [
    "C59_matrix",
    "C59_quadratic",
    "C59_both_increased_refuted",
    "C59_rounding_refuted"
   ],
   "note": "REFUTED for parameters and better fits: costs at (+,+) and (-,-) are never compared (C59_both_increased_refuted), and in double precision adding and subtracting does not restore the parameter (C59_rounding_refuted). Symmetry, central differences, kept best fit among the compared points and exactness for all quadratic costs are proved over the reals."
  },
  {
   "property": "C60",
   "status": "proved",
   "theorems": [
    "C60_members",
    "C60_eigenvalues",
    "C60_raised",
    "C60_negative"
   ],
   "note": "Over the reals, for every random stream and cost function; eigenvalues and eigenvectors are inputs (LAPACK not modelled)."
  },
  {
   "property": "C61",
   "status": "proved",
   "theorems": [
    "C61_valid",
    "C61_two_deviates"
   ],
   "note": "Over the reals; the loop over rejected pairs has fuel, and NoEnd is given only when no pair was accepted."
  },
  {
   "property": "C62",
   "status": "partial",
   "theorems": [
    "C62_all_finish",
    "C62_lockstep",
    "C62_input_refuted",
    "C62_refuted"
   ],
   "note": "REFUTED: an error while the root reads its input leaves the workers waiting, and an error(1) raised during an evaluation on any process leaves the processes in different collective operations. Proved otherwise, for every sequence of requests, number of workers and build: all processes finish, each worker evaluates exactly the tables requested in order, is never out of step with the root and leaves the loop exactly when the root sends the stop request; an error of the root between evaluations ends all processes."
  },
  {
   "property": "C63",
   "status": "partial",
   "theorems": [
    "C63_dual",
    "C63_reconstruct",
    "C63_volume",
    "C63_volume_positive_refuted"
   ],
   "note": "Duality and reconstruction proved. REFUTED part: the volume is negative for left-handed boxes (C63_volume_positive_refuted); it is used as a divisor of the stresses."
  },
  {
   "property": "C64",
   "status": "proved",
   "theorems": [
    "C64_angles",
    "C64_range"
   ],
   "note": "All numbers of neighbours, cutoffs and directions; the four force routines."
  },
  {
   "property": "C65",
   "status": "partial",
   "theorems": [
    "C65_densities_partial",
    "C65_others",
    "C65_refuted"
   ],
   "note": "REFUTED for cells in which an atom sees its own images (those are left out). Proved: equal to the densities of the energy otherwise."
  },
  {
   "property": "C66",
   "status": "partial",
   "theorems": [
    "C66_gradient",
    "C66_exact_if_affine",
    "C66_restart_refuted",
    "C66_step"
   ],
   "note": "REFUTED: at restarts the derivative matrix is built against forces_2, the deviation vector of another point (powell_lsq.c:154). Proved: what gamma_init builds from the vector it is given, exact for affine deviations at the first iteration."
  },
  {
   "property": "C67",
   "status": "proved",
   "theorems": [
    "C67_inside",
    "C67_left",
    "C67_right"
   ],
   "note": "splint_ne_lin equals the spline inside and its tangent outside on both sides."
  },
  {
   "property": "C68",
   "status": "proved",
   "theorems": [
    "C68_padding",
    "C68_particle_place"
   ],
   "note": "All configurations with atoms in the cell."
  },
  {
   "property": "C69",
   "status": "proved",
   "theorems": [
    "C69_table_starts"
   ],
   "note": "pair columns and EAM transfer columns of analytic builds; the TBEAM, dipole and angular columns use the same minimum and are not modelled"
  },
  {
   "property": "C70",
   "status": "proved",
   "theorems": [
    "C70_error_sum_of_final_vector",
    "C70_constraints"
   ],
   "note": "All build variants of the EAM routine."
  },
  {
   "property": "C71",
   "status": "partial",
   "theorems": [
    "C71_refuted",
    "C30_textbook_any_density"
   ],
   "note": "REFUTED when the s-band reaches farther than the d-band. Proved (C30) when every pair inside the s-band is inside the d-band."
  },
  {
   "property": "C72",
   "status": "proved",
   "theorems": [
    "C72_pair_force_is_gradient",
    "C72_eam_force_is_gradient",
    "C72_adp_force_is_gradient",
    "C72_meam_force_is_gradient",
    "C72_charges_force_is_gradient",
    "C72_dsf_force_is_gradient",
    "C72_dipoles_force_is_gradient_partial"
   ],
   "note": "Derivative at the current positions of the energy over the bonds present; the functions cut at their ends have to be differentiable at the bond lengths. With C27, C30, C95, C97, C100 the right side is what the routines compute. For dipoles: at fixed dipoles (see C103)."
  },
  {
   "property": "C73",
   "status": "partial",
   "theorems": [
    "C73_limits_and_index",
    "C73_refuted"
   ],
   "note": "REFUTED for '!' lines (free parameter with limits 0,0). Proved for all files without such lines."
  },
  {
   "property": "C74",
   "status": "partial",
   "theorems": [
    "C74_values_passed",
    "C74_default_refuted",
    "C74_integer_refuted"
   ],
   "note": "REFUTED: a parameter set back to its default keeps its old value in the model; an integer parameter shifts the values. Proved for models with double parameters as long as no parameter returns to its default."
  },
  {
   "property": "C75",
   "status": "partial",
   "theorems": [
    "C75_exact",
    "C75_fresh_vector",
    "C75_refuted"
   ],
   "note": "REFUTED: forces are added to the previous contents of the vector. Proved: exact result, right for a zeroed vector."
  },
  {
   "property": "C76",
   "status": "partial",
   "theorems": [
    "C76_analytic",
    "C76_end_refuted",
    "C76_tabulated_refuted"
   ],
   "note": "REFUTED: in tabulated MEAM and ANG builds the slots of the angles are never set (value is the first table entry, slope divides by zero); in ANG the slope at cosine 1 reads behind the column. Proved for analytic builds inside of the table."
  },
  {
   "property": "C77",
   "status": "partial",
   "theorems": [
    "C77_norm_partial",
    "C77_norm_refuted"
   ],
   "note": "REFUTED in general: the weights (configuration, eng_weight, stress_weight) multiply the squares in the error sum, not the entries of the deviation vector (force_pair.c:262-293), so the least squares optimiser linearises a different sum. Proved for unit weights (pair routine, forces and stresses used, no CONTRIB)."
  },
  {
   "property": "C78",
   "status": "partial",
   "theorems": [
    "C78_shift",
    "C78_refuted"
   ],
   "note": "REFUTED: a smooth cutoff (_sc) is accepted for these potentials and shifts the parameters of all later columns by one (C78_shift gives the exact shift; zero shift without smooth cutoffs; blocks without globals)."
  },
  {
   "property": "C79",
   "status": "partial",
   "theorems": [
    "C60_members",
    "C79_last_line_refuted"
   ],
   "note": "REFUTED for the last line (C79_last_line_refuted): weight and attempts of the last recorded member count moves never made. For all other lines the weight is the number of moves tried and attempts the running total (relation recorded in C60_members)."
  },
  {
   "property": "C80",
   "status": "partial",
   "theorems": [
    "C80_bracket",
    "C80_ends",
    "C80_result",
    "C80_zero_refuted",
    "C80_jump_refuted",
    "C80_jump",
    "C80_exact_refuted"
   ],
   "note": "REFUTED: never ends for a parameter with the value zero (C80_zero_refuted) or a cost that jumps over the aim (C80_jump_refuted); 0/0 when the aim is met exactly (C80_exact_refuted). Proved: ends for continuous costs that grow beyond the aim (C80_ends); every number returned is the point where the line through two enclosing points meets the aim (C80_bracket, C80_result)."
  },
  {
   "property": "C81",
   "status": "partial",
   "theorems": [
    "C81_cutoff_partial",
    "C81_symmetric",
    "C81_largest",
    "C81_all_functions",
    "C81_all_starts",
    "C81_refuted",
    "C81_starts_refuted",
    "C81_sufficient",
    "C81_extremes"
   ],
   "note": "REFUTED for TBEAM, ADP, MEAM, ANG and STIWEB, for every number of types and every pair of types; proved for pair and EAM potentials, and for the others if the further functions do not end behind the pair function. Cutoffs are symmetric and bounded by rcutmax, as C25 and C26 assume."
  },
  {
   "property": "C82",
   "status": "partial",
   "theorems": [
    "C82_columns3",
    "C82_columns4",
    "C82_free3",
    "C82_free4",
    "C82_lost4_refuted",
    "C82_ang_refuted",
    "C82_tbeam4_refuted",
    "C82_tbeam1_refuted",
    "C82_gradients"
   ],
   "note": "REFUTED: ANG (both formats), MEAM (format 4), TBEAM (format 4; one, two and four types shown). Proved for the other builds: all columns are read, and the free values are exactly those named by the documented classes and flags."
  },
  {
   "property": "C83",
   "status": "partial",
   "theorems": [
    "C83_refuted"
   ],
   "note": "REFUTED: errors.c divides by 160.2 instead of multiplying."
  },
  {
   "property": "C84",
   "status": "partial",
   "theorems": [
    "C84_analytic",
    "C84_order",
    "C84_tabulated_refuted",
    "C84_step_refuted"
   ],
   "note": "REFUTED: equidistant tables beginning after the first step of the export stop the program, and the step in the header is rounded to six decimals. Proved: analytic blocks contain the values at i dr (times r for pair functions), and pair blocks are in the order of the format for every number of types."
  },
  {
   "property": "C85",
   "status": "partial",
   "theorems": [
    "C85_order_partial",
    "C85_order_refuted",
    "C85_scaled_refuted"
   ],
   "note": "REFUTED: with three types dipole and quadrupole functions are written in another order than the format's; analytic dipole and quadrupole functions are multiplied by r, which the format does not do. Proved: the order is right for one and two types."
  },
  {
   "property": "C86",
   "status": "partial",
   "theorems": [
    "C86_eq_dist",
    "C86_refuted"
   ],
   "note": "REFUTED for format 4 (points of the embedding function are not sent). Proved for format 3."
  },
  {
   "property": "C87",
   "status": "partial",
   "theorems": [
    "C87_contains",
    "C87_refuted"
   ],
   "note": "REFUTED for types without atoms. Proved for all types with atoms."
  },
  {
   "property": "C88",
   "status": "partial",
   "theorems": [
    "C88_values",
    "C88_textbook_partial",
    "C88_self_refuted",
    "C88_gradient",
    "C88_pair_symmetric",
    "C88_cutoff_error",
    "C88_sum_zero",
    "C88_error_sum",
    "C88_unused_forces_refuted"
   ],
   "note": "REFUTED where an atom neighbours its own images: energy and stress of such pairs are counted with half weight (C88_self_refuted), and for configurations without use of forces (three-body forces are still added). Proved for all parameters, cells and builds: exact values including the half weight; textbook values in cells without self images; forces are minus the gradient (away from the cutoff radii, where the functions have kinks of size exp(-100)); sum of forces zero; error sum."
  },
  {
   "property": "C89",
   "status": "partial",
   "theorems": [
    "C89_pointers_partial",
    "C89_lambda_global_refuted"
   ],
   "note": "REFUTED: a lambda other than that of the last type with itself as a global parameter makes the search loop run upwards and write outside of the pointer arrays (force_stiweb.c:500), for every number of types. Proved for all other sets of global parameters and all histories of calls with non-overlapping arrays."
  },
  {
   "property": "C90",
   "status": "partial",
   "theorems": [
    "C90_pointers",
    "C90_mix_partial",
    "C90_diagonal_refuted",
    "C90_global_refuted"
   ],
   "note": "REFUTED: for three or more types chi and omega of the last type with itself are not 1 (test i % ntypes, force_tersoff.c:945), and a global chi or omega of types 0 and 1 is used for type 0 with itself. Proved: pair parameters for all numbers of types, global parameters and histories; chi and omega for up to two types without global ones."
  },
  {
   "property": "C91",
   "status": "partial",
   "theorems": [
    "C91_values",
    "C91_gradient",
    "C91_sum_zero",
    "C91_error_sum_partial",
    "C91_unused_stress_refuted"
   ],
   "note": "REFUTED for the error sum: it counts the stresses of configurations whose forces are not used, as minus the reference stress (force_ang.c:490-501 has no test of uf and us). Values, gradient, Newton's third law and the error sum as it is are proved for all inputs."
  },
  {
   "property": "C92",
   "status": "partial",
   "theorems": [
    "C92_values",
    "C92_textbook_partial",
    "C92_self_refuted",
    "C92_gradient",
    "C92_pair_symmetric",
    "C92_sum_zero",
    "C92_error_sum",
    "C92_unused_forces_refuted"
   ],
   "note": "REFUTED where an atom neighbours its own images: energy and stress of the repulsive part of such pairs are counted with half weight (C92_self_refuted), and for configurations without use of forces (bond-order forces are still added). Proved for all parameters, cells and builds: exact values including the half weight; textbook values in cells without self images; forces are minus the gradient (R < S, gamma > 0, no distance equal to S); sum of forces zero; error sum. chi is not read by the routine."
  },
  {
   "property": "C93",
   "status": "partial",
   "theorems": [
    "C93_values",
    "C93_textbook_partial",
    "C93_self_refuted",
    "C93_gradient",
    "C93_pair_symmetric",
    "C93_sum_zero",
    "C93_error_sum",
    "C93_unused_forces_refuted"
   ],
   "note": "REFUTED as C92. Proved for all parameters, cells and builds: exact values including the half weight; textbook values in cells without self images; forces are minus the gradient (R1 < R2, c3 > 0, pow( . ,beta) differentiable at the differences of bond lengths, zeta > 0 or no other neighbour in range); sum of forces zero; error sum."
  },
  {
   "property": "C94",
   "status": "proved",
   "theorems": [
    "C94_defaults"
   ],
   "note": "All builds whose columns are all read (format 3 except ANG; format 4 for pair, EAM and ADP builds)."
  },
  {
   "property": "C95",
   "status": "partial",
   "theorems": [
    "C95_textbook_adp_partial",
    "C95_any_density",
    "C95_forces_sum_to_zero",
    "C95_stress_refuted"
   ],
   "note": "REFUTED for the stress: the quadrupole terms of bonds of an atom to its own images are halved twice, the trace only once (C95_stress_refuted). Proved for all builds: energies and forces are the textbook ones at any density, the stress is the textbook one plus exactly these terms (C95_any_density), hence textbook where no atom is in reach of its own images; forces sum to zero."
  },
  {
   "property": "C96",
   "status": "proved",
   "theorems": [
    "C96_adp_error",
    "C96_eam_limits",
    "C96_adp_limits"
   ],
   "note": "All build options; ranges with begin <= end for the limits. In EAM the mean density entry is left zero if the densities do not add up to a positive number, in ADP it is always set."
  },
  {
   "property": "C97",
   "status": "proved",
   "theorems": [
    "C97_textbook_meam",
    "C97_any_density",
    "C97_forces_sum_to_zero"
   ],
   "note": "All build options, one process, from the second derivatives of the splines on. Inside the tables C97_textbook_meam, else C97_any_density with the continuation in MeamSpec.v."
  },
  {
   "property": "C98",
   "status": "partial",
   "theorems": [
    "C98_error_sum_partial",
    "C98_limits",
    "C98_limit_weight_refuted",
    "C98_unused_stress_refuted"
   ],
   "note": "REFUTED twice: the limit entry is multiplied by the weight before it is squared (force_meam.c:708), so twice the weight is four times the error; stresses of configurations whose forces are not used count as minus the reference stress. Proved: the error sum as it is, and what limit and dummy entries are; the mean density constraint has no NOPUNISH switch."
  },
  {
   "property": "C99",
   "status": "proved",
   "theorems": [
    "C99_neutral"
   ],
   "note": "charges 186-205"
  }
 ]
}