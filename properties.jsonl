{"id": "C01", "title": "Pair-potential numbering is a bijection", "statement": "For n atom types the potential column assigned to an unordered pair of types {a,b} is the same whichever atom is looked at first, different pairs get different columns, every column 0 .. n(n+1)/2-1 is assigned to exactly one pair, and the numbering used when exporting IMD tables is the same numbering.", "quantifier": "every number of types and every pair of types", "why_tests_cant": "ntypes is unbounded; a test checks a few type counts only", "anchors": ["src/config.c:set_neighbor_slot", "src/config.c:init_neighbors", "src/potential_output_imd.c:write_imd_data_pair", "src/rescale.c:rescale"]}
{"id": "C02", "title": "Configurations are partitioned over processes", "statement": "However many MPI processes are used, every configuration is computed by exactly one process, each process gets one contiguous run of configurations, the run lengths differ by at most one, and the atoms of a configuration live on the process that owns it.", "quantifier": "every number of processes >= 1 and of configurations >= 0", "why_tests_cant": "all process counts and configuration counts", "anchors": ["src/mpi_utils.c:broadcast_configurations", "src/mpi_utils.c:broadcast_atoms"]}
{"id": "C03", "title": "Parallel and serial evaluation give the same result", "statement": "With exact arithmetic, the deviation vector assembled on the root process and the total error sum are the same for any number of processes as for one process.", "quantifier": "every number of processes, every per-configuration result", "why_tests_cant": "needs all process counts; an MPI test runs one count on one data set", "anchors": ["src/force_common.c:gather_forces", "src/force_common.c:gather_variable", "src/mpi_utils.c:broadcast_configurations"]}
{"id": "C04", "title": "Allocated memory is released exactly once", "statement": "After any sequence of allocations and re-allocations through the program's allocator, the clean-up at exit frees every live block exactly once and frees nothing that is not live (no leak, no double free, no dangling free after a block moved).", "quantifier": "every sequence of allocation requests, with any addresses returned by the system (moving or not) and any failing request", "why_tests_cant": "histories are unbounded; leaks and double frees depend on realloc moving the block", "anchors": ["src/memory.c:Malloc", "src/memory.c:Realloc", "src/memory.c:free_allocated_memory"]}
{"id": "C05", "title": "Integer and real parameters are range-checked", "statement": "A numeric setting read from the parameter file is either rejected with an error or is exactly the number written in the file and lies inside the documented interval.", "quantifier": "every value text", "why_tests_cant": "infinitely many texts; failing ones are outside int range or not numbers", "anchors": ["src/params.c:get_param_int", "src/params.c:get_param_double"]}
{"id": "C06", "title": "Parameter file: last assignment wins, order of different keywords is irrelevant", "statement": "For each keyword the value in force after reading the file is the one on the last line that mentions the keyword in any letter case, lines with other keywords, comments and blank lines do not matter.", "quantifier": "every parameter file", "why_tests_cant": "all files", "anchors": ["src/params.c:read_parameter_file"]}
{"id": "C07", "title": "Input lines are read independently of DOS or Unix line ends", "statement": "A line of an input file yields the same words whether the file uses LF or CRLF line ends, and carriage returns never produce additional words.", "quantifier": "every line content, any number of carriage returns", "why_tests_cant": "stale buffer contents only show for special lines", "anchors": ["src/utils.c:fgets_potfit"]}
{"id": "C08", "title": "Missing mandatory settings are reported", "statement": "If a setting that the build needs (number of types, start potential, configuration file, end potential, energy weight, stress weight, ...) is missing from the parameter file, the program stops with an error before any fitting starts.", "quantifier": "every subset of settings given", "why_tests_cant": "2^n subsets of settings", "anchors": ["src/params.c:check_parameters_complete", "src/params.c:read_parameter_file"]}
{"id": "C09", "title": "The deviation vector has disjoint regions", "statement": "Force, energy, stress, limiting, dummy and punishment entries of the deviation vector never share a slot and all slots written lie inside the vector, for every model and every number of atoms, configurations, types and parameters.", "quantifier": "all interactions, with and without stress, all sizes", "why_tests_cant": "depends on number of free parameters versus number of potentials", "anchors": ["src/force_common.c:set_force_vector_pointers", "src/config.c:read_config", "src/functions.c:apot_punish"]}
{"id": "C10", "title": "Differential evolution keeps every candidate inside the bounds", "statement": "Every candidate parameter set that differential evolution evaluates (initial, opposite and trial) has every free parameter inside its allowed interval, and fixed parameters are never changed.", "quantifier": "every random stream, every cost function, every number of generations", "why_tests_cant": "all random streams", "anchors": ["src/diff_evo.c:init_population", "src/diff_evo.c:opposite_check", "src/diff_evo.c:run_differential_evolution"]}
{"id": "C100", "title": "Energies, forces and stresses of charges and dipoles equal the textbook formulas", "statement": "The electrostatic force routine yields for every configuration pair energy + Coulomb energy (tail function cut off at the cutoff, half of the sum over all atoms and all images) - self energy of the charges and, with dipoles, the charge-dipole and dipole-dipole energies and the polarisation energy of its dipoles; forces and stresses are the textbook ones, the forces add up to zero, and the returned error is the weighted sum of squares of the deviations that are used.", "quantifier": "all configurations, cells, types, charges, polarisabilities, tail functions, flags and weights, all build options", "why_tests_cant": "lattice sums with self images, all geometries and parameters; with a polarisable type without charge the routine uses projections left over from other pairs of atoms", "anchors": ["src/force_elstat.c:calc_forces", "src/functions.c:elstat_shift"]}
{"id": "C101", "title": "The induced dipoles are those of a fixed-point iteration that ends", "statement": "For every configuration the dipoles are found by a mixed fixed-point iteration started from the fields stored with the atoms; it ends after at most 52 steps, in the first step whose root mean square change is below the tolerance or which is given up (change above 10, or too many steps), and in the latter case the dipoles are those induced by the charges alone. Dipoles of types that are not polarisable are not touched.", "quantifier": "all configurations, parameters, starting fields, tolerances and mixing parameters", "why_tests_cant": "number of steps and way of ending depend on all data; non-convergent cases are rare", "anchors": ["src/force_elstat.c:calc_forces"]}
{"id": "C102", "title": "Dipoles agree with the fields they produce within the tolerance", "statement": "Unless the iteration is given up, the dipoles of the routine differ from those induced by the charges and by the dipoles themselves by less than dp_tol (root mean square).", "quantifier": "all configurations, parameters and starting fields", "why_tests_cant": "a relation between a result and a fixed point, for all inputs; true without mixing, false with it", "anchors": ["src/force_elstat.c:calc_forces"]}
{"id": "C103", "title": "The dipoles minimise the energy", "statement": "Self-consistent dipoles of the routine are a stationary point of the energy the routine computes (so that forces at fixed dipoles are the gradient of the energy).", "quantifier": "all configurations and parameters", "why_tests_cant": "a statement about derivatives at all results; the energies look plausible", "anchors": ["src/force_elstat.c:calc_forces"]}
{"id": "C104", "title": "Electrostatic energies do not depend on earlier calls", "statement": "Two calls of the electrostatic force routine with the same potential yield the same energies, forces, stresses and error.", "quantifier": "all configurations, potentials, previous states", "why_tests_cant": "all histories; true for charges only, false with dipoles, whose iteration starts from the fields of the previous call", "anchors": ["src/force_elstat.c:calc_forces"]}
{"id": "C105", "title": "EAM with electrostatics is the sum of the EAM and the electrostatic model", "statement": "The force routine for EAM potentials with charges and dipoles yields for every configuration the textbook pair, Coulomb, dipole and embedding energies, forces and stresses (the sum of what the EAM routine and the electrostatic routine yield), with embedding functions evaluated at densities cut to their tables; density limits and gauge entries are penalised as documented; the forces add up to zero; the error is the weighted sum of squares of the entries used.", "quantifier": "all configurations, cells, potentials, charges, polarisabilities, flags and weights", "why_tests_cant": "six nested loops over atoms and neighbours share one vector; agreement with the two separate routines for all geometries cannot be sampled", "anchors": ["src/force_eam_elstat.c:calc_forces"]}
{"id": "C106", "title": "The energy does not depend on the numbering of the atoms (EAM with dipoles)", "statement": "Renumbering the atoms of a configuration leaves the energy computed by the force routine for EAM with dipoles unchanged.", "quantifier": "all configurations with dipoles, also with types that have a charge but no polarisability", "why_tests_cant": "needs mixtures of polarisable and unpolarisable charged types and both orders of a pair; test systems have all types polarisable", "anchors": ["src/force_eam_elstat.c:821"]}
{"id": "C107", "title": "Random numbers lie in [0,1) on the grid of 2^-52", "statement": "For every array of seeds given to dsfmt_init_by_array (so for every seed of init_rng and every implementation of rand) and for every number of calls, eqdist() never reads or writes outside the state array and returns a finite double k/2^52 with 0 <= k < 2^52, so 0 <= x < 1; call number 382 q + r returns the lower 52 bits of word r of block q+1, each word once and in order; and every block is obtained from the one before it by the published recursion of dSFMT2-19937, bit by bit.", "quantifier": "all seed arrays of any length and contents, all numbers of calls, all states", "why_tests_cant": "An index such as (int)floor(eqdist() * NP) is out of range only if a single value out of 2^19937 reaches 1; sampling cannot exclude it.", "anchors": ["src/random.c:45-70", "src/random_dsfmt.c:178-190", "src/random_dsfmt.c:457-466", "src/random_dsfmt.c:534-551", "src/random_dsfmt.c:687-760", "src/random_dsfmt.h:315-363"]}
{"id": "C108", "title": "The random generator is reversible and periodic from its first number", "statement": "Two different states of the generator have different successors under dsfmt_gen_rand_all; hence every state comes back after finitely many blocks, and for every seed array the sequence of eqdist() repeats from its first number on (there is no lead-in that runs into a shorter cycle shared with other seeds).", "quantifier": "all pairs of states of 192 entries of 128 bits; all seed arrays", "why_tests_cant": "The state has 24576 bits; a collision of two states under the step cannot be found by sampling.", "anchors": ["src/random_dsfmt.c:178-190", "src/random_dsfmt.c:534-551"]}
{"id": "C109", "title": "The initial state satisfies the certification of the period", "statement": "For every seed array, after dsfmt_init_by_array the last entry of the state, xor-ed with (FIX1, FIX2), has an odd inner product over GF(2) with the period certification vector (PCV1, PCV2); period_certification changes nothing if this already holds and never changes any other entry.", "quantifier": "all seed arrays; all states", "why_tests_cant": "Half of the seeds pass without correction; that the correction always works needs the parity argument for all 2^128 entries.", "anchors": ["src/random_dsfmt.c:472-512", "src/random_dsfmt.c:754-755"]}
{"id": "C11", "title": "Differential evolution sorts candidates by cost", "statement": "After the opposition step the retained half of the candidates is the half with the lowest costs, each candidate still paired with its own cost.", "quantifier": "every list of costs", "why_tests_cant": "depends on the order of costs; a few lists may look sorted", "anchors": ["src/diff_evo.c:quicksort", "src/diff_evo.c:partition", "src/diff_evo.c:opposite_check"]}
{"id": "C110", "title": "normdist gives pairs of the polar method", "statement": "A call of normdist without a stored number uses the first pair of numbers of eqdist whose point (2u-1, 2v-1) lies inside the unit circle and is not its centre, takes the logarithm and the root inside their domains, and returns x sqrt(-2 log s / s); the next call returns y sqrt(-2 log s / s) without drawing a number; the squares of the two add up to -2 log s. The call returns as soon as such a pair occurs.", "quantifier": "all sequences of numbers, all states of the static variables (real arithmetic)", "why_tests_cant": "Rejected points and the stored second number occur in arbitrary interleavings; tests see a few sequences.", "anchors": ["src/random.c:80-107"]}
{"id": "C111", "title": "Rescaling a MEAM potential multiplies every density by the returned factor and keeps it inside the new table", "statement": "If rescale() of a MEAM build decides to rescale, then with the changed potential the host density of every atom of every configuration is the returned factor times its density with the potential as it was; its absolute value is below the given bound; and it lies strictly inside the interval of the new embedding function of its type. Every embedding function keeps an interval of positive length.", "quantifier": "for all numbers of types and configurations, structures, cutoffs, tables of formats 3 and 4, upper bounds and flags", "why_tests_cant": "Structures, tables and bounds are unbounded; the factor depends on extremes over all atoms and both signs.", "anchors": ["src/rescale_meam.c:38-480", "src/config.c:635-672", "src/force_meam.c:430-500"]}
{"id": "C112", "title": "Rescaling a MEAM potential does not change the energies", "statement": "If rescale() of a MEAM build rescales, then the energy of every configuration with the changed potential is the one with the potential as it was; at the new points each embedding function has the value that the old one had at the corresponding density.", "quantifier": "for all tables, factors of both signs, structures", "why_tests_cant": "A statement about all embedding functions and all densities between the points.", "anchors": ["src/rescale_meam.c:260-430", "src/rescale.c:186-285", "src/splines.c:60-140"]}
{"id": "C113", "title": "Tables with free points (format 4) are interpolated with a continuous derivative in the angular routines", "statement": "In ANG and MEAM builds a column of a potential file of format 4 is interpolated by a function with continuous derivative, and points on a straight line give that line.", "quantifier": "for all columns with increasing points", "why_tests_cant": "All sets of points; tests with equidistant points do not show the difference.", "anchors": ["src/force_ang.c:197-213", "src/force_meam.c:212-232", "src/rescale_meam.c:100-115", "src/potential_input_f4.c:120-160"]}
{"id": "C114", "title": "Every trial of the differential evolution takes at least one parameter from its mutant, and otherwise follows the crossover rate", "statement": "In each generation a trial vector takes at least one free parameter (the one drawn at random) from its mutant; every other free parameter is taken from the mutant exactly if the random number drawn for it is below the crossover rate CR, and from its parent otherwise.", "quantifier": "for all populations, numbers of parameters, random numbers, rates", "why_tests_cant": "Random choices and dimensions are unbounded; the defect shows only for one starting index.", "anchors": ["src/diff_evo.c:366-428"]}
{"id": "C115", "title": "Configuration files are read back completely", "statement": "read_config on a file in the documented format (comment lines, #N, header lines in any order, #F, atoms) succeeds and stores every value for its own configuration and atom: counts, offsets, force flag, energy, weight (1 without #W), stress only where given, box vectors and positions times the global cell scale, types, forces, numbers of atoms per type in each configuration and in total. The last of several header lines of a kind counts; nothing is carried over from another configuration.", "quantifier": "all non-empty lists of configurations with printable numbers, lines shorter than the buffer, enough atoms, all four required header lines, types below ntypes and the last type present; with and without stresses, any scale", "why_tests_cant": "The number of configurations, atoms and orders of header lines is unbounded; values carried over between configurations show up only for particular sequences.", "anchors": ["src/config.c:89-393", "src/config.c:742-815"]}
{"id": "C116", "title": "Reading configurations stays inside the allocated arrays", "statement": "The arrays are allocated from a first pass over the file that counts the lines #N; the second pass writes no element behind their end, and both passes terminate.", "quantifier": "all file contents", "why_tests_cant": "The two passes tokenise the file differently (lines against fscanf), so only unusual layouts (an indented #N, a file that is cut off, a negative number of atoms) make the counts differ; tests use regular files and an overrun of the heap need not be visible.", "anchors": ["src/config.c:145-375", "src/config.c:742-797"]}
{"id": "C117", "title": "Header letters may be written in either case and foreign lines are ignored", "statement": "A header line means the same with an upper or lower case letter, and a header line that does not begin with # is ignored, as the warning says.", "quantifier": "all configuration files", "why_tests_cant": "The files of the test suite use upper case and no foreign lines; the wrong result is a plausible data set of another configuration.", "anchors": ["src/config.c:181-293"]}
{"id": "C118", "title": "The element names of all configurations agree", "statement": "If reading succeeds, each name in each line #C is the name stored for that type (cut to 14 characters); and if all lines give the same names, reading succeeds.", "quantifier": "all sequences of #C lines, any number of names per line, any number of types", "why_tests_cant": "Whether a mismatch is noticed depends on the history of the earlier lines (a counter of names already fixed); sequences are unbounded.", "anchors": ["src/config.c:850-892"]}
{"id": "C119", "title": "Layout of the vector of reference data", "statement": "force_0 holds the force component c of atom a at 3a+c, the energy of configuration i at 3 natoms + i, with stresses the component c of configuration i at 3 natoms + nconf + 6 i + c (0 where no stress was given), and 0 in all further entries; its length is mdim.", "quantifier": "all numbers of atoms, configurations and further entries, with and without stresses, any selection of configurations with stresses", "why_tests_cant": "An offset that is wrong only when some configurations have no stress needs mixed data sets; quantification is over all of them.", "anchors": ["src/config.c:404-457"]}
{"id": "C12", "title": "Differential evolution never loses the best candidate", "statement": "The best cost reported by differential evolution never increases from generation to generation, it is the cost of the reported parameter set, and the parameter set returned is never worse than the start potential.", "quantifier": "every cost function and random stream", "why_tests_cant": "all histories", "anchors": ["src/diff_evo.c:run_differential_evolution", "src/diff_evo.c:init_population"]}
{"id": "C120", "title": "Comment lines behind the last configuration are skipped", "statement": "Lines that do not begin with #N between and behind configurations have no effect.", "quantifier": "all configuration files", "why_tests_cant": "The end of file is noticed only by the next read; a file that ends with a comment line is not in the test suite.", "anchors": ["src/config.c:145-169"]}
{"id": "C121", "title": "Angular force routine with charges", "statement": "calc_forces of the angular potentials with charges returns, for every configuration whose forces are used, the textbook forces, energy per atom and stress of the angular potential plus the Coulomb energy of every pair of charges within the cutoff, counted once, minus the self energy of the charges, minus the reference values; forces are minus the gradient of the energy and sum to zero; the error sum is the weighted sum of squares of what is used.", "quantifier": "all structures, cells, neighbour lists, functions phi, f, g, charges, tail functions, cutoffs, flags and weights, all build options", "why_tests_cant": "the Coulomb part visits every bond from both ends with half weight; needs all periodic images, permuted neighbour lists and all triples", "anchors": ["src/force_ang_elstat.c:calc_forces"]}
{"id": "C122", "title": "IMD tables hold the functions of the potential", "statement": "write_pot_table_imd writes, for every ordered pair of types, a table over the squared distance whose numbers are the values of the function of that pair (pair, transfer, dipole, quadrupole, MEAM f function) at the distances the info block describes, and tables of the embedding functions and of g; the same function for (i,j) and (j,i).", "quantifier": "all numbers of types and steps, all potentials (analytic, tabulated), all four kinds of files", "why_tests_cant": "column numbers by running sums and closed formulas for every number of types; values at every step", "anchors": ["src/potential_output_imd.c:write_pot_table_imd"]}
{"id": "C123", "title": "IMD export stays inside its tables", "statement": "Writing the IMD files reads only elements of the tables of the potential.", "quantifier": "all numbers of types, all numbers of parameters", "why_tests_cant": "a read behind the end of an array gives a number, not an error", "anchors": ["src/potential_output_imd.c:write_pot_table_imd", "src/potential_input_f0.c:init_calc_table0"]}
{"id": "C124", "title": "IMD file of charges", "statement": "The file of charges holds the charge of every type, the parameters of Morse-Stretch or Buckingham functions exactly if all functions are of that kind, and the cutoff of every pair, without reading outside of arrays.", "quantifier": "all numbers of types, all names and parameters", "why_tests_cant": "needs all mixtures of functions and cutoffs; the read outside of an array is not visible", "anchors": ["src/potential_output_imd.c:write_pot_table_imd"]}
{"id": "C125", "title": "IMD parameters of Stillinger-Weber and Tersoff potentials", "statement": "Every keyword of the IMD parameter files is followed by the parameters of all pairs of types in the order of the pair numbers; lambda of centre i and neighbours j, k is at place (pair j,k) * ntypes + i; chi and omega follow the order of mixed pairs.", "quantifier": "all numbers of types, all parameters", "why_tests_cant": "orders differ only for three or more types", "anchors": ["src/potential_output_imd.c:write_pot_table_imd", "src/potential_output_imd.c:write_imd_data_pair"]}
{"id": "C126", "title": "Analytic tables start below every distance and every neighbour is evaluated at its distance", "statement": "After an analytic potential and the configurations have been read, each table of a function of a distance begins at 0.95 times the smallest distance (of its pair of types for the pair functions, of all neighbours for transfer, dipole, quadrupole and screening functions) and ends at the cut-off given; tables of the angular functions cover [-1,1]. For every neighbour and every function of its distance that is not cut off, the slot stored lies inside that function's own table, the shift lies in [0,1), slot and shift give back the distance, and the value and slope the force routines read off are those of the spline at the distance. Slots of functions already cut off stay as they were.", "quantifier": "all numbers of types, lists of neighbours with positive distances, kinds PAIR, EAM, TBEAM, ADP, MEAM, ANG, cut-offs, contents of the tables and slots left from before", "why_tests_cant": "A wrong column or a table starting above one distance shows only for particular kinds, types and structures, and then as a slightly wrong force, not as a failure.", "anchors": ["src/config.c:462-572 read_config", "src/config.c:597-634 update_slots", "src/config.c:687-701 update_neighbor_slots", "src/config.c:1226-1290 init_neighbors"]}
{"id": "C127", "title": "The end potential is the one whose errors are reported", "statement": "When the program ends, the parameter values (free and global) written to the end potential are those of the vector for which the reported error sum was computed; for tables the table written has the reported error sum.", "quantifier": "all analytic files read, all layouts, all results of the global search and of the least squares steps, with and without temp file, both global methods", "why_tests_cant": "needs a global search that ends with an error sum below 1e-12; test fits never get there", "anchors": ["src/potfit.c:117-140 main", "src/optimize.c:39-58 run_optimization", "src/powell_lsq.c:131-136 run_powell_lsq", "src/powell_lsq.c:375", "src/simann.c:363-369", "src/simann.c:466-482", "src/diff_evo.c:431-446", "src/diff_evo.c:506"]}
{"id": "C128", "title": "The self energy of a charge is its interaction with its own screening charge", "statement": "The coefficient of the squared charge subtracted from the energy per atom is minus half the limit, at distance zero, of the pair function used (shifted tail) minus the bare Coulomb term.", "quantifier": "all damping parameters > 0, all cutoffs > 0, any function with erfc(0)=1 and erfc'(0)=-2/sqrt(pi); damped shifted force and plain shift", "why_tests_cant": "a constant per atom; comparing energies of the same compositions cancels it, and the limit at distance zero is never evaluated", "anchors": ["src/force_elstat.c:802-827 calc_forces", "src/functions.c:414-487 elstat_value, elstat_shift, elstat_dsf", "src/force_ang_elstat.c:538-556", "src/force_eam_elstat.c:936-954"]}
{"id": "C129", "title": "The plot file shows every function of the potential", "statement": "The file written for plotting has one block per function of the potential, in the order of the potential file, and each block consists of 1000 equidistant points of the graph of the function from its begin (analytic: plotmin, or 0.1) to its end.", "quantifier": "all interactions with tabulated potentials, numbers of types and tables; all analytic functions with and without cutoff factor, NaN included", "why_tests_cant": "nothing reads the file back; a missing, doubled or shifted block is seen only by counting blocks for every interaction and number of types", "anchors": ["src/potential_output.c:544-686 write_plotpot_pair"]}
{"id": "C13", "title": "Simulated annealing returns the best parameter set it saw", "statement": "The parameter set left by simulated annealing has the lowest cost of all sets evaluated during the run and is never worse than the start set, also when stopped early through the flag file.", "quantifier": "every cost function, every random stream, every stop time", "why_tests_cant": "all histories and interruption points", "anchors": ["src/simann.c:run_simulated_annealing"]}
{"id": "C130", "title": "The header of a potential file means what its lines say", "statement": "Let a potential file begin with ordinary lines up to the first line starting with #E. If every line is allowed where it stands (empty or starting with #; #F with a format of the build and the right number of functions; #T with the name of the interaction; #I, #G and #C after a #F and with enough items) and there is a #F, then read_pot_table continues behind that line with the format of the last #F, the flags of the last #I and #G behind it (zeros if there is none), and the element names of the last #C, cut to 14 characters. In every other case, also if #E is missing, the program stops with an error.", "quantifier": "all texts of lines shorter than the buffer without stray control characters, all numbers of functions and elements, all interaction names, analytic and tabulated builds", "why_tests_cant": "The order, number and content of the header lines is unbounded; the rules for repeated lines are only visible on unusual files.", "anchors": ["src/potential_input.c:67-128", "src/potential_input.c:169-386"]}
{"id": "C131", "title": "Functions fixed by the header are counted as fixed", "statement": "After reading the header, have_invar is set if and only if the flag of some function is not zero (such a function is not optimised), and for analytic potentials invar_pots is the number of these functions.", "quantifier": "all headers which are accepted", "why_tests_cant": "Holds for the flags 0 and 1 and one #F; other flags and repeated #F lines are accepted without complaint and never tested.", "anchors": ["src/potential_input.c:258-263", "src/potential_input.c:298-327", "src/potential_output.c:165"]}
{"id": "C132", "title": "Neighbours beyond the cutoff given in the file do not matter", "statement": "If an analytic Stillinger-Weber or Tersoff potential passes the checks after reading, then for all parameters inside their limits the forces, energies, stresses and the error sum do not depend on neighbours at or beyond the cutoff of their function, so that the neighbour list built with the cutoffs loses nothing.", "quantifier": "all potentials that are accepted, all parameters within the limits, all configurations and neighbour lists", "why_tests_cant": "Tests use a few parameter sets; the limits are explored by the optimiser, where a wrong check shows only as a jump of the error sum.", "anchors": ["src/functions.c:168-257", "src/force_stiweb.c:160-232", "src/force_tersoff.c:162-220", "src/potential_input_f0.c:306"]}
{"id": "C133", "title": "The two radii of a Tersoff cutoff can be ordered and stay within their limits", "statement": "A Tersoff potential is accepted if and only if its functions have the required names and the limits allow R < S (R1 < R2); during the fit the radii used are ordered and inside their limits.", "quantifier": "all names and limits, all parameters within the limits", "why_tests_cant": "Equal limits, exchanged radii and the modified form need special limits which no test has.", "anchors": ["src/functions.c:212-256", "src/functions.c:297-307"]}
{"id": "C134", "title": "Automatic start temperature of the annealing", "statement": "With anneal_temp 'auto' the start temperature is positive and is chosen so that 80 % of the trial steps would be accepted (downhill steps always, uphill steps with the probability exp(-mean rise/T)); a given temperature is used as it is, a negative one is an error. (The code has a + where the formula needs a -: the share is 0.8 + 0.4 * (share of downhill steps) if fewer than half of the steps are downhill, and the run stops with an error if exactly half of them, or all, are.)", "quantifier": "all start costs and all lists of trial costs, all given temperatures", "why_tests_cant": "The trial steps are random; the share accepted deviates only by an amount that depends on how many of them happen to be downhill, and the abort needs exactly half of them.", "anchors": ["src/simann.c:130-181", "src/simann.c:372"]}
{"id": "C135", "title": "Tables of forces, energies and stresses", "statement": "The files .force, .energy and .stress show, for each component of each atom, each configuration and each stress component, the value calculated by the pair routine (textbook force, energy per atom, virial by volume), the reference value, the weighted square of the deviation and its ratio to the reference. Three ways it fails: a configuration of weight 0 shows no number for its square although its deviation is finite (the square is multiplied and then divided by the weight); with relative force weights the column of ratios is the ratio of the scaled deviation; configurations whose forces are not used show the reference as calculated value.", "quantifier": "all potentials, geometries, weights, configurations and builds with pair potentials", "why_tests_cant": "Every combination of used/unused configurations, weights and force weighting would be needed; the zero weight and unused cases only show in columns that nobody compares.", "anchors": ["/repo/src/errors.c:273-333", "/repo/src/errors.c:345-399", "/repo/src/errors.c:405-460"]}
{"id": "C136", "title": "Table of the constraints", "statement": "For one band of embedding functions the squares in the lines of the gauge constraints of .punish, with the additional punishment, sum to the squares of all constraint entries of the deviation vector, i.e. to what they add to the error sum. For two bands the entries of the second band are missing (error sum 10000, table 0). The squares of the density limits are shown without the weight of the configuration, so they sum to the contribution to the error only when all weights are 1.", "quantifier": "all potentials, numbers of elements and configurations, weights and geometries", "why_tests_cant": "The file shows plausible numbers in every case; the missing part is invisible without an independent account of the error sum.", "anchors": ["/repo/src/errors.c:466-551"]}
{"id": "C137", "title": "Names of files fit into their memory and are different", "statement": "All strings of the parameter file, the default name of the final potential and the default name of the ensemble file are copied to blocks that are large enough, for every length. The names of the report, pair-distribution, IMD, LAMMPS and ensemble files are made in arrays of 255 bytes without a check: a file fits iff the lengths of prefix and extension sum to less than 255 (all fit for prefixes up to 236 characters); a parameter file with a prefix of 250 characters is accepted and the copy leaves the array. The report files and the ensemble potentials of one run have pairwise different names, and the default name of the final potential is never that of the start potential.", "quantifier": "all parameter files, builds, interactions and numbers of ensemble members", "why_tests_cant": "Lengths and numbers of members are unbounded; an overflow by a few bytes often has no visible effect.", "anchors": ["/repo/src/params.c:392-405", "/repo/src/params.c:423-429", "/repo/src/params.c:494-501", "/repo/src/errors.c:129-131", "/repo/src/errors.c:284-286", "/repo/src/config.c:1548-1564", "/repo/src/potential_output_imd.c:51-63", "/repo/src/potential_output_lammps.c:72-84", "/repo/src/uq.c:243-244"]}
{"id": "C138", "title": "Names of parameters fit into their memory", "statement": "The reader of analytic potentials keeps each parameter name in a block of 30 bytes. The copies are inside their blocks iff every name has less than 30 characters; in particular, a potential written by the program whose parameters have shorter names, and whose element names have at most 14 characters, is read back inside the bounds, chemical potentials included. A legal potential with a parameter name of 37 characters is accepted by the reader, which writes outside the block.", "quantifier": "all analytic potential tables and names", "why_tests_cant": "Names of any length are accepted; the damage depends on the allocator.", "anchors": ["/repo/src/potential_input_f0.c:357-396", "/repo/src/potential_input_f0.c:500-558", "/repo/src/potential_input_f0.c:652-657", "/repo/src/potential_input_f0.c:814-842"]}
{"id": "C139", "title": "The report of local electron densities shows the densities the force routine used", "statement": "After a force calculation write_local_electron_density writes one line per atom with number, type and density, where the density is the textbook sum of the transfer functions over all neighbours, cut to [begin, end] of the embedding function of the type in builds with RESCALE; the line of each type shows the mean over all atoms of that type, and no number (0/0) when no atom has the type.  Therefore the table does not show the real density of an atom outside the range.", "quantifier": "all numbers of configurations, atoms and types, all geometries and neighbour lists that init_neighbors makes, all transfer and embedding functions, all builds with EAM (with or without RESCALE, TBEAM, APOT), all former contents of the density arrays", "why_tests_cant": "the densities are gathered over half neighbour lists and left by the last of all force calls; a wrong reset, a density added once too often for self images or a mean over the wrong number shows only for some structures", "anchors": ["src/errors.c:212-269", "src/force_eam.c:201-416"]}
{"id": "C14", "title": "Simulated annealing terminates", "statement": "The annealing run ends after at most a fixed number of temperature steps and hence after at most a computable number of cost evaluations.", "quantifier": "every cost function and random stream", "why_tests_cant": "termination cannot be tested", "anchors": ["src/simann.c:run_simulated_annealing"]}
{"id": "C140", "title": "Table of analytic functions", "statement": "For every build variant the table of analytic functions is made without error; the lookup of a name gives the number of parameters and the function of its own line, unknown names give -1 and no function; assign_analytic_functions succeeds exactly if all names are known and then gives every potential the function of its own name; no function of the table reads a parameter beyond the declared number.", "quantifier": "all builds, all names, all lists of names, all distances and parameter values", "why_tests_cant": "about 45 functions, all parameter values and all names", "anchors": ["src/functions.c:initialize_analytic_potentials", "src/functions.c:apot_get_num_parameters", "src/functions.c:apot_assign_function_pointers", "src/functions.itm", "src/functions_impl.c"]}
{"id": "C141", "title": "Relations between analytic functions", "statement": "The analytic functions that are documented as combinations or special cases of others agree with them: gljm is gen_lj plus a multiple of mishin, eopp is a power decay plus an oscillating power decay, double_morse is two Morse functions and a constant, stiweb_2 is a difference of power decays times the bond function, and so on.", "quantifier": "all distances and parameters (where stated, positive ones)", "why_tests_cant": "identities of real functions for all arguments", "anchors": ["src/functions_impl.c"]}
{"id": "C142", "title": "Marks of the analytic functions", "statement": "Every analytic function has the values and slopes its parameters are named after: lj has its minimum -eps at 2^(1/6) sigma and its zero at sigma, morse its minimum -D at r0, gen_lj and universal their value and slope at the reference point, poly_5 and bjs their value and slope at density one, bjs is continuous at density zero, bond functions decrease to zero at their radius and are zero beyond, and densities are continuous.", "quantifier": "all parameters and distances", "why_tests_cant": "statements about minima, limits and derivatives for all parameters", "anchors": ["src/functions_impl.c:lj_value", "src/functions_impl.c:morse_value", "src/functions_impl.c:bjs_value", "src/functions_impl.c:vas_value", "src/functions_impl.c:sheng_rho_value"]}
{"id": "C143", "title": "Numerical gradient of analytic functions", "statement": "The gradient of an analytic function is exact for parabolas and, for functions with a third derivative of at most M in the stencil, is wrong by at most M h^2/6 with h = 0.0001.", "quantifier": "all three times differentiable functions and all distances", "why_tests_cant": "all functions", "anchors": ["src/functions.c:apot_gradient"]}
{"id": "C144", "title": "Special punishments apply to their functions only", "statement": "The punishment for exponents in the wrong order is applied to exactly the potentials with the functions eopp and universal.", "quantifier": "all lists of functions of the potentials", "why_tests_cant": "all lists of names; the wrong case is silent", "anchors": ["src/functions.c:apot_assign_function_pointers", "src/functions.c:apot_punish"]}
{"id": "C145", "title": "MPI datatypes describe the structures", "statement": "In every build the datatypes made at the start fit into their arrays, have as many types as addresses and, when used in a broadcast, deliver every byte of every member of a neighbour, an angle and an atom, except pointers and two members that are results of an evaluation; they write no other byte.", "quantifier": "all builds, all contents of the structures", "why_tests_cant": "a missing member is silent and needs every build variant", "anchors": ["src/mpi_utils.c:create_custom_datatypes", "src/types.h"]}
{"id": "C146", "title": "Processes hold the atoms of their configurations", "statement": "After the start of a parallel run every process holds, at the places where the force routines look, the atoms of its configurations with all neighbours and angles as read by the root process; in particular a parallel run starts whenever the serial program runs with the same input and the number of processes is allowed.", "quantifier": "all configurations, numbers of processes, atoms, neighbours and angles", "why_tests_cant": "all distributions; atoms without angles are rare", "anchors": ["src/mpi_utils.c:broadcast_atoms", "src/mpi_utils.c:broadcast_neighbors", "src/mpi_utils.c:broadcast_angles"]}
{"id": "C147", "title": "Processes hold the data of the potential and of the configurations", "statement": "Every global variable a worker reads in an evaluation has the value of the root process; volumes and flags are those of its own configurations; the tails of the electrostatic functions belong to the present kappa on every process although the flag of a fixed kappa is not sent.", "quantifier": "all builds and values", "why_tests_cant": "a variable that is not sent is silently zero on the workers", "anchors": ["src/mpi_utils.c:broadcast_basic_data", "src/mpi_utils.c:broadcast_apot_table", "src/mpi_utils.c:broadcast_configurations", "src/functions.c:init_tails"]}
{"id": "C148", "title": "Arrays of random numbers hold the numbers of single calls", "statement": "The functions dsfmt_fill_array_* fill an array of any even size of at least dsfmt_get_min_array_size() with exactly the numbers that as many calls of the corresponding dsfmt_genrand_* function would give from the same fresh state, leave the generator so that later calls of any kind go on behind them, and never read an entry of the caller's array that was not written or was already converted, nor anything outside of the arrays.", "quantifier": "every state, every even size of at least 382, all four ranges, every number of later calls", "why_tests_cant": "the size decides which of six loops run and where they meet; every size would have to be tried with every state", "anchors": ["src/random_dsfmt.c:gen_rand_array_c1o2", "src/random_dsfmt.c:gen_rand_array_c0o1", "src/random_dsfmt.c:gen_rand_array_o0o1", "src/random_dsfmt.c:gen_rand_array_o0c1", "src/random_dsfmt.c:dsfmt_fill_array_close_open"]}
{"id": "C149", "title": "Random numbers of the other ranges", "statement": "For both initialisations and every seed, dsfmt_genrand_close1_open2, _close_open, _open_close and _open_open give numbers of [1,2), [0,1), (0,1] and (0,1); they are made without rounding from the same 52 random bits, of which dsfmt_genrand_uint32 gives the lower 32, and the state after dsfmt_init_gen_rand satisfies the certification of the period.", "quantifier": "every seed and key, every number of calls", "why_tests_cant": "the ends of the ranges have probability 2^-52", "anchors": ["src/random_dsfmt.h:dsfmt_genrand_open_open", "src/random_dsfmt.h:dsfmt_genrand_open_close", "src/random_dsfmt.h:dsfmt_genrand_uint32", "src/random_dsfmt.c:dsfmt_chk_init_gen_rand"]}
{"id": "C15", "title": "Simulated annealing changes only free parameters", "statement": "A parameter that the user fixed (fixed gradient, last point, equal bounds) has the same value after a random move as before.", "quantifier": "every layout, every random stream", "why_tests_cant": "the fault needs the random move to hit the last free parameters", "anchors": ["src/simann.c:randomize_parameter"]}
{"id": "C150", "title": "The Hessian is taken at the best fit known", "statement": "The Hessian of the ensemble is recalculated at every better fit found on the way, at most ten times. The matrix used is the difference matrix at the last of a chain of better fits, with the cost of these parameters, and no better fit was seen around it; when ten recalculations find better fits the program stops with an error.", "quantifier": "for all cost functions, starting parameters, step sizes and numbers of parameters", "why_tests_cant": "better fits during the Hessian are rare; ten in a row are not constructed by tests", "anchors": ["src/uq.c:72-106", "src/uq.c:505-778"]}
{"id": "C151", "title": "Moves of the ensemble are along eigenvectors of the Hessian", "statement": "The loop over eigenvalue ranges ends for every result of the LAPACK routines. The rows used as directions are orthonormal eigenvectors of the Hessian with their eigenvalues, or singular vectors and singular values (not negative) when SVD is requested. This is false when the first decomposition does not converge: the routine is repeated, and finally SVD called, with the matrix that was overwritten by the first attempt.", "quantifier": "for all matrices and all LAPACK routines that fulfil the documented contract", "why_tests_cant": "convergence failures of dsyevx depend on the library and are not reproducible; results of the second attempt look plausible", "anchors": ["src/uq.c:119-168", "src/uq.c:786-889"]}
{"id": "C152", "title": "Files and lines of an ensemble", "statement": "A run that ends normally writes acc_moves + 1 lines, the first with the best fit at which the Hessian was taken, each with the cost of its parameters; it warns of exactly the negative eigenvalues; potential files are written exactly for the members with a lower cost than the best fit and for every write_ensemble-th member, with the parameters of this member and different numbers. The search for an accepted move is the only part that may not end.", "quantifier": "for all cost functions, LAPACK results, random numbers and settings", "why_tests_cant": "depends on long random runs and on members that improve the fit", "anchors": ["src/uq.c:72-262"]}
{"id": "C153", "title": "The splines are renewed from the table at every force calculation", "statement": "At the start of every force calculation the second derivatives of all functions of the potential are computed such that each function becomes a twice continuously differentiable curve through the points of its table with the end slopes of the table (right end: zero for pair and transfer functions); nothing else is written.", "quantifier": "all interactions, table formats, numbers of types, tables and parameter vectors", "why_tests_cant": "real-valued tables of any size; all formats and interactions", "anchors": ["src/force_common.c:update_splines", "src/force_pair.c:calc_forces", "src/force_eam.c:calc_forces", "src/force_adp.c:calc_forces", "src/force_elstat.c:calc_forces", "src/force_eam_elstat.c:calc_forces", "src/force_ang.c:calc_forces", "src/force_meam.c:calc_forces"]}
{"id": "C154", "title": "The potential file of a KIM run holds the parameters in use", "statement": "The potential file written at the end of a run lists every parameter of the KIM model in order, with the values the errors were computed with and the limits of the doubles.", "quantifier": "all KIM models (names, types, extents and values of parameters), parameter vectors, limits, with and without a fit", "why_tests_cant": "all models and all 64-bit patterns of a union of int and double", "anchors": ["src/potential_input.c:update_kim_table", "src/potential_output.c:write_pot_table5", "src/powell_lsq.c:powell_lsq", "src/potfit.c:main"]}
{"id": "C155", "title": "KIM potential files written by potfit can be read again", "statement": "The potential file of a KIM run and the template of all parameters are accepted as potential files of the same model and give the values and limits that were written; in the template all parameters are fixed.", "quantifier": "all KIM models, values and limits", "why_tests_cant": "all models and values", "anchors": ["src/potential_output.c:write_pot_table5", "src/potential_input_f5.c:print_model_parameters_impl", "src/potential_input_f5.c:read_single_kim_parameter", "src/potential_input_f5.c:read_kim_parameters_file"]}
{"id": "C156", "title": "Sections of a KIM potential file belong to the parameters they name", "statement": "A KIM potential file is accepted only if its sections are, in the order of the model, those of the parameters of the model, with one line for every value.", "quantifier": "all KIM models and all files", "why_tests_cant": "all files", "anchors": ["src/potential_input_f5.c:read_single_kim_parameter", "src/potential_input_f5.c:read_kim_parameters_file"]}
{"id": "C157", "title": "Chemical potentials enter the energy linearly", "statement": "With chemical potentials enabled the energy added to a configuration is the sum over all types of the number of atoms of the type times its chemical potential.", "quantifier": "all numbers of types, numbers of atoms and chemical potentials (builds without composition nodes)", "why_tests_cant": "all numbers of types and real values", "anchors": ["src/chempot.c:chemical_potential", "src/chempot.c:chemical_potential_1d", "src/chempot.c:chemical_potential_multidim"]}
{"id": "C158", "title": "Error sum of KIM models", "statement": "The error sum returned for a KIM model is the sum of the squares of the entries of the deviation vector (forces of contributing atoms, energies, stresses), which are the weighted deviations from the reference data, plus the punishments of parameters beyond their limits.", "quantifier": "all KIM results, reference data, weights, builds and parameters with ordered limits", "why_tests_cant": "real-valued data of any number of configurations and atoms", "anchors": ["src/force_kim.c:calc_forces"]}
{"id": "C159", "title": "Energies of KIM models are compared with reference energies per atom", "statement": "As in all other force routines, the energy of a configuration divided by its number of atoms is compared with the reference energy.", "quantifier": "all configurations and energies", "why_tests_cant": "needs a KIM model; all numbers of atoms", "anchors": ["src/force_kim.c:calc_forces", "src/config.c:read_config"]}
{"id": "C16", "title": "Simulated annealing respects parameter bounds", "statement": "A random move of an analytic parameter leaves it inside its allowed interval.", "quantifier": "every random stream", "why_tests_cant": "needs ten rejected draws in a row", "anchors": ["src/simann.c:randomize_parameter"]}
{"id": "C160", "title": "Stresses of KIM models are compared with the reference stresses", "statement": "If the reference stresses agree with the virial of the KIM model (in the conventions of all other force routines), the stress entries of the deviation vector vanish.", "quantifier": "all virials, volumes and weights", "why_tests_cant": "real-valued tensors; needs a KIM model with virial", "anchors": ["src/force_kim.c:calc_forces", "src/force_pair.c:calc_forces"]}
{"id": "C161", "title": "Neighbour lists of KIM models stay sufficient", "statement": "During a run no cutoff or influence distance of the KIM model exceeds the radius of the neighbour lists, a run is only stopped if one would, and neighbour lists are only handed out for atoms of the configuration.", "quantifier": "all histories of cutoffs of the model; all requests of the model", "why_tests_cant": "all histories of parameter changes", "anchors": ["src/force_kim.c:update_kim_model", "src/force_kim.c:get_neigh", "src/potential_input_f5.c:read_max_cutoff"]}
{"id": "C162", "title": "A KIM model is accepted if and only if it supports what the configurations need", "statement": "A run with a KIM model starts if and only if the model supports all elements, the energy, forces and virial where some configuration uses them, and requires nothing that potfit does not provide.", "quantifier": "all models (status of all arguments and callbacks, codes of species), configurations and builds", "why_tests_cant": "needs KIM models of every kind", "anchors": ["src/kim.c:check_KIM_model_support", "src/kim.c:initialize_KIM"]}
{"id": "C163", "title": "Species and callbacks of a KIM model", "statement": "Every element is mapped to the code of its own name in the model; every callback that an accepted model requires has a pointer; every configuration is prepared with its own number.", "quantifier": "all elements, numbers of configurations and callbacks", "why_tests_cant": "needs KIM models of every kind", "anchors": ["src/kim.c:check_KIM_model_support", "src/kim.c:initialize_KIM"]}
{"id": "C164", "title": "The binned distribution counts the arguments of the functions", "statement": "In the file of the binned distribution, the line of the interval between two neighbouring points of a column has the number of arguments (distances of neighbours for pair and transfer functions, densities for embedding functions) that lie in this interval, and no element outside of the array is counted up; this for distances above the begin of their tables and densities inside of theirs, in formats 3 and 4.", "quantifier": "for all tables of both formats, all numbers of columns and atom types, all atoms with their neighbours, densities and distances", "why_tests_cant": "The index of an argument comes from a truncation or a bisection over tables of any size; that it is always the interval which contains the argument, and never one of another column, holds for infinitely many arguments.", "anchors": ["/repo/src/potential_output.c:694-769", "/repo/src/config.c:1301-1345"]}
{"id": "C165", "title": "Annealing ends with the tables and parameters of its optimum", "statement": "After simulated annealing, the potential tables together with the parameters have the cost that was recorded as the lowest during the run, and it is not above the cost at the start, however often the potential was rescaled; without rescaling no parameters that were evaluated have a lower cost. store_pot_data followed by restore_pot_data gives back the tables of the embedding functions and changes no others.", "quantifier": "for all numbers of types and columns, all tables, all cost functions of tables and parameters, all sequences of trials, acceptances, rescalings, returns to the optimum and a break flagfile", "why_tests_cant": "Rescaling happens every tenth step only if densities leave their tables, so a test run seldom has an optimum before a later rescaling; the sequence of accepted steps is random and the number of sequences unlimited.", "anchors": ["/repo/src/simann.c:204-256", "/repo/src/simann.c:304-321", "/repo/src/simann.c:334-472"]}
{"id": "C166", "title": "A KIM model is started only with everything potfit needs, and its own parameters are taken over", "statement": "The program goes on after the start of a KIM model exactly if the model was created with the requested units, all questions were answered, it has a Refresh routine, and at least one parameter, all of known type and positive extent; the species are those it supports, in their order. With default parameters each value of the model is found in the parameters of the potential at the place given by the extents of the parameters before it.", "quantifier": "for all answers of the KIM library: routines, species, parameters of any number, type and extent", "why_tests_cant": "Tests have a few KIM models at hand; combinations of missing routines, unsupported species and parameters of several types and extents are unlimited, and failing calls of the library cannot be provoked.", "anchors": ["/repo/src/kim.c:36-130", "/repo/src/potential_input_f5.c:398-421", "/repo/src/potential_input_f5.c:573-619"]}
{"id": "C167", "title": "cell_scale is a change of the unit of length", "statement": "Reading configurations with the parameter cell_scale multiplies all distances between atoms and periodic images by it and the volume by its third power, accepts the same boxes, and the same atoms contribute to the error sum (box and spheres of contributing atoms are scaled with the positions).", "quantifier": "for all positive scales, all boxes, boxes and spheres of contributing atoms, positions and periodic images", "why_tests_cant": "The scale enters in three places of the reader, and a missing factor in one of them shows only for atoms near a boundary; scales, boxes and positions are continuous.", "anchors": ["/repo/src/config.c:331-335", "/repo/src/config.c:802-842", "/repo/src/config.c:1511-1540", "/repo/src/config.c:1651-1686"]}
{"id": "C168", "title": "The cutoff of a KIM model is the parameter named in the potential file", "statement": "In format 5 potential files the line that begins with KIM_CUTOFF names the parameter that is marked as cutoff: the first parameter of exactly that name is marked, a name that is no parameter is an error, and without such a line none is marked. Empty lines, lines of blanks and indentation do not change this.", "quantifier": "all names of parameters, all lines of the file", "why_tests_cant": "all texts of the file; reading a variable that has not been set has no reliable effect in a test", "anchors": ["src/potential_input_f5.c:read_cutoff_parameter"]}
{"id": "C17", "title": "Minimum bracketing", "statement": "If bracketing along a line succeeds, the middle point lies strictly between the outer points and its value is strictly below both outer values and not above either start value; otherwise an error is raised after a bounded number of evaluations.", "quantifier": "every function along the line and every start interval", "why_tests_cant": "all functions", "anchors": ["src/bracket.c:bracket"]}
{"id": "C18", "title": "Line minimisation inside the bracket", "statement": "The line minimiser evaluates only points strictly inside the bracket, never returns a point worse than the bracket's middle point, reports the cost and the deviation vector belonging to the point returned, performs at most 100 iterations and never divides by zero.", "quantifier": "every function along the line, every bracket", "why_tests_cant": "all functions", "anchors": ["src/brent.c:brent"]}
{"id": "C19", "title": "A line search never makes the fit worse", "statement": "One line search step moves the parameters by a multiple of the search direction, returns the cost at the new position, the deviation vector of the new position, and the cost is never above the start cost.", "quantifier": "every cost function, position and direction", "why_tests_cant": "all functions", "anchors": ["src/linmin.c:linmin", "src/bracket.c:bracket", "src/brent.c:brent"]}
{"id": "C20", "title": "Least squares normal equations stay consistent", "statement": "After any number of direction replacements the normal-equation matrix and right-hand side used by the least squares optimiser are those of the current direction/gradient matrix and the current deviation vector.", "quantifier": "every sequence of replacements and deviations", "why_tests_cant": "all histories", "anchors": ["src/powell_lsq.c:gamma_init", "src/powell_lsq.c:gamma_update", "src/powell_lsq.c:lineqsys_init", "src/powell_lsq.c:lineqsys_update"]}
{"id": "C21", "title": "Least squares optimisation never makes the fit worse", "statement": "The cost of the parameter set left by the least squares optimiser is not above the cost of the set it started from, and an outer iteration is followed by another one only if it reduced the cost by more than the configured threshold.", "quantifier": "every cost function and every sequence of linear algebra results", "why_tests_cant": "all runs", "anchors": ["src/powell_lsq.c:run_powell_lsq"]}
{"id": "C22", "title": "Splines interpolate and are twice continuously differentiable", "statement": "The interpolation used for a tabulated potential passes through every sampling point, has continuous first and second derivative at every interior sampling point and has the requested slope (or zero curvature) at the ends, for equidistant and for arbitrary strictly increasing sampling points.", "quantifier": "every number of sampling points >= 3, all values, all end conditions", "why_tests_cant": "all tables", "anchors": ["src/splines.c:spline_ed", "src/splines.c:spline_ne", "src/splines.c:splint_ed", "src/splines.c:splint_ne"]}
{"id": "C23", "title": "Spline gradients are derivatives", "statement": "The gradient returned for a tabulated potential is the derivative of the returned value, and value-only, gradient-only and combined evaluation agree with each other.", "quantifier": "every table, every argument inside the table range", "why_tests_cant": "all real arguments", "anchors": ["src/splines.c:splint_grad_ed", "src/splines.c:splint_comb_ed", "src/splines.c:splint_grad_ne", "src/splines.c:splint_comb_ne", "src/splines.c:splint_dir"]}
{"id": "C24", "title": "Sampling interval lookup", "statement": "For every argument inside the table range the interval used for interpolation contains the argument and lies inside the table, for equidistant tables, for bisection in arbitrary tables, and for the precomputed slots of neighbours, so that precomputed and direct evaluation give the same value.", "quantifier": "every table and argument", "why_tests_cant": "all real arguments including interval ends", "anchors": ["src/splines.c:splint_ne", "src/splines.c:splint_ed", "src/config.c:set_neighbor_slot", "src/config.c:update_slots"]}
{"id": "C25", "title": "The neighbour list is complete and sound", "statement": "Two atoms (including periodic images) are neighbours exactly if their distance is at most the cutoff for their types, for boxes of every shape that is large enough or small, as long as the atoms lie in the unit cell.", "quantifier": "every cell shape, every cutoff, all positions in the cell", "why_tests_cant": "continuum of cells; sheared cells are rarely tested", "anchors": ["src/config.c:init_box_vectors", "src/config.c:init_neighbors"]}
{"id": "C26", "title": "Neighbour counting and filling agree, each pair once", "statement": "The number of neighbour entries reserved for an atom equals the number filled in, no entry is written outside the reserved space, and in pair-like models every pair of two different atoms/images appears exactly once in the lists (a pair of an atom with its own image appears as the image and its opposite, in the list of that atom).", "quantifier": "all configurations", "why_tests_cant": "all configurations", "anchors": ["src/config.c:init_neighbors"]}
{"id": "C27", "title": "Pair forces obey Newton's third law and the energy counts every bond once", "statement": "In the pair model the computed forces of a configuration add up to zero, the computed energy per atom is half the sum of the pair function over all ordered neighbours, and the computed force on each atom is the full neighbour sum.", "quantifier": "all configurations, all potentials", "why_tests_cant": "all configurations, self images", "anchors": ["src/force_pair.c:calc_forces"]}
{"id": "C28", "title": "Forces are final when they are scored", "statement": "The force contribution to the error sum is the configuration weight times the squared norm of the final force deviations, although it is accumulated in the same loop that still adds forces.", "quantifier": "all configurations and neighbour lists", "why_tests_cant": "depends on the ordering of atoms in the lists", "anchors": ["src/force_pair.c:calc_forces", "src/force_eam.c:calc_forces", "src/force_adp.c:calc_forces"]}
{"id": "C29", "title": "The error sum is a weighted sum of squares", "statement": "With non-negative weights the error sum of a pair model is never negative, and with positive weights it is zero exactly if every scored force, energy and stress equals its reference.", "quantifier": "all configurations and potentials", "why_tests_cant": "all inputs", "anchors": ["src/force_pair.c:calc_forces"]}
{"id": "C30", "title": "Embedded-atom energies equal the textbook sum", "statement": "In the EAM model the energy is the sum of embedding energies at the full density of every atom (all neighbours, all images) plus half the sum of the pair function, the forces of a configuration add up to zero.", "quantifier": "all configurations and potentials", "why_tests_cant": "self images and mixed species", "anchors": ["src/force_eam.c:calc_forces"]}
{"id": "C31", "title": "The embedding energy is continuous where the table ends", "statement": "When the density leaves the tabulated range of an embedding function the energy continues without a jump.", "quantifier": "every table", "why_tests_cant": "needs densities just outside the table", "anchors": ["src/force_eam.c:calc_forces", "src/force_adp.c:calc_forces"]}
{"id": "C32", "title": "Results do not depend on the choice of unit cell", "statement": "Energy per atom and stress of a periodic structure are the same when the structure is described by a small cell in which atoms neighbour their own images and by an equivalent larger cell.", "quantifier": "all periodic structures and potentials", "why_tests_cant": "needs pairs of equivalent cells with cells smaller than the cutoff", "anchors": ["src/force_pair.c:calc_forces", "src/force_adp.c:calc_forces", "src/force_stiweb.c:calc_forces", "src/force_tersoff.c:calc_forces", "src/force_ang.c:calc_forces"]}
{"id": "C33", "title": "The error report adds up", "statement": "In the error report the force, energy, stress and punishment contributions add up to the reported total, and the reported rms values are the square roots of the mean squared deviations of the entries scored.", "quantifier": "all deviation vectors", "why_tests_cant": "all inputs", "anchors": ["src/errors.c:write_errors"]}
{"id": "C34", "title": "Parameter normalisation does not change the potential", "statement": "Before an evaluation phase angles are moved into [0,2 pi] and exchanged inner/outer cutoffs are swapped; this does not change the potential function, yields values in the allowed form and terminates.", "quantifier": "all parameter values", "why_tests_cant": "all reals", "anchors": ["src/functions.c:apot_check_params"]}
{"id": "C35", "title": "Smooth cutoff", "statement": "A potential with smooth cutoff is zero at and beyond its end, has a continuous value and slope there, and is unchanged up to a factor in [0,1].", "quantifier": "all cutoff widths, all distances", "why_tests_cant": "all reals", "anchors": ["src/functions.c:apot_cutoff"]}
{"id": "C36", "title": "Out-of-bounds parameters are punished and in-bounds ones are not", "statement": "The additional cost for leaving the allowed parameter range is zero if all parameters are in range and strictly positive if one is out of range, growing with the distance.", "quantifier": "all parameter vectors and bounds", "why_tests_cant": "all reals", "anchors": ["src/functions.c:apot_punish"]}
{"id": "C37", "title": "Punishment entries of the deviation vector reflect the current parameters", "statement": "The deviation vector handed to the least squares optimiser is a function of the current parameters only, not of earlier evaluations.", "quantifier": "every history of evaluations", "why_tests_cant": "history dependent", "anchors": ["src/functions.c:apot_punish"]}
{"id": "C38", "title": "The electrostatic term vanishes smoothly at the cutoff", "statement": "The shifted electrostatic pair function and its slope are zero at the cutoff distance, and the tabulated gradient is the derivative of the tabulated value.", "quantifier": "all damping parameters and cutoffs", "why_tests_cant": "all reals", "anchors": ["src/functions.c:elstat_shift", "src/functions.c:elstat_value"]}
{"id": "C39", "title": "Electrostatic short-range potentials vanish smoothly at the cutoff", "statement": "Morse-stretch and Buckingham potentials of the electrostatics builds have zero value and zero slope at the cutoff.", "quantifier": "all parameters", "why_tests_cant": "all reals", "anchors": ["src/functions_impl.c:ms_value", "src/functions_impl.c:buck_value"]}
{"id": "C40", "title": "Composition-dependent chemical potential", "statement": "The reference energy for a binary alloy is the piecewise linear interpolation of the nodes with composition, continuous and exact at the nodes, whatever the order in which the nodes are given.", "quantifier": "all node sets and compositions", "why_tests_cant": "all reals and node orders", "anchors": ["src/chempot.c:chemical_potential_2d", "src/chempot.c:sort_chem_pot_2d"]}
{"id": "C41", "title": "Tabulated potential files round-trip", "statement": "Writing a tabulated potential and reading the file back gives the same sampling points, values, end gradients and the same set of free parameters.", "quantifier": "all tables", "why_tests_cant": "all tables", "anchors": ["src/potential_output.c:write_pot_table3", "src/potential_output.c:write_pot_table4", "src/potential_input_f3.c:read_pot_table3", "src/potential_input_f4.c:read_pot_table4"]}
{"id": "C42", "title": "A potential is written in the format in which it was read", "statement": "The end potential file has the same format number as the start potential.", "quantifier": "all formats", "why_tests_cant": "few formats, observable only in output files", "anchors": ["src/potential_output.c:write_pot_table_potfit"]}
{"id": "C43", "title": "Analytic potential files round-trip", "statement": "Writing an analytic potential and reading the file back is possible and keeps every parameter's value, bounds and fixed/free status.", "quantifier": "all parameter values and bounds", "why_tests_cant": "all reals", "anchors": ["src/potential_output.c:write_pot_table0", "src/potential_input_f0.c:read_pot_table0", "src/potential_input_f0.c:read_elstat_table"]}
{"id": "C44", "title": "The optimiser's parameter index addresses exactly the free parameters", "statement": "Every optimised parameter is a free one, each free parameter is optimised exactly once and with its own bounds, fixed ones never.", "quantifier": "all potentials, with chemical potentials and global parameters", "why_tests_cant": "all combinations of fixed flags", "anchors": ["src/potential_input_f0.c:read_pot_table0", "src/potential_input_f3.c:read_pot_table3", "src/potential_input_f4.c:read_pot_table4"]}
{"id": "C45", "title": "Start values lie inside their bounds", "statement": "After reading an analytic potential for optimisation every free parameter's start value lies inside its bounds.", "quantifier": "all parameter lines", "why_tests_cant": "needs reversed bounds", "anchors": ["src/potential_input_f0.c:read_analytic_potentials", "src/potential_input_f0.c:read_chemical_potentials", "src/potential_input_f0.c:read_global_parameters"]}
{"id": "C46", "title": "Global parameters are bound by name", "statement": "A parameter written as name! is bound to the global parameter of exactly this name.", "quantifier": "all sets of global names", "why_tests_cant": "needs names that are prefixes of each other", "anchors": ["src/potential_input_f0.c:read_analytic_potentials"]}
{"id": "C47", "title": "The evaluation table is always up to date", "statement": "Before each evaluation the internal table equals the analytic functions at the current parameters, although only changed potentials are recomputed.", "quantifier": "every history of parameter changes, with global and invariant potentials", "why_tests_cant": "cache staleness depends on history", "anchors": ["src/potential_input.c:update_calc_table", "src/potential_input_f0.c:init_calc_table0"]}
{"id": "C48", "title": "The neighbour cutoff covers every distance-dependent function", "statement": "The cutoff used for building neighbour lists is at least the end of every distance-dependent function for the pair of types.", "quantifier": "all potentials and models", "why_tests_cant": "all combinations of function ranges", "anchors": ["src/potential_input.c:calculate_cutoffs"]}
{"id": "C49", "title": "Rescaling does not change the physics", "statement": "Rescaling an EAM potential (density scale and linear gauge shift) leaves all pair-plus-embedding energies unchanged.", "quantifier": "all configurations and potentials", "why_tests_cant": "all inputs", "anchors": ["src/rescale.c:rescale", "src/rescale.c:embed_shift"]}
{"id": "C50", "title": "LAMMPS Stillinger-Weber export reproduces the potential", "statement": "The exported Stillinger-Weber parameters give the same two-body and three-body functions in the documented LAMMPS formula.", "quantifier": "all parameters, all distances", "why_tests_cant": "all reals", "anchors": ["src/potential_output_lammps.c:write_lammps_pot"]}
{"id": "C51", "title": "LAMMPS Tersoff export reproduces the potential", "statement": "The exported Tersoff parameters give the same cutoff function and energy in the documented LAMMPS formula as the fit used.", "quantifier": "all parameters, all distances", "why_tests_cant": "all reals", "anchors": ["src/potential_output_lammps.c:write_lammps_pot", "src/force_tersoff.c:calc_forces"]}
{"id": "C52", "title": "LAMMPS pair tables contain energy and force", "statement": "In an exported LAMMPS pair table the fourth column is the negative derivative of the third.", "quantifier": "all potentials", "why_tests_cant": "needs sign check for every build", "anchors": ["src/potential_output_lammps.c:write_lammps_table_pair"]}
{"id": "C53", "title": "The element table is consistent", "statement": "Looking up an element by name and then its mass by number gives the same mass as looking up the mass by name, and each name of the table finds its own element.", "quantifier": "every string", "why_tests_cant": "all strings", "anchors": ["src/elements.c"]}
{"id": "C54", "title": "Only atoms inside the contributing box are scored", "statement": "An atom contributes to the error sum exactly if its position lies in the box or a sphere given by the user.", "quantifier": "all positions and boxes", "why_tests_cant": "continuum; failing positions lie just outside", "anchors": ["src/config.c:does_contribute"]}
{"id": "C55", "title": "The pair distribution histogram stays in bounds", "statement": "Every neighbour distance is counted in a bin of the histogram.", "quantifier": "all distances up to the cutoff", "why_tests_cant": "needs a distance exactly at the cutoff", "anchors": ["src/config.c:write_pair_distribution_file"]}
{"id": "C56", "title": "KIM model parameters are read as written", "statement": "Every integer value that the user writes for a KIM model parameter is accepted and stored unchanged.", "quantifier": "all integers", "why_tests_cant": "all integers; failing ones start with 9 or a minus sign", "anchors": ["src/potential_input_f5.c:read_single_kim_parameter"]}
{"id": "C57", "title": "Stillinger-Weber global three-body parameters are bound to the right triple", "statement": "A global parameter used as three-body strength acts on exactly the triple of types at its position in the file.", "quantifier": "all numbers of types and triples", "why_tests_cant": "depends on ntypes and position", "anchors": ["src/force_stiweb.c:update_stiweb_pointers"]}
{"id": "C58", "title": "Tersoff mixing parameters are bound to mixed pairs", "statement": "For any number of types the Tersoff mixing parameters chi and omega are taken from the file for mixed pairs and equal one for like pairs, and no parameter is read outside the table.", "quantifier": "all numbers of types", "why_tests_cant": "needs more than two types", "anchors": ["src/force_tersoff.c:update_tersoff_pointers"]}
{"id": "C59", "title": "The Hessian for uncertainty quantification", "statement": "The finite difference Hessian is symmetric, equals the exact Hessian for every quadratic cost function, and the parameters are unchanged after the calculation unless a better fit was found, in which case the better fit and its cost are kept.", "quantifier": "all quadratic cost functions, all parameter vectors, all perturbations", "why_tests_cant": "all functions", "anchors": ["src/uq.c:calc_hessian"]}
{"id": "C60", "title": "Ensemble members are recorded with their own cost", "statement": "Every accepted ensemble member is recorded with the cost of exactly these parameters; rejected trials leave no trace in the parameters.", "quantifier": "every random stream and cost function", "why_tests_cant": "all histories", "anchors": ["src/uq.c:generate_mc_sample", "src/uq.c:mc_moves"]}
{"id": "C61", "title": "Normally distributed random numbers", "statement": "The generator of normal deviates never takes the logarithm or square root of an invalid number, delivers two deviates per accepted pair of uniforms, and their squares add up to -2 ln s of the accepted radius.", "quantifier": "every uniform random stream", "why_tests_cant": "all random streams", "anchors": ["src/random.c:normdist"]}
{"id": "C62", "title": "All processes finish together", "statement": "In a parallel run every worker process performs exactly the evaluations requested by the root process, in order, and leaves the evaluation loop exactly when the root sends the stop request.", "quantifier": "every sequence of requests and number of workers", "why_tests_cant": "all schedules", "anchors": ["src/force_pair.c:calc_forces", "src/potfit.c:main", "src/potfit.c:error"]}
{"id": "C63", "title": "Reciprocal box vectors", "statement": "The reciprocal vectors computed from the box vectors are dual to them, so that fractional coordinates reconstruct the position, for every non-degenerate box; the volume is positive.", "quantifier": "all boxes", "why_tests_cant": "all reals", "anchors": ["src/config.c:make_box", "src/config.c:init_box_vectors"]}
{"id": "C64", "title": "Stored angles are used for the triples they were computed for", "statement": "In the three-body models the angle used for a pair of neighbours (j,k) of an atom is the one stored for this pair.", "quantifier": "all neighbour lists and cutoffs", "why_tests_cant": "index arithmetic over all list lengths", "anchors": ["src/config.c:init_angles", "src/force_stiweb.c:calc_forces", "src/force_tersoff.c:calc_forces", "src/force_ang.c:calc_forces"]}
{"id": "C65", "title": "Rescaling uses the densities of the energy calculation", "statement": "The densities used for rescaling are those entering the energies.", "quantifier": "all configurations", "why_tests_cant": "needs cells smaller than the cutoff", "anchors": ["src/rescale.c:rescale", "src/force_eam.c:calc_forces"]}
{"id": "C66", "title": "Least squares gradient is taken at the current parameters", "statement": "Whenever the least squares optimiser (re)builds its derivative matrix, each column is the normalised difference quotient of the deviation vector between the current parameters with one parameter incremented and the current parameters; for deviations linear in the parameters it is exact.", "quantifier": "every cost function, every start vector, every restart", "why_tests_cant": "all runs and restart points", "anchors": ["src/powell_lsq.c:run_powell_lsq", "src/powell_lsq.c:gamma_init"]}
{"id": "C67", "title": "Linear extrapolation of tables", "statement": "The interpolation with linear extrapolation equals the spline inside the table and continues it outside with the value and slope at the nearest end, so that it is continuous with continuous slope everywhere.", "quantifier": "every table with strictly increasing sampling points, every real argument", "why_tests_cant": "all real arguments on both sides of the table", "anchors": ["src/splines.c:splint_ne_lin"]}
{"id": "C68", "title": "Padding atoms handed to a KIM model", "statement": "The particles handed to a KIM model are the atoms of the configuration followed by exactly the periodic images within the cutoff of some atom, each once; the neighbour list of every atom points to the particles of its neighbours and leaves none out; no index leaves the allocated blocks.", "quantifier": "all cells, atoms and cutoffs", "why_tests_cant": "index arithmetic over all images of arbitrary cells", "anchors": ["src/config.c:init_neighbors_kim", "src/config.c:init_neighbors", "src/force_kim.c:get_neigh"]}
{"id": "C69", "title": "Analytic tables start below every distance", "statement": "After the configurations are read, the table of every analytic pair potential starts at 0.95 times the smallest distance of a pair of these types in all configurations, and the transfer functions start at 0.95 times the smallest distance of all, so every neighbour distance lies behind the start of its table; the run stops exactly if a pair of types has no neighbours.", "quantifier": "all sets of configurations and numbers of types", "why_tests_cant": "all sets of distances and orders of reading", "anchors": ["src/config.c:read_config", "src/config.c:init_neighbors"]}
{"id": "C70", "title": "EAM error sum is the weighted sum of squares of the final deviation vector", "statement": "The value returned by the EAM force routine is the weighted sum of squares of the entries of the deviation vector it leaves behind (forces, energies, stresses, limiting constraints, dummy constraints) plus the punishments of analytic potentials; no entry is scored before it is final and none is scored twice.", "quantifier": "every build variant (rescaling or not, analytic or tabulated, one or two bands), every list of configurations, every potential", "why_tests_cant": "all interleavings of list order and scoring, all build variants", "anchors": ["src/force_eam.c:calc_forces"]}
{"id": "C71", "title": "Two-band EAM includes every density contribution in forces and stresses", "statement": "In the two-band EAM build the forces and stresses contain the density contributions of both bands for every pair inside the reach of either band.", "quantifier": "all s-band and d-band cutoffs", "why_tests_cant": "needs an s-band reaching farther than the d-band", "anchors": ["src/force_eam.c:calc_forces"]}
{"id": "C72", "title": "Forces are the negative gradient of the energy", "statement": "For differentiable potentials the force computed for an atom by the pair, EAM and ADP routines is the negative gradient of the energy computed by the same routine with respect to the position of that atom (all its periodic images moving along).", "quantifier": "every configuration, cell, atom, direction and every differentiable potential", "why_tests_cant": "all real positions and functions; finite differences only sample", "anchors": ["src/force_pair.c:calc_forces", "src/force_eam.c:calc_forces", "src/force_adp.c:calc_forces"]}
{"id": "C73", "title": "Limits and free parameters of KIM models", "statement": "Every optimised KIM parameter has a lower limit below its upper limit and a start value between them; the index lists exactly the parameters whose limits differ, each once.", "quantifier": "all potential files of format 5", "why_tests_cant": "all combinations of line kinds", "anchors": ["src/potential_input_f5.c:read_single_kim_parameter", "src/potential_input_f5.c:read_pot_table5"]}
{"id": "C74", "title": "The KIM model works with the requested parameters", "statement": "At every evaluation each double parameter inside of the KIM model has the value requested by the optimiser.", "quantifier": "every sequence of evaluations and every list of parameters", "why_tests_cant": "depends on the history of earlier evaluations", "anchors": ["src/force_kim.c:update_kim_model", "src/potential_input.c:update_kim_table"]}
{"id": "C75", "title": "KIM force deviations do not depend on earlier contents of the vector", "statement": "The force entries after an evaluation are the weighted differences of the forces of the KIM model and the reference, whatever the vector held before.", "quantifier": "all vectors, particles and forces", "why_tests_cant": "needs repeated evaluation with the same vector", "anchors": ["src/force_kim.c:calc_forces"]}
{"id": "C76", "title": "Angular functions are evaluated at the angle", "statement": "In the MEAM and ANG models the angular function and its slope are those of the tabulated curve at the cosine of the angle.", "quantifier": "all angles, tables and builds", "why_tests_cant": "continuum of angles; the failing case needs the end of the table or a tabulated build", "anchors": ["src/config.c:init_angles", "src/config.c:update_slots", "src/force_meam.c:calc_forces", "src/force_ang.c:calc_forces"]}
{"id": "C77", "title": "The cost is the squared norm of the deviation vector", "statement": "The error sum returned by a force routine is the sum of the squares of all entries of the deviation vector, as the least squares optimiser assumes.", "quantifier": "all potentials, configurations and weights", "why_tests_cant": "any weights, any configurations", "anchors": ["src/force_pair.c:calc_forces", "src/powell_lsq.c:gamma_update", "src/powell_lsq.c:lineqsys_init"]}
{"id": "C78", "title": "Smooth cutoffs do not disturb the binding of other parameters", "statement": "When a Stillinger-Weber or Tersoff potential in the file carries a smooth cutoff (_sc), the parameters of all other potentials are still taken from their own positions.", "quantifier": "all numbers of columns and all choices of smoothed columns", "why_tests_cant": "the fit runs and gives plausible numbers with shifted parameters", "anchors": ["src/force_tersoff.c:update_tersoff_pointers", "src/force_stiweb.c:update_stiweb_pointers", "src/potential_input_f0.c:751"]}
{"id": "C79", "title": "Weights and attempts of ensemble members", "statement": "Each line of the ensemble file carries the number of Monte Carlo moves tried from its member and the total number of moves tried up to then.", "quantifier": "every random stream, cost function and number of members", "why_tests_cant": "all histories of accepted and rejected moves", "anchors": ["src/uq.c:ensemble_generation", "src/uq.c:generate_mc_sample"]}
{"id": "C80", "title": "The search for the size of a perturbation ends", "statement": "For every parameter and every cost function that grows beyond the aim, the search for the perturbation factor ends, and the cost aimed at is met by or enclosed between its results.", "quantifier": "all parameters and cost functions", "why_tests_cant": "all functions; non-termination is not observable by tests", "anchors": ["src/uq.c:hess_bracketing", "src/uq.c:single_param_pert_cost"]}
{"id": "C81", "title": "Neighbour cutoffs cover every function of the distance", "statement": "Two atoms closer than the upper end of any function of their distance used by the interaction are in the neighbour lists, and a distance below the start of any of them is reported.", "quantifier": "all interactions, numbers of types, pairs of types and potential tables", "why_tests_cant": "the example potentials have the same cutoff for all functions; the error is a silently missing contribution", "anchors": ["src/potential_input.c:calculate_cutoffs", "src/config.c:init_neighbors"]}
{"id": "C82", "title": "Every function of a tabulated potential is read and fitted", "statement": "When a tabulated potential file is accepted, the values of all its functions are used, and every value is a free parameter unless its function is marked as fixed or the value is the one fixed by convention for its kind of function.", "quantifier": "all interactions, numbers of types, formats 3 and 4 and files", "why_tests_cant": "needs every combination of interaction, number of types and format; ignored columns show up as zero functions without any message", "anchors": ["src/potential_input_f3.c:read_pot_table3", "src/potential_input_f4.c:read_pot_table4", "src/potential_input.c:read_pot_table"]}
{"id": "C83", "title": "The rms stress is reported in the unit stated", "statement": "The number printed as MPa in the error report is the rms stress deviation (in eV per cubic Angstrom) converted to MPa.", "quantifier": "all deviation vectors", "why_tests_cant": "nothing compares the printed number with another source; the reader of the report has no second value", "anchors": ["src/errors.c:write_errors"]}
{"id": "C84", "title": "Exported setfl files contain the fitted functions on the stated grid", "statement": "In an exported LAMMPS eam/alloy or adp file the numbers of each block are the values of the fitted function (times r for pair functions) at the multiples of the step stated in the header, with the blocks of the pair functions in the order the format prescribes.", "quantifier": "all potentials, numbers of types and steps", "why_tests_cant": "needs all grids and numbers of types; a misplaced or shifted block gives a readable file with wrong physics", "anchors": ["src/potential_output_lammps.c:write_lammps_pot"]}
{"id": "C85", "title": "Exported ADP functions are in the order and scaling of the format", "statement": "The dipole and quadrupole blocks of an exported adp file are the fitted functions, unscaled, in the order of the format (pairs with i >= j, row by row).", "quantifier": "all potentials and numbers of types", "why_tests_cant": "with one or two types the order cannot be told apart from the right one; scaling by r needs comparison with another program", "anchors": ["src/potential_output_lammps.c:write_lammps_pot"]}
{"id": "C86", "title": "Workers follow a rescaling", "statement": "After a rescaling and the following synchronisation every MPI worker evaluates the same embedding functions as the root process.", "quantifier": "all potentials of format 3 and 4, all earlier states of the worker", "why_tests_cant": "all potentials; needs MPI and format 4 with rescaling", "anchors": ["src/mpi_utils.c:potsync", "src/rescale.c:rescale"]}
{"id": "C87", "title": "Rescaled ranges contain the densities", "statement": "The new range of every embedding function is a proper interval that contains all densities of atoms of its type.", "quantifier": "all configurations, all potentials, all types", "why_tests_cant": "all configurations; types without atoms", "anchors": ["src/rescale.c:rescale"]}
{"id": "C88", "title": "Stillinger-Weber routine computes the Stillinger-Weber model", "statement": "For every configuration the energy per atom, forces and stresses written by calc_forces of force_stiweb.c are those of the Stillinger-Weber model: half the sum over all pairs of the two-body term plus the sum over all angles of the three-body term; forces are minus the gradient of that energy and add up to zero; the returned value is the weighted sum of squares of the entries; force entries of configurations without use of forces stay zero.", "quantifier": "all parameters, numbers of types, configurations with any cell, weights and build options", "why_tests_cant": "all cells including those where atoms neighbour their own images; exact gradients for all structures", "anchors": ["src/force_stiweb.c:calc_forces"]}
{"id": "C89", "title": "Stillinger-Weber parameters are read from the right place", "statement": "After any sequence of evaluations with different parameter arrays, every parameter used by the Stillinger-Weber routine (A B p q delta a1, gamma a2, lambda for every triple of types) is the entry of that parameter in the array of the last evaluation, or the entry of the global parameter it is an instance of.", "quantifier": "all numbers of types, all sets of global parameters, all sequences of arrays", "why_tests_cant": "needs every assignment of global parameters, and histories of array addresses; wrong pointers may read plausible values", "anchors": ["src/force_stiweb.c:update_stiweb_pointers"]}
{"id": "C90", "title": "Tersoff parameters are read from the right place", "statement": "After any sequence of evaluations every pair parameter used by the Tersoff routine is the entry of that parameter in the array of the last evaluation or of the global parameter it is an instance of; chi and omega of two different types are those of the column of that pair, chi and omega of a type with itself are 1.", "quantifier": "all numbers of types, all sets of global parameters, all sequences of arrays, both builds", "why_tests_cant": "needs three or more types or global mixing parameters; wrong pointers may read plausible values", "anchors": ["src/force_tersoff.c:update_tersoff_pointers"]}
{"id": "C91", "title": "Angular force routine", "statement": "calc_forces of the angular potentials returns, for every configuration whose forces are used, the textbook forces, energy per atom and stress of E = sum phi(r)/2 + sum over pairs of neighbours f(r1) f(r2) g(cos), minus the reference values; forces are minus the gradient of the energy and sum to zero; the error sum is the weighted sum of squares of what is used.", "quantifier": "all structures, cells, neighbour lists, functions phi, f, g, flags and weights, all build options", "why_tests_cant": "needs all triples of atoms over all periodic images; sums over permuted lists", "anchors": ["src/force_ang.c:calc_forces"]}
{"id": "C92", "title": "Tersoff force routine", "statement": "calc_forces of the standard Tersoff potential returns, for every configuration whose forces are used, the textbook forces, energy per atom and stress of E = sum over bonds of fc(r) (A exp(-lambda r) - b B exp(-mu r))/2 with the bond order b = (1 + (gamma zeta)^n)^(-1/2n), minus the reference values; forces are minus the gradient of the energy and sum to zero; configurations that do not use forces keep zero force entries; the error sum is the weighted sum of squares of what is used.", "quantifier": "all structures, cells, neighbour lists, parameters, flags and weights, all build options", "why_tests_cant": "needs all triples of atoms over all periodic images and all parameters; exact derivative identities of the bond order", "anchors": ["src/force_tersoff.c:calc_forces (standard)"]}
{"id": "C93", "title": "Modified Tersoff force routine", "statement": "The same as C92 for the modified Tersoff potential: fc = 1/2 + 9/16 cos - 1/16 cos 3x, b = (1 + zeta^eta)^(-delta), zeta = sum fc g(cos) exp(alpha (r1-r2)^beta).", "quantifier": "all structures, cells, neighbour lists, parameters, flags and weights, all build options", "why_tests_cant": "needs all triples of atoms over all periodic images and all parameters; exact derivative identities of the bond order", "anchors": ["src/force_tersoff.c:calc_forces (modified)"]}
{"id": "C94", "title": "Default end conditions of tabulated functions", "statement": "If a tabulated potential file has no #G line, every function starts with a natural spline at its left end and has gradient zero at the cutoff; embedding and quadrupole functions are natural at both ends and the angular functions of MEAM have gradient zero at both.", "quantifier": "all interactions, numbers of types, formats 3 and 4 and files", "why_tests_cant": "every combination of interaction, number of types and column", "anchors": ["src/potential_input_f3.c:read_pot_table3", "src/potential_input_f4.c:read_pot_table4"]}
{"id": "C95", "title": "ADP energies, forces and stresses equal the textbook formulas", "statement": "In the angular dependent potential model the energy of a configuration is the EAM energy plus half the squares of all dipole vectors and quadrupole matrices minus a sixth of the squared traces, summed over all atoms with all neighbours and images; forces and stresses are the textbook ones and the forces add up to zero.", "quantifier": "all configurations, cells, types, potentials, flags and weights, all build options", "why_tests_cant": "all geometries with self images; reference values exist for single structures only", "anchors": ["src/force_adp.c:calc_forces"]}
{"id": "C96", "title": "Limit and dummy entries of EAM and ADP are functions of the densities", "statement": "The value returned by the ADP routine is the weighted sum of squares of the deviation vector plus punishments. For EAM and ADP the limit entry of a configuration is 1000 times the sum of the squared distances of the densities of its atoms from the range of the embedding function (zero without rescaling), the dummy entries are 100 times the slope of the embedding function and 100 times (mean density - 1).", "quantifier": "all configurations, potentials, build options", "why_tests_cant": "densities of all atoms over all images, all ranges", "anchors": ["src/force_adp.c:calc_forces", "src/force_eam.c:calc_forces"]}
{"id": "C97", "title": "MEAM energies, forces and stresses equal the textbook formulas", "statement": "In the MEAM model the density at an atom is the sum of a transfer function over all its neighbours (all images) and of f(r1) f(r2) g(cos) over the pairs of neighbours; the energy of a configuration is the pair energy plus the embedding functions of these densities, forces and stresses are the textbook ones (the force being minus the gradient of the energy, C72) and the forces add up to zero. Outside of its table an embedding function is continued in a fixed way.", "quantifier": "all configurations, cells, types, potentials, flags and weights, all build options", "why_tests_cant": "three-body sums over all images in all cells; reference values exist for single structures only", "anchors": ["src/force_meam.c:calc_forces"]}
{"id": "C98", "title": "MEAM error sum is linear in the configuration weights and counts only what is used", "statement": "The value returned by the MEAM force routine is the sum over the configurations of the weight times (squared deviations of forces, energy, stresses that are used and of the densities that leave the table) plus the punishments; so doubling all weights doubles the contribution of the configurations, and stresses of configurations whose forces are not used do not count.", "quantifier": "all configurations, weights, potentials, build options", "why_tests_cant": "weights other than 1 and flags of single configurations are not in the tests; the error is plausible in any case", "anchors": ["src/force_meam.c:calc_forces"]}
{"id": "C99", "title": "Charges of the electrostatic models are neutral", "statement": "The charge of the last type is chosen such that the sum over the types of (share of the type among all atoms) times (charge of the type) is zero; the other charges are the parameters of the potential.", "quantifier": "all numbers of types, shares and charge parameters with a nonzero share of the last type", "why_tests_cant": "all parameter values and compositions", "anchors": ["src/force_elstat.c:calc_forces"]}
