{
 "C05": {
  "status": "proved",
  "note": "The unconditional claim is false of the code: two witnesses are proved (missing spin channel, missing element). Proved under the condition that every channel occurs in the structure."
 },
 "C06": {
  "status": "proved",
  "note": "'Exactly once' is false of the code for a single file name (phono3py): proved to be exactly twice, with a witness. Reading the files of one data set a second time leaves energies unlowered (witness). The input-file path with data/data_md lines is once."
 },
 "C09": {
  "note": "the original claim (complete at every feature count) is refuted at the threshold: C09_complete_at_every_count_refuted (module Example), C09_threshold_lower_blocks_zero"
 },
 "C13": {
  "note": "the original claim (smallest residual) is refuted: C13_smallest_residual_refuted (module Example); proved: last iterate, residual invariant"
 },
 "C24": {
  "status": "proved",
  "note": "Scaling proved for pair models; for gtinv models the energy factor is proved to have no effect, with a refutation of the original claim."
 },
 "C20": {
  "status": "proved",
  "note": "Unconditional claim refuted by a witness with a very short translation; proved under a condition every physical cell meets."
 },
 "C21": {
  "status": "proved",
  "note": "C21_full characterises the list under the stated condition on the axes used; C21_orthogonal discharges it for orthogonal axes; C21_refined_cell: refinement keeps lattice and volume. The unconditional claim is false: C21_flat_refuted gives a cell where a neighbour at distance 18 < 20 is missed. Real arithmetic, no rounding."
 },
 "C32": {
  "status": "proved",
  "note": "Real arithmetic; C32_negative_refuted: the original range [0,1) is false."
 },
 "C33": {
  "status": "proved",
  "note": "np.linalg.inv is a function with A (inv A) v = v. C33_long_refuted: a displacement of 3 in a cell of edge 4 comes back as -1."
 },
 "C34": {
  "status": "proved",
  "note": "use_phonopy=False and positive sizes; real arithmetic."
 },
 "C35": {
  "status": "proved",
  "note": "Atoms of one type with different elements all get the element of the last one (Example C35_mixed_element)."
 },
 "C51": {
  "status": "proved",
  "note": "rint (np.round) is modelled; any arithmetic."
 },
 "C45": {
  "status": "proved",
  "note": "Full statement as restated. The stronger guarantee that truncated value lists are rejected is refuted (C45_truncated_refuted). Float/int conversion of a word is a parameter."
 },
 "C46": {
  "status": "proved",
  "note": "Characterises all strings: true, false and error cases."
 },
 "C38": {
  "status": "proved",
  "note": "Includes the permutation and space-group projectors. Rotations come from an external library (parameter); least squares with one column modelled exactly."
 },
 "C39": {
  "status": "proved",
  "note": "Over the reals; inverse by cofactors."
 },
 "C41": {
  "status": "proved",
  "note": "np.linalg.pinv is a parameter with A P A = A."
 },
 "C43": {
  "status": "proved",
  "note": "Algebraic statements over any field of characteristic 0, derivative over the reals."
 },
 "C44": {
  "status": "proved",
  "note": "Includes C44_ase_refuted."
 },
 "C37": {
  "status": "proved",
  "note": "Kept models characterised relative to the facets returned by scipy's ConvexHull (external). The original wording (no other model dominates a kept one) is refuted: C37_dominated_refuted."
 },
 "C40": {
  "status": "proved",
  "note": "Over the reals. Volume-only gradient lacks 1/V: C40_volume_refuted. The potential is external with forces and stress assumed to be energy derivatives (see C10, C18, C50)."
 },
 "C42": {
  "status": "proved",
  "note": "Solver steps are an oracle. Convergence with mixing=1 and start from unset force constants are refuted: C42_change_refuted, C42_unset_refuted."
 },
 "C36": {
  "status": "proved",
  "note": "Thresholds over the reals; 2**x is an arbitrary function; composition keys abstract. Refuted without the hypotheses: C36_skipped_refuted (unusable file copied, usable one lost), C36_md_refuted, C36_positive_refuted, C36_one_group_refuted."
 },
 "C29": {
  "status": "proved",
  "note": "Evaluator as a total function (oracle); structures are values (the code renumbers types of the caller's structures in place)."
 },
 "C28": {
  "status": "proved",
  "note": "Refuted parts: C28_pairs_refuted (pair tables are not renumbered when elements are re-sorted), C28_order_refuted (std::replace chain needs ascending indices, which set_unique guarantees), C28_spin_refuted (spin-doubled sub-models)."
 },
 "C27": {
  "status": "proved",
  "note": "Refuted parts: C27_sscha_refuted, C27_mixed_refuted, C27_append_refuted; C27_bool_spins."
 },
 "C25": {
  "status": "proved",
  "note": "Refuted part: C25_shared_refuted (revise_params changes the shared model object in place)."
 },
 "C26": {
  "status": "proved",
  "note": "Refuted parts: C26_auto_short (n_gaussians <= 2 fails), C26_orders_refuted. linspace over the reals."
 },
 "C52": {
  "status": "proved",
  "note": "Real arithmetic; the decimal constants of the code (sqrt(1/2pi), sqrt 3, ...) are the exact numbers."
 },
 "C53": {
  "status": "proved",
  "note": "Real arithmetic. With lmax = 0 the C++ code reads one element past the array and multiplies it by zero; the model reads 0."
 },
 "C54": {
  "status": "proved",
  "note": "Real arithmetic; the thresholds 1e-20 are 0 for invariant models; the table of invariants satisfies gtinv_table (checked on the data files by a script)."
 },
 "C55": {
  "status": "proved",
  "note": "Hypotheses as in C50; discharged for the functions of the code in C54."
 },
 "C56": {
  "status": "proved",
  "note": "Real arithmetic, thresholds 0; off-diagonal stress of invariant models is in C59."
 },
 "C57": {
  "status": "proved",
  "note": "C57_gtinv: energy features of invariant models with the radial functions and harmonics of the code, under the L = 0 condition on the coupling tables (checked numerically for the shipped tables, residual 3e-13) and threshold zero. C57_pair: pair models. C57_energy: the fast evaluation."
 },
 "C58": {
  "status": "proved",
  "note": "C58_gtinv for any nonnegative threshold not taken by a radial function; C58_pair for pair models."
 },
 "C59": {
  "status": "proved",
  "note": "C59_evaluators: all six components (completes C18 and C54 off the diagonal). C59_features and C59_stress: both shears (completes C56). Uses the harmonics and radial functions of the code, threshold zero, and the L = 0 condition for invariant models."
 },
 "C18": {
  "status": "proved",
  "note": "Pair models: all components. Invariant models: energy, forces and diagonal stress for any table; off-diagonal stress needs L = 0 tables and is C59."
 },
 "C60": {
  "status": "proved",
  "note": "C60_crystal is the general statement (any two descriptions, multiplicity m); C60_description covers renumbering, shifts, wrapping and other cells; C60_supercell and C60_orthogonal the diagonal supercells of C34. Example: a two-atom cubic cell and its 1x1x2 supercell with the C57 model. Basis: the modelled radial functions and harmonics; types below n_type. The completeness conditions of the search are those of C20 and C21 (C21_flat_refuted shows they cannot be dropped)."
 },
 "C61": {
  "status": "proved",
  "note": "C61_phono3py_refuted and C61_imaginary_refuted are the witnesses of the two places where settings are dropped; C61_phono3py_line and C61_multiple_filesets say what happens there instead."
 },
 "C62": {
  "status": "proved",
  "note": "C62_features: energy, force and stress features. C62_energy: the fast evaluation. C62_virial: clusters without images. Conditions as in C59: harmonics and radial functions of the code, threshold zero, L = 0 for the tables of invariant models, neighbour numbers below the number of atoms."
 },
 "C63": {
  "status": "proved",
  "note": "C63_forces, C63_stress: the fast evaluation, from C57 and C62 by uniqueness of derivatives. Conditions as in C62."
 },
 "C64": {
  "status": "proved",
  "note": "Text level for the C++ reader; the Python reader gets the printed values (PyYAML is external). Number printing and reading are functions assumed to round-trip up to a rounding. C64_spins_refuted and C64_empty_refuted show that the C++ reader differs on active spins and fails on empty index lists. Hybrid files are C65."
 },
 "C65": {
  "status": "proved",
  "note": "C65_load and C65_load_fails together characterise when loading works. No active spins; one file is the values of C64. C65_prefix_refuted: a valid hybrid whose files cannot be loaded. C65_order_refuted: sub-models in another element order are evaluated with exchanged types when their files are given directly."
 },
 "C66": {
  "status": "proved",
  "note": "C66_errors, C66_fails, C66_order, C66_bounds, C66_pooled, C66_names, C66_key, C66_key_distinct, C66_direction, C66_potential (link to C29). Refuted: distinct names have distinct prediction files (C66_key_refuted: 'set.1/*' and 'set-1/*'); a direction error of zero means the right direction (C66_direction_refuted: forces of the wrong sign throughout). Exact arithmetic; division by a zero norm is excluded by hypothesis."
 },
 "C67": {
  "status": "proved",
  "note": "C67_round_trip, C67_same, C67_mode, C67_selective, C67_reorder, C67_phonopy, C67_openmx. Refuted: elements always come back (C67_elements_refuted, C67_openmx_refuted), any title can be written (C67_newline_refuted), types of phonopy cells name the elements (C67_phonopy_refuted). Printing and reading of floating-point numbers are functions with a round trip up to rounding; the examples instantiate them with integers."
 },
 "C68": {
  "status": "proved",
  "note": "C68_vasp, C68_determined, C68_dataset, C68_unreadable, C68_single, C68_sscha, C68_sscha_intensive, C68_electron, C68_electron_dataset. Refuted: the sample of a relaxation is one of its calculations (C68_relaxation_refuted); unreadable files are skipped (C68_unreadable); the lists of electronic properties are aligned (Example C68_electron_refuted; the data set constructor then raises). The XML tree and the YAML documents are records of what is looked up in them."
 },
 "C69": {
  "status": "proved",
  "note": "C69_run, C69_averages, C69_quadratic, C69_covariance, C69_energy, C69_frequency, C69_occupancy, C69_monotone, C69_mean_energy, C69_positive, C69_constants. Refuted by Example C69_flag_refuted: outliers are kept when eliminate_outliers is False; a run always keeps samples. The eigensolver, the random numbers and the evaluation of structures are parameters; averages are arbitrary linear functionals."
 },
 "C70": {
  "status": "proved",
  "note": "Forces in the test data but not in the training data are excluded: then scales between 1e-20 and 1e-10 are switched off in the test only. C70_singular_refuted and C70_failed: the flag check_singular=True is not handed on by compute_rmse, so failed factorizations are returned silently."
 },
 "C71": {
  "status": "proved",
  "note": "C71_last_refuted: with 25 structures the last point has 24. C71_energies_refuted: PolymlpDataXY.slice looks up force and stress rows from index -1 when there are none; the last point at the latest is an IndexError."
 },
 "C72": {
  "status": "proved",
  "note": "Real numbers; np.linalg.solve and inv are exact oracles (an executable Gaussian elimination is proved to be one), scipy's fsolve is an oracle. C72_derivative_refuted and C72_weights_refuted show two claims one would expect that do not hold of the code."
 },
 "C73": {
  "status": "proved",
  "note": "Volumes and temperatures are rationals rounded exactly; np.allclose is any reflexive relation. C73_fractional_refuted, C73_overwritten_refuted and C73_shared_refuted are concrete runs with unwanted results."
 },
 "C74": {
  "status": "proved",
  "note": "Proved over the reals for any exact 2x2 solver (one is exhibited) and any Simpson rule. The per-atom reading of the failure test is refuted (C74_supercell_refuted)."
 },
 "C75": {
  "status": "proved",
  "note": "Finding: free_energy_perturb uses beta = KbEV * T where 1/(KbEV T) is meant; the claim that it is the free energy difference at the temperature of the run is refuted (C75_beta_refuted), the true bounds are C75_perturbation. Forces: C75_conservative."
 },
 "C76": {
  "status": "proved",
  "note": "Simulations and p_roots are oracles; the two-point rule is shown exact to degree 3. That alphas outside [0,1] are refused is refuted (C76_alpha_refuted); C76_unknown_thermostat and C76_sticky_reference say what happens instead of a refusal."
 },
 "C77": {
  "status": "proved",
  "note": "Fits of equations of state (phonopy) are values with a minimum and a function; printing and parsing numbers is the identity. That missing data at one temperature leaves the others usable is refuted (C77_run, C77_save_fails); eval_heat_capacities is refuted (C77_heat_capacities_refuted)."
 },
 "C78": {
  "status": "proved",
  "note": "np.linalg.solve and inv are exact oracles as in C72, fsolve is an oracle that solves straight lines; make_interp_spline with k = 1 is the polygon. That transitions lie within the data, exist when reported, or that boundaries stay within the common range of pressures is refuted (C78_inside_refuted, C78_none_refuted, C78_range_refuted)."
 },
 "C79": {
  "status": "proved",
  "note": "Reading data, regression, errors, learning curves and parsers are oracles; parameter objects live in a heap and are those of C27. That saved potentials keep the parameters they were fitted with, that failing calls change nothing, that saved errors are of one estimate, that given forces are used, and that missing errors are a RuntimeError is refuted (C79_parameters_kept_refuted, C79_atomic_refuted, C79_failed_run_refuted, C79_one_estimate_refuted, C79_forces_used_refuted, C79_save_errors_refuted)."
 },
 "C80": {
  "status": "proved",
  "note": "Random sampling and the calculator are oracles. That accepted occupancies can be realised, that atoms not replaced stay as they are, and that evaluated types are those of the occupancy is refuted (C80_realised_refuted, C80_left_refuted, C80_names_refuted, C80_channel_refuted). Displaced lattices and files are not modelled."
 },
 "C81": {
  "status": "proved",
  "note": "ConvexHull is an oracle whose specification can be met at any points (C81_hull_met). Stability of all reported rows and of end members, existence of a hull, presence of every element, foreign atoms and given names are refuted (C81_positive_refuted, C81_end_refuted, C81_flat_refuted, C81_lost_refuted, C81_foreign_refuted, C81_given_names_refuted)."
 },
 "C82": {
  "status": "proved",
  "note": "That damaged files are refused, that the bound holds for every l of any table, and that a missing order leaves the others is refuted (C82_magic_refuted, C82_cut_refuted, C82_order_refuted, C82_missing_refuted). A double is its 64 bits; uninitialised memory is a parameter."
 },
 "C83": {
  "status": "proved",
  "note": "The laws asked of gsl_sf_coupling_3j (zero outside the triangle, parity, orthonormality, invariance) are hypotheses on the couplings that occur for these l; an example meets them for l = 1, 1, 2. That run_enum works for order one and with eliminate_odd=False is refuted (C83_order_one_refuted, C83_odd_refuted). The seven nests of loops are one function of the list of l."
 },
 "C84": {
  "status": "proved",
  "note": "That gto and morlet are what their names say and fit their derivatives is refuted (C84_gto_refuted, C84_morlet_refuted); C84_gto, C84_morlet and C84_bump say what they are. These functions are exported by the header as deprecated; only Gaussians are chosen by get_fn_."
 },
 "C85": {
  "status": "proved",
  "note": "Refuted: C85_file_refuted, C85_given_refuted, C85_stale_refuted, C85_mixed_refuted. symfc, phonopy, phono3py and the potential are parameters."
 },
 "C86": {
  "status": "proved",
  "note": "That the grid stays inside its range is refuted for ranges beside [0.9, 1.1] (C86_above_refuted, C86_below_refuted); C86_stale_refuted and C86_volume_refuted are the other exceptions. np.arange is exact here."
 },
 "C87": {
  "status": "proved",
  "note": "That values belong to the structures held is refuted (C87_mismatch_refuted, C87_optimized_refuted, C87_shared_refuted), that objects do by C87_stale_refuted and C87_unitcell_refuted. Constructors and runs of the calculations are arbitrary programs over the shared potential; the calculations themselves are in C38 to C41, C81, C85 and C86."
 },
 "C88": {
  "status": "proved",
  "note": "Exactly once over histories is refuted by C88_once_refuted; C88_penalties_refuted and C88_hybrid_refuted are the other exceptions. Printing and reading of numbers, rounding and the sizes of atoms are functions; hypotheses say that what is printed can be read back and that rounding is to a nearest integer."
 },
 "C89": {
  "status": "proved",
  "note": "Exceptions are the theorems ending in _refuted. The iterations at one temperature, the initial force constants and the size of the basis set are functions that may fail; rounding is assumed to be to a nearest integer and the nodes to be cosines."
 },
 "C90": {
  "status": "proved",
  "note": "Exceptions are the theorems ending in _refuted. The printing of a number is any function to words of YAML that float() undoes; PyYAML is modelled for the lines that occur."
 },
 "C91": {
  "status": "proved",
  "note": "C91_translation_refuted is the exception. Exact rational arithmetic, rounded coordinates as integers; differences below the tolerance are equality."
 },
 "C92": {
  "status": "proved",
  "note": "C92_refined_refuted is the exception. spglib, symfc, the inverse of a matrix and the random numbers are functions; real numbers."
 },
 "C93": {
  "status": "proved",
  "note": "C93_refuted is the exception. Real numbers; the lists of libmlpcpp.Neighbor are given by what they have to contain, distances above 1e-10 and below the cutoff."
 }
}