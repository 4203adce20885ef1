{
 "claims": [
  {
   "property": "C01",
   "status": "proved",
   "theorems": [
    "C01_split_ids_partition",
    "C01_split_files_partition"
   ],
   "note": ""
  },
  {
   "property": "C02",
   "status": "proved",
   "theorems": [
    "C02_construction",
    "C02_slice",
    "C02_sort",
    "C02_split",
    "C02_histories"
   ],
   "note": ""
  },
  {
   "property": "C03",
   "status": "proved",
   "theorems": [
    "C03_permute_atoms",
    "C03_permute_atoms_no_force",
    "C03_missing_element_rejected"
   ],
   "note": ""
  },
  {
   "property": "C04",
   "status": "proved",
   "theorems": [
    "C04_replace_types",
    "C04_replace_types_prior_irrelevant",
    "C04_replace_types_idempotent",
    "C04_replace_types_rejects"
   ],
   "note": ""
  },
  {
   "property": "C05",
   "status": "proved",
   "theorems": [
    "C05_replace_types_all_channels_present",
    "C05_permute_all_channels_present",
    "C05_replace_types_missing_channel_refuted",
    "C05_permute_missing_element_refuted"
   ],
   "note": "The unconditional claim is false of the code: two witnesses are proved (missing spin channel, missing element). Proved under the condition that every channel occurs in the structure."
  },
  {
   "property": "C06",
   "status": "proved",
   "theorems": [
    "C06_multiple_filesets",
    "C06_train_test_files",
    "C06_files",
    "C06_structures",
    "C06_structures_parts",
    "C06_input_file",
    "C06_single_string_twice",
    "C06_histories",
    "C06_refused",
    "C06_single_string_refuted",
    "C06_reparse_refuted"
   ],
   "note": "'Exactly once' is false of the code for a single file name (phono3py): proved to be exactly twice, with a witness. Reading the files of one data set a second time leaves energies unlowered (witness). The input-file path with data/data_md lines is once."
  },
  {
   "property": "C07",
   "status": "proved",
   "theorems": [
    "C07_batches_cover",
    "C07_zero_rejected",
    "C07_negative_skips_all"
   ],
   "note": ""
  },
  {
   "property": "C08",
   "status": "proved",
   "theorems": [
    "C08_accumulated",
    "C08_regrouping",
    "C08_one_shot",
    "C08_variance_never_negative"
   ],
   "note": ""
  },
  {
   "property": "C09",
   "status": "proved",
   "theorems": [
    "C09_complete",
    "C09_threshold_lower_blocks_zero",
    "C09_complete_at_every_count_refuted"
   ],
   "note": "the original claim (complete at every feature count) is refuted at the threshold: C09_complete_at_every_count_refuted (module Example), C09_threshold_lower_blocks_zero"
  },
  {
   "property": "C10",
   "status": "proved",
   "theorems": [
    "C10_mse"
   ],
   "note": ""
  },
  {
   "property": "C11",
   "status": "proved",
   "theorems": [
    "C11_ridge",
    "C11_no_penalty"
   ],
   "note": ""
  },
  {
   "property": "C12",
   "status": "proved",
   "theorems": [
    "C12_best"
   ],
   "note": ""
  },
  {
   "property": "C13",
   "status": "proved",
   "theorems": [
    "C13_last_iterate",
    "C13_same_system",
    "C13_right_side",
    "C13_no_right_side",
    "C13_columns",
    "C13_no_solution",
    "C13_smallest_residual_refuted"
   ],
   "note": "the original claim (smallest residual) is refuted: C13_smallest_residual_refuted (module Example); proved: last iterate, residual invariant"
  },
  {
   "property": "C14",
   "status": "proved",
   "theorems": [
    "C14_division",
    "C14_scaled",
    "C14_prediction"
   ],
   "note": ""
  },
  {
   "property": "C15",
   "status": "proved",
   "theorems": [
    "C15_rows_partition",
    "C15_counts",
    "C15_dataset_blocks",
    "C15_assembled"
   ],
   "note": ""
  },
  {
   "property": "C16",
   "status": "proved",
   "theorems": [
    "C16_type_pairs",
    "C16_injective",
    "C16_square"
   ],
   "note": ""
  },
  {
   "property": "C17",
   "status": "proved",
   "theorems": [
    "C17_conjugate",
    "C17_local_conjugate",
    "C17_noconj",
    "C17_lm"
   ],
   "note": ""
  },
  {
   "property": "C18",
   "status": "proved",
   "theorems": [
    "C18_pair",
    "C18_gtinv"
   ],
   "note": "Pair models: all components. Invariant models: energy, forces and diagonal stress for any table; off-diagonal stress needs L = 0 tables and is C59."
  },
  {
   "property": "C19",
   "status": "proved",
   "theorems": [
    "C19_forces",
    "C19_features"
   ],
   "note": ""
  },
  {
   "property": "C20",
   "status": "proved",
   "theorems": [
    "C20_half_full",
    "C20_translations",
    "C20_negation",
    "C20_short_refuted"
   ],
   "note": "Unconditional claim refuted by a witness with a very short translation; proved under a condition every physical cell meets."
  },
  {
   "property": "C21",
   "status": "proved",
   "theorems": [
    "C21_full",
    "C21_refined_cell",
    "C21_shorter",
    "C21_orthogonal",
    "C21_flat_refuted"
   ],
   "note": "C21_full characterises the list under the stated condition on the axes used; C21_orthogonal discharges it for orthogonal axes; C21_refined_cell: refinement keeps lattice and volume. The unconditional claim is false: C21_flat_refuted gives a cell where a neighbour at distance 18 < 20 is missed. Real arithmetic, no rounding."
  },
  {
   "property": "C22",
   "status": "proved",
   "theorems": [
    "C22_formal",
    "C22_polynomial",
    "C22_linear"
   ],
   "note": ""
  },
  {
   "property": "C23",
   "status": "proved",
   "theorems": [
    "C23_derivative",
    "C23_smooth",
    "C23_range"
   ],
   "note": ""
  },
  {
   "property": "C24",
   "status": "proved",
   "theorems": [
    "C24_gaussian",
    "C24_pair",
    "C24_gtinv",
    "C24_gtinv_refuted"
   ],
   "note": "Scaling proved for pair models; for gtinv models the energy factor is proved to have no effect, with a refutation of the original claim."
  },
  {
   "property": "C25",
   "status": "proved",
   "theorems": [
    "C25_doubling",
    "C25_unchanged",
    "C25_energy",
    "C25_shared_refuted"
   ],
   "note": "Refuted part: C25_shared_refuted (revise_params changes the shared model object in place)."
  },
  {
   "property": "C26",
   "status": "proved",
   "theorems": [
    "C26_explicit",
    "C26_auto",
    "C26_auto_short",
    "C26_active",
    "C26_orders_refuted",
    "C26_refused"
   ],
   "note": "Refuted parts: C26_auto_short (n_gaussians <= 2 fails), C26_orders_refuted. linspace over the reals."
  },
  {
   "property": "C27",
   "status": "proved",
   "theorems": [
    "C27_supported",
    "C27_agree",
    "C27_setters",
    "C27_setter_domain",
    "C27_common",
    "C27_sscha_refuted",
    "C27_mixed_refuted",
    "C27_append_refuted",
    "C27_bool_spins",
    "C27_accept",
    "C27_list"
   ],
   "note": "Refuted parts: C27_sscha_refuted, C27_mixed_refuted, C27_append_refuted; C27_bool_spins."
  },
  {
   "property": "C28",
   "status": "proved",
   "theorems": [
    "C28_select",
    "C28_agree",
    "C28_rejected",
    "C28_pairs",
    "C28_pairs_refuted",
    "C28_order_refuted",
    "C28_spin_refuted"
   ],
   "note": "Refuted parts: C28_pairs_refuted (pair tables are not renumbered when elements are re-sorted), C28_order_refuted (std::replace chain needs ascending indices, which set_unique guarantees), C28_spin_refuted (spin-doubled sub-models)."
  },
  {
   "property": "C29",
   "status": "proved",
   "theorems": [
    "C29_multiple",
    "C29_inactive",
    "C29_hybrid",
    "C29_hybrid_multiple",
    "C29_errors"
   ],
   "note": "Evaluator as a total function (oracle); structures are values (the code renumbers types of the caller's structures in place)."
  },
  {
   "property": "C30",
   "status": "proved",
   "theorems": [
    "C30_pair",
    "C30_gtinv"
   ],
   "note": ""
  },
  {
   "property": "C31",
   "status": "proved",
   "theorems": [
    "C31_words"
   ],
   "note": ""
  },
  {
   "property": "C32",
   "status": "proved",
   "theorems": [
    "C32_refined",
    "C32_canonical",
    "C32_idempotent",
    "C32_negative_refuted"
   ],
   "note": "Real arithmetic; C32_negative_refuted: the original range [0,1) is false."
  },
  {
   "property": "C33",
   "status": "proved",
   "theorems": [
    "C33_roundtrip",
    "C33_wrapped",
    "C33_lattice",
    "C33_long_refuted"
   ],
   "note": "np.linalg.inv is a function with A (inv A) v = v. C33_long_refuted: a displacement of 3 in a cell of edge 4 comes back as -1."
  },
  {
   "property": "C34",
   "status": "proved",
   "theorems": [
    "C34_images",
    "C34_consistent"
   ],
   "note": "use_phonopy=False and positive sizes; real arithmetic."
  },
  {
   "property": "C35",
   "status": "proved",
   "theorems": [
    "C35_reorder",
    "C35_sort_wrt_types"
   ],
   "note": "Atoms of one type with different elements all get the element of the last one (Example C35_mixed_element)."
  },
  {
   "property": "C36",
   "status": "proved",
   "theorems": [
    "C36_single",
    "C36_alloy",
    "C36_skipped_refuted",
    "C36_md_refuted",
    "C36_positive_refuted",
    "C36_one_group_refuted",
    "C36_empty"
   ],
   "note": "Thresholds over the reals; 2**x is an arbitrary function; composition keys abstract. Refuted without the hypotheses: C36_skipped_refuted (unusable file copied, usable one lost), C36_md_refuted, C36_positive_refuted, C36_one_group_refuted."
  },
  {
   "property": "C37",
   "status": "proved",
   "theorems": [
    "C37_selected",
    "C37_kept",
    "C37_table",
    "C37_dominated_refuted"
   ],
   "note": "Kept models characterised relative to the facets returned by scipy's ConvexHull (external). The original wording (no other model dominates a kept one) is refuted: C37_dominated_refuted."
  },
  {
   "property": "C38",
   "status": "proved",
   "theorems": [
    "C38_recovered",
    "C38_strains",
    "C38_raw"
   ],
   "note": "Includes the permutation and space-group projectors. Rotations come from an external library (parameter); least squares with one column modelled exactly."
  },
  {
   "property": "C39",
   "status": "proved",
   "theorems": [
    "C39_triangular",
    "C39_rotation",
    "C39_recover"
   ],
   "note": "Over the reals; inverse by cofactors."
  },
  {
   "property": "C40",
   "status": "proved",
   "theorems": [
    "C40_cell",
    "C40_positions",
    "C40_volume",
    "C40_history",
    "C40_jac_first",
    "C40_volume_path",
    "C40_volume_refuted"
   ],
   "note": "Over the reals. Volume-only gradient lacks 1/V: C40_volume_refuted. The potential is external with forces and stress assumed to be energy derivatives (see C10, C18, C50)."
  },
  {
   "property": "C41",
   "status": "proved",
   "theorems": [
    "C41_mixture",
    "C41_sum",
    "C41_end_member",
    "C41_formation",
    "C41_formation_zero",
    "C41_invariant",
    "C41_multiple",
    "C41_energies",
    "C41_arrays"
   ],
   "note": "np.linalg.pinv is a parameter with A P A = A."
  },
  {
   "property": "C42",
   "status": "proved",
   "theorems": [
    "C42_run",
    "C42_decision",
    "C42_score",
    "C42_mixing_one",
    "C42_change_refuted",
    "C42_equal_score",
    "C42_unset_refuted",
    "C42_set_first",
    "C42_precondition"
   ],
   "note": "Solver steps are an oracle. Convergence with mixing=1 and start from unset force constants are refuted: C42_change_refuted, C42_unset_refuted."
  },
  {
   "property": "C43",
   "status": "proved",
   "theorems": [
    "C43_energy",
    "C43_gradient",
    "C43_translation",
    "C43_no_net_force",
    "C43_stress",
    "C43_load",
    "C43_derivative",
    "C43_asymmetric_refuted"
   ],
   "note": "Algebraic statements over any field of characteristic 0, derivative over the reals."
  },
  {
   "property": "C44",
   "status": "proved",
   "theorems": [
    "C44_tensor",
    "C44_six",
    "C44_voigt",
    "C44_symmetrize",
    "C44_symmetrize_id",
    "C44_ase_refuted"
   ],
   "note": "Includes C44_ase_refuted."
  },
  {
   "property": "C45",
   "status": "proved",
   "theorems": [
    "C45_values",
    "C45_absent",
    "C45_single",
    "C45_datasets",
    "C45_distance",
    "C45_distance_unknown",
    "C45_force_tags",
    "C45_truncated_refuted"
   ],
   "note": "Full statement as restated. The stronger guarantee that truncated value lists are rejected is refuted (C45_truncated_refuted). Float/int conversion of a word is a parameter."
  },
  {
   "property": "C46",
   "status": "proved",
   "theorems": [
    "C46_strtobool"
   ],
   "note": "Characterises all strings: true, false and error cases."
  },
  {
   "property": "C47",
   "status": "proved",
   "theorems": [
    "C47_weight_range",
    "C47_energy_weight_mono",
    "C47_force_weight",
    "C47_stress_weight",
    "C47_exact_solutions",
    "C47_weights_positive",
    "C47_stress_without_force"
   ],
   "note": ""
  },
  {
   "property": "C48",
   "status": "proved",
   "theorems": [
    "C48_rescaled",
    "C48_fit",
    "C48_usable",
    "C48_usable_again"
   ],
   "note": ""
  },
  {
   "property": "C49",
   "status": "proved",
   "theorems": [
    "C49_sound",
    "C49_complete",
    "C49_unique"
   ],
   "note": ""
  },
  {
   "property": "C50",
   "status": "proved",
   "theorems": [
    "C50_pair",
    "C50_gtinv"
   ],
   "note": ""
  },
  {
   "property": "C51",
   "status": "proved",
   "theorems": [
    "C51_cases",
    "C51_upper_bound"
   ],
   "note": "rint (np.round) is modelled; any arithmetic."
  },
  {
   "property": "C52",
   "status": "proved",
   "theorems": [
    "C52_values",
    "C52_index"
   ],
   "note": "Real arithmetic; the decimal constants of the code (sqrt(1/2pi), sqrt 3, ...) are the exact numbers."
  },
  {
   "property": "C53",
   "status": "proved",
   "theorems": [
    "C53_derivative",
    "C53_parity",
    "C53_scaling"
   ],
   "note": "Real arithmetic. With lmax = 0 the C++ code reads one element past the array and multiplies it by zero; the model reads 0."
  },
  {
   "property": "C54",
   "status": "proved",
   "theorems": [
    "C54_pair",
    "C54_gtinv",
    "C54_evaluators"
   ],
   "note": "Real arithmetic; the thresholds 1e-20 are 0 for invariant models; the table of invariants satisfies gtinv_table (checked on the data files by a script)."
  },
  {
   "property": "C55",
   "status": "proved",
   "theorems": [
    "C55_pair",
    "C55_gtinv"
   ],
   "note": "Hypotheses as in C50; discharged for the functions of the code in C54."
  },
  {
   "property": "C56",
   "status": "proved",
   "theorems": [
    "C56_pair",
    "C56_gtinv"
   ],
   "note": "Real arithmetic, thresholds 0; off-diagonal stress of invariant models is in C59."
  },
  {
   "property": "C57",
   "status": "proved",
   "theorems": [
    "C57_gtinv",
    "C57_pair",
    "C57_energy"
   ],
   "note": "C57_gtinv: energy features of invariant models with the radial functions and harmonics of the code, under the L = 0 condition on the coupling tables (checked numerically for the shipped tables, residual 3e-13) and threshold zero. C57_pair: pair models. C57_energy: the fast evaluation."
  },
  {
   "property": "C58",
   "status": "proved",
   "theorems": [
    "C58_gtinv",
    "C58_pair"
   ],
   "note": "C58_gtinv for any nonnegative threshold not taken by a radial function; C58_pair for pair models."
  },
  {
   "property": "C59",
   "status": "proved",
   "theorems": [
    "C59_evaluators",
    "C59_features",
    "C59_stress"
   ],
   "note": "C59_evaluators: all six components (completes C18 and C54 off the diagonal). C59_features and C59_stress: both shears (completes C56). Uses the harmonics and radial functions of the code, threshold zero, and the L = 0 condition for invariant models."
  },
  {
   "property": "C60",
   "status": "proved",
   "theorems": [
    "C60_crystal",
    "C60_description",
    "C60_supercell",
    "C60_orthogonal"
   ],
   "note": "C60_crystal is the general statement (any two descriptions, multiplicity m); C60_description covers renumbering, shifts, wrapping and other cells; C60_supercell and C60_orthogonal the diagonal supercells of C34. Example: a two-atom cubic cell and its 1x1x2 supercell with the C57 model. Basis: the modelled radial functions and harmonics; types below n_type. The completeness conditions of the search are those of C20 and C21 (C21_flat_refuted shows they cannot be dropped)."
  },
  {
   "property": "C61",
   "status": "proved",
   "theorems": [
    "C61_train_test_files",
    "C61_files",
    "C61_one_file",
    "C61_structures",
    "C61_multiple_filesets",
    "C61_input_file",
    "C61_phono3py_line",
    "C61_refused",
    "C61_unread",
    "C61_phono3py_refuted",
    "C61_imaginary_refuted"
   ],
   "note": "C61_phono3py_refuted and C61_imaginary_refuted are the witnesses of the two places where settings are dropped; C61_phono3py_line and C61_multiple_filesets say what happens there instead."
  },
  {
   "property": "C62",
   "status": "proved",
   "theorems": [
    "C62_features",
    "C62_energy",
    "C62_virial"
   ],
   "note": "C62_features: energy, force and stress features. C62_energy: the fast evaluation. C62_virial: clusters without images. Conditions as in C59: harmonics and radial functions of the code, threshold zero, L = 0 for the tables of invariant models, neighbour numbers below the number of atoms."
  },
  {
   "property": "C63",
   "status": "proved",
   "theorems": [
    "C63_forces",
    "C63_stress"
   ],
   "note": "C63_forces, C63_stress: the fast evaluation, from C57 and C62 by uniqueness of derivatives. Conditions as in C62."
  },
  {
   "property": "C64",
   "status": "proved",
   "theorems": [
    "C64_file",
    "C64_cxx",
    "C64_polarised",
    "C64_python",
    "C64_readers",
    "C64_tables"
   ],
   "note": "Text level for the C++ reader; the Python reader gets the printed values (PyYAML is external). Number printing and reading are functions assumed to round-trip up to a rounding. C64_spins_refuted and C64_empty_refuted show that the C++ reader differs on active spins and fails on empty index lists. Hybrid files are C65."
  },
  {
   "property": "C65",
   "status": "proved",
   "theorems": [
    "C65_load",
    "C65_load_fails",
    "C65_files",
    "C65_files_fails",
    "C65_prefix_refuted",
    "C65_order_refuted"
   ],
   "note": "C65_load and C65_load_fails together characterise when loading works. No active spins; one file is the values of C64. C65_prefix_refuted: a valid hybrid whose files cannot be loaded. C65_order_refuted: sub-models in another element order are evaluated with exchanged types when their files are given directly."
  },
  {
   "property": "C66",
   "status": "proved",
   "theorems": [
    "C66_errors",
    "C66_fails",
    "C66_order",
    "C66_bounds",
    "C66_pooled",
    "C66_names",
    "C66_key",
    "C66_key_distinct",
    "C66_key_refuted",
    "C66_direction",
    "C66_direction_refuted",
    "C66_direction_shape",
    "C66_potential"
   ],
   "note": "C66_errors, C66_fails, C66_order, C66_bounds, C66_pooled, C66_names, C66_key, C66_key_distinct, C66_direction, C66_potential (link to C29). Refuted: distinct names have distinct prediction files (C66_key_refuted: 'set.1/*' and 'set-1/*'); a direction error of zero means the right direction (C66_direction_refuted: forces of the wrong sign throughout). Exact arithmetic; division by a zero norm is excluded by hypothesis."
  },
  {
   "property": "C67",
   "status": "proved",
   "theorems": [
    "C67_round_trip",
    "C67_same",
    "C67_mode",
    "C67_selective",
    "C67_reorder",
    "C67_phonopy",
    "C67_openmx",
    "C67_elements_refuted",
    "C67_newline_refuted",
    "C67_phonopy_refuted",
    "C67_openmx_refuted"
   ],
   "note": "C67_round_trip, C67_same, C67_mode, C67_selective, C67_reorder, C67_phonopy, C67_openmx. Refuted: elements always come back (C67_elements_refuted, C67_openmx_refuted), any title can be written (C67_newline_refuted), types of phonopy cells name the elements (C67_phonopy_refuted). Printing and reading of floating-point numbers are functions with a round trip up to rounding; the examples instantiate them with integers."
  },
  {
   "property": "C68",
   "status": "proved",
   "theorems": [
    "C68_vasp",
    "C68_determined",
    "C68_dataset",
    "C68_unreadable",
    "C68_single",
    "C68_sscha",
    "C68_sscha_intensive",
    "C68_electron",
    "C68_electron_dataset",
    "C68_relaxation_refuted"
   ],
   "note": "C68_vasp, C68_determined, C68_dataset, C68_unreadable, C68_single, C68_sscha, C68_sscha_intensive, C68_electron, C68_electron_dataset. Refuted: the sample of a relaxation is one of its calculations (C68_relaxation_refuted); unreadable files are skipped (C68_unreadable); the lists of electronic properties are aligned (Example C68_electron_refuted; the data set constructor then raises). The XML tree and the YAML documents are records of what is looked up in them."
  },
  {
   "property": "C69",
   "status": "proved",
   "theorems": [
    "C69_run",
    "C69_averages",
    "C69_quadratic",
    "C69_covariance",
    "C69_energy",
    "C69_frequency",
    "C69_occupancy",
    "C69_monotone",
    "C69_mean_energy",
    "C69_positive",
    "C69_constants"
   ],
   "note": "C69_run, C69_averages, C69_quadratic, C69_covariance, C69_energy, C69_frequency, C69_occupancy, C69_monotone, C69_mean_energy, C69_positive, C69_constants. Refuted by Example C69_flag_refuted: outliers are kept when eliminate_outliers is False; a run always keeps samples. The eigensolver, the random numbers and the evaluation of structures are parameters; averages are arbitrary linear functionals."
  },
  {
   "property": "C70",
   "status": "proved",
   "theorems": [
    "C70_fit",
    "C70_standard",
    "C70_same",
    "C70_failed",
    "C70_singular_refuted"
   ],
   "note": "Forces in the test data but not in the training data are excluded: then scales between 1e-20 and 1e-10 are switched off in the test only. C70_singular_refuted and C70_failed: the flag check_singular=True is not handed on by compute_rmse, so failed factorizations are returned silently."
  },
  {
   "property": "C71",
   "status": "proved",
   "theorems": [
    "C71_sizes",
    "C71_last",
    "C71_last_refuted",
    "C71_curve",
    "C71_wrong_data",
    "C71_energies_refuted"
   ],
   "note": "C71_last_refuted: with 25 structures the last point has 24. C71_energies_refuted: PolymlpDataXY.slice looks up force and stress rows from index -1 when there are none; the last point at the latest is an IndexError."
  },
  {
   "property": "C72",
   "status": "proved",
   "theorems": [
    "C72_fit",
    "C72_search",
    "C72_refused",
    "C72_few",
    "C72_derivative",
    "C72_derivative_refuted",
    "C72_crossing",
    "C72_weights_refuted"
   ],
   "note": "Real numbers; np.linalg.solve and inv are exact oracles (an executable Gaussian elimination is proved to be one), scipy's fsolve is an oracle. C72_derivative_refuted and C72_weights_refuted show two claims one would expect that do not hold of the code."
  },
  {
   "property": "C73",
   "status": "proved",
   "theorems": [
    "C73_grids",
    "C73_fractional",
    "C73_sum",
    "C73_fit_data",
    "C73_refused",
    "C73_refused_temperatures",
    "C73_refused_sizes",
    "C73_sscha",
    "C73_electron",
    "C73_no_atoms",
    "C73_fractional_refuted",
    "C73_overwritten_refuted",
    "C73_shared_refuted"
   ],
   "note": "Volumes and temperatures are rationals rounded exactly; np.allclose is any reflexive relation. C73_fractional_refuted, C73_overwritten_refuted and C73_shared_refuted are concrete runs with unwanted results."
  },
  {
   "property": "C74",
   "status": "proved",
   "theorems": [
    "C74_load",
    "C74_unique",
    "C74_replicated",
    "C74_refused",
    "C74_files",
    "C74_rules",
    "C74_supercell_refuted"
   ],
   "note": "Proved over the reals for any exact 2x2 solver (one is exhibited) and any Simpson rule. The per-atom reading of the failure test is refuted (C74_supercell_refuted)."
  },
  {
   "property": "C75",
   "status": "proved",
   "theorems": [
    "C75_fc2",
    "C75_ref",
    "C75_general",
    "C75_displacement",
    "C75_undisplaced",
    "C75_constructor",
    "C75_conservative",
    "C75_averages",
    "C75_heat_capacity",
    "C75_perturbation",
    "C75_beta_refuted"
   ],
   "note": "Finding: free_energy_perturb uses beta = KbEV * T where 1/(KbEV T) is meant; the claim that it is the free energy difference at the temperature of the run is refuted (C75_beta_refuted), the true bounds are C75_perturbation. Forces: C75_conservative."
  },
  {
   "property": "C76",
   "status": "proved",
   "theorems": [
    "C76_quadrature",
    "C76_thermodynamics",
    "C76_run",
    "C76_free_energy",
    "C76_saved",
    "C76_not_saved",
    "C76_check",
    "C76_no_calculator",
    "C76_weights",
    "C76_no_supercell",
    "C76_sticky_reference",
    "C76_unknown_thermostat",
    "C76_alpha_refuted",
    "C76_reference"
   ],
   "note": "Simulations and p_roots are oracles; the two-point rule is shown exact to degree 3. That alphas outside [0,1] are refused is refuted (C76_alpha_refuted); C76_unknown_thermostat and C76_sticky_reference say what happens instead of a refusal."
  },
  {
   "property": "C77",
   "status": "proved",
   "theorems": [
    "C77_construction",
    "C77_usable",
    "C77_free_energy",
    "C77_entropy",
    "C77_cp",
    "C77_cp_silent",
    "C77_cp_exact",
    "C77_cp_numerical",
    "C77_cp_slope",
    "C77_cp_quadratic",
    "C77_cp_before",
    "C77_cp_missing",
    "C77_run",
    "C77_gibbs",
    "C77_gibbs_all",
    "C77_legendre",
    "C77_gibbs_parabola",
    "C77_gibbs_rows",
    "C77_cp_every",
    "C77_no_volumes",
    "C77_round_trip",
    "C77_save_fails",
    "C77_save_before",
    "C77_load_fails",
    "C77_heat_capacities_refuted"
   ],
   "note": "Fits of equations of state (phonopy) are values with a minimum and a function; printing and parsing numbers is the identity. That missing data at one temperature leaves the others usable is refuted (C77_run, C77_save_fails); eval_heat_capacities is refuted (C77_heat_capacities_refuted)."
  },
  {
   "property": "C78",
   "status": "proved",
   "theorems": [
    "C78_polygon",
    "C78_polygon_given",
    "C78_polygon_refused",
    "C78_reproduction",
    "C78_transition",
    "C78_start",
    "C78_always",
    "C78_exactly",
    "C78_lines",
    "C78_boundary",
    "C78_points",
    "C78_clapeyron",
    "C78_inside_refuted",
    "C78_none_refuted",
    "C78_range_refuted"
   ],
   "note": "np.linalg.solve and inv are exact oracles as in C72, fsolve is an oracle that solves straight lines; make_interp_spline with k = 1 is the polygon. That transitions lie within the data, exist when reported, or that boundaries stay within the common range of pressures is refuted (C78_inside_refuted, C78_none_refuted, C78_range_refuted)."
  },
  {
   "property": "C79",
   "status": "proved",
   "theorems": [
    "C79_params",
    "C79_data",
    "C79_fit",
    "C79_both_or_none",
    "C79_model",
    "C79_estimate",
    "C79_run",
    "C79_run_fails",
    "C79_errors_gone",
    "C79_no_errors",
    "C79_errors_kept",
    "C79_failed",
    "C79_without_forces",
    "C79_sticky",
    "C79_forces_ignored",
    "C79_detached",
    "C79_attached",
    "C79_append_after_fit",
    "C79_n_features",
    "C79_n_features_stale",
    "C79_curve",
    "C79_curve_kept",
    "C79_no_curve",
    "C79_saved",
    "C79_load_list",
    "C79_disps",
    "C79_parameters_kept_refuted",
    "C79_atomic_refuted",
    "C79_failed_run_refuted",
    "C79_one_estimate_refuted",
    "C79_forces_used_refuted",
    "C79_save_errors_refuted"
   ],
   "note": "Reading data, regression, errors, learning curves and parsers are oracles; parameter objects live in a heap and are those of C27. That saved potentials keep the parameters they were fitted with, that failing calls change nothing, that saved errors are of one estimate, that given forces are used, and that missing errors are a RuntimeError is refuted (C79_parameters_kept_refuted, C79_atomic_refuted, C79_failed_run_refuted, C79_one_estimate_refuted, C79_forces_used_refuted, C79_save_errors_refuted)."
  },
  {
   "property": "C80",
   "status": "proved",
   "theorems": [
    "C80_rounded",
    "C80_total",
    "C80_made",
    "C80_refused",
    "C80_sublattices",
    "C80_exact",
    "C80_order",
    "C80_succeeds",
    "C80_types",
    "C80_types_spins",
    "C80_forces",
    "C80_forces_accepted",
    "C80_samples",
    "C80_average",
    "C80_average_fails",
    "C80_occupancy",
    "C80_occupancy_accepted",
    "C80_realised_refuted",
    "C80_left_refuted",
    "C80_names_refuted",
    "C80_channel_refuted",
    "C80_close",
    "C80_settled",
    "C80_key",
    "C80_load",
    "C80_forces_refused"
   ],
   "note": "Random sampling and the calculator are oracles. That accepted occupancies can be realised, that atoms not replaced stay as they are, and that evaluated types are those of the occupancy is refuted (C80_realised_refuted, C80_left_refuted, C80_names_refuted, C80_channel_refuted). Displaced lattices and files are not modelled."
  },
  {
   "property": "C81",
   "status": "proved",
   "theorems": [
    "C81_rows",
    "C81_complete",
    "C81_stable",
    "C81_pure",
    "C81_order",
    "C81_zero",
    "C81_again",
    "C81_names",
    "C81_error",
    "C81_compute",
    "C81_good",
    "C81_elements",
    "C81_unit_row",
    "C81_endmember",
    "C81_pure_row",
    "C81_positive_refuted",
    "C81_end_refuted",
    "C81_flat_refuted",
    "C81_lost_refuted",
    "C81_foreign_refuted",
    "C81_given_names_refuted",
    "C81_hull_met"
   ],
   "note": "ConvexHull is an oracle whose specification can be met at any points (C81_hull_met). Stability of all reported rows and of end members, existence of a hull, presence of every element, foreign atoms and given names are refuted (C81_positive_refuted, C81_end_refuted, C81_flat_refuted, C81_lost_refuted, C81_foreign_refuted, C81_given_names_refuted)."
  },
  {
   "property": "C82",
   "status": "proved",
   "theorems": [
    "C82_written",
    "C82_round",
    "C82_agree",
    "C82_unwritten",
    "C82_kinds",
    "C82_refused",
    "C82_index",
    "C82_index_inj",
    "C82_screening",
    "C82_places",
    "C82_magic_refuted",
    "C82_cut_refuted",
    "C82_order_refuted",
    "C82_missing_refuted"
   ],
   "note": "That damaged files are refused, that the bound holds for every l of any table, and that a missing order leaves the others is refuted (C82_magic_refuted, C82_cut_refuted, C82_order_refuted, C82_missing_refuted). A double is its 64 bits; uninitialised memory is a parameter."
  },
  {
   "property": "C83",
   "status": "proved",
   "theorems": [
    "C83_core",
    "C83_build",
    "C83_projector",
    "C83_index",
    "C83_indices",
    "C83_invariant",
    "C83_selected",
    "C83_run",
    "C83_refused",
    "C83_order_one_refuted",
    "C83_odd_refuted"
   ],
   "note": "The laws asked of gsl_sf_coupling_3j (zero outside the triangle, parity, orthonormality, invariance) are hypotheses on the couplings that occur for these l; an example meets them for l = 1, 1, 2. That run_enum works for order one and with eliminate_odd=False is refuted (C83_order_one_refuted, C83_odd_refuted). The seven nests of loops are one function of the list of l."
  },
  {
   "property": "C84",
   "status": "proved",
   "theorems": [
    "C84_cosine",
    "C84_sine",
    "C84_exp1",
    "C84_exp2",
    "C84_exp3",
    "C84_sto",
    "C84_modified_morlet",
    "C84_mexican",
    "C84_morse",
    "C84_polynomial",
    "C84_gto",
    "C84_gto_refuted",
    "C84_morlet_refuted",
    "C84_morlet",
    "C84_bump",
    "C84_gaussian",
    "C84_other"
   ],
   "note": "That gto and morlet are what their names say and fit their derivatives is refuted (C84_gto_refuted, C84_morlet_refuted); C84_gto, C84_morlet and C84_bump say what they are. These functions are exported by the header as deprecated; only Gaussians are chosen by get_fn_."
  },
  {
   "property": "C85",
   "status": "proved",
   "theorems": [
    "C85_step",
    "C85_history",
    "C85_run",
    "C85_sample_run",
    "C85_shape",
    "C85_missing",
    "C85_unsampled",
    "C85_refused",
    "C85_foreign",
    "C85_file_refuted",
    "C85_given_refuted",
    "C85_given_one",
    "C85_given_fails",
    "C85_uninitialised",
    "C85_init",
    "C85_sampled",
    "C85_sampled_none",
    "C85_harmonic",
    "C85_stale_refuted",
    "C85_mixed_refuted",
    "C85_fourth"
   ],
   "note": "Refuted: C85_file_refuted, C85_given_refuted, C85_stale_refuted, C85_mixed_refuted. symfc, phonopy, phono3py and the potential are parameters."
  },
  {
   "property": "C86",
   "status": "proved",
   "theorems": [
    "C86_grid",
    "C86_above_refuted",
    "C86_below_refuted",
    "C86_coarse",
    "C86_volume",
    "C86_volume_refuted",
    "C86_run",
    "C86_no_volume",
    "C86_number",
    "C86_curve",
    "C86_history",
    "C86_stale_refuted",
    "C86_write_early",
    "C86_qha",
    "C86_qha_ragged",
    "C86_qha_none"
   ],
   "note": "That the grid stays inside its range is refuted for ranges beside [0.9, 1.1] (C86_above_refuted, C86_below_refuted); C86_stale_refuted and C86_volume_refuted are the other exceptions. np.arange is exact here."
  },
  {
   "property": "C87",
   "status": "proved",
   "theorems": [
    "C87_values",
    "C87_eval",
    "C87_eval_refused",
    "C87_step",
    "C87_origin",
    "C87_uninitialised",
    "C87_no_freedom",
    "C87_optimized",
    "C87_stale_refuted",
    "C87_unitcell",
    "C87_others",
    "C87_choose",
    "C87_choose_errors",
    "C87_mismatch_refuted",
    "C87_optimized_refuted",
    "C87_shared_refuted",
    "C87_unitcell_refuted"
   ],
   "note": "That values belong to the structures held is refuted (C87_mismatch_refuted, C87_optimized_refuted, C87_shared_refuted), that objects do by C87_stale_refuted and C87_unitcell_refuted. Constructors and runs of the calculations are arbitrary programs over the shared potential; the calculations themselves are in C38 to C41, C81, C85 and C86."
  },
  {
   "property": "C88",
   "status": "proved",
   "theorems": [
    "C88_invariants",
    "C88_invariants_errors",
    "C88_pair",
    "C88_gtinv",
    "C88_run",
    "C88_unset",
    "C88_hybrid",
    "C88_set",
    "C88_gtinv_unset",
    "C88_gtinv_empty",
    "C88_complex_unset",
    "C88_files",
    "C88_directories",
    "C88_directories_hybrid",
    "C88_saved",
    "C88_saved_hybrid",
    "C88_saved_unset",
    "C88_cutoffs",
    "C88_gaussians",
    "C88_complex",
    "C88_no_elements",
    "C88_once_refuted",
    "C88_penalties_refuted",
    "C88_hybrid_refuted"
   ],
   "note": "Exactly once over histories is refuted by C88_once_refuted; C88_penalties_refuted and C88_hybrid_refuted are the other exceptions. Printing and reading of numbers, rounding and the sizes of atoms are functions; hypotheses say that what is printed can be read back and that rounding is to a nearest integer."
  },
  {
   "property": "C89",
   "status": "proved",
   "theorems": [
    "C89_single",
    "C89_progression",
    "C89_integers",
    "C89_above_refuted",
    "C89_step_zero",
    "C89_nodes",
    "C89_nodes_order_refuted",
    "C89_nodes_repeat_refuted",
    "C89_cells",
    "C89_diagonal",
    "C89_cells_refuted",
    "C89_samples",
    "C89_final_refuted",
    "C89_samples_errors",
    "C89_unbound_refuted",
    "C89_set_samples",
    "C89_set_samples_errors",
    "C89_precondition",
    "C89_target",
    "C89_start_refuted",
    "C89_standard",
    "C89_large",
    "C89_large_run",
    "C89_cutoff_refuted",
    "C89_eval",
    "C89_eval_refuted",
    "C89_step",
    "C89_prepared",
    "C89_refused",
    "C89_geometry_refuted",
    "C89_no_temperature",
    "C89_reuse_refuted",
    "C89_path",
    "C89_path_refuted",
    "C89_stress",
    "C89_representatives"
   ],
   "note": "Exceptions are the theorems ending in _refuted. The iterations at one temperature, the initial force constants and the size of the basis set are functions that may fail; rounding is assumed to be to a nearest integer and the nodes to be cosines."
  },
  {
   "property": "C90",
   "status": "proved",
   "theorems": [
    "C90_cell",
    "C90_supercell_refuted",
    "C90_cells",
    "C90_data",
    "C90_strings_refuted",
    "C90_optional_refuted",
    "C90_property",
    "C90_sscha",
    "C90_restart_refuted",
    "C90_restart",
    "C90_given",
    "C90_stops",
    "C90_float",
    "C90_int",
    "C90_bool",
    "C90_last"
   ],
   "note": "Exceptions are the theorems ending in _refuted. The printing of a number is any function to words of YAML that float() undoes; PyYAML is modelled for the lines that occur."
  },
  {
   "property": "C91",
   "status": "proved",
   "theorems": [
    "C91_lattice",
    "C91_translated",
    "C91_describes",
    "C91_sound",
    "C91_range",
    "C91_stops",
    "C91_translation_refuted"
   ],
   "note": "C91_translation_refuted is the exception. Exact rational arithmetic, rounded coordinates as integers; differences below the tolerance are equality."
  },
  {
   "property": "C92",
   "status": "proved",
   "theorems": [
    "C92_orthonormal",
    "C92_span",
    "C92_deformed",
    "C92_displaced",
    "C92_runs",
    "C92_stops",
    "C92_reduced",
    "C92_metric",
    "C92_reduced_stops",
    "C92_refined",
    "C92_refined_refuted"
   ],
   "note": "C92_refined_refuted is the exception. spglib, symfc, the inverse of a matrix and the random numbers are functions; real numbers."
  },
  {
   "property": "C93",
   "status": "proved",
   "theorems": [
    "C93_minimum",
    "C93_defined",
    "C93_stops",
    "C93_single",
    "C93_coordination",
    "C93_refuted"
   ],
   "note": "C93_refuted is the exception. Real numbers; the lists of libmlpcpp.Neighbor are given by what they have to contain, distances above 1e-10 and below the cutoff."
  }
 ]
}