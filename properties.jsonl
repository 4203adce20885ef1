{"id": "C01", "title": "Train/test split is a partition", "statement": "Splitting n data items with a ratio in [0,1] puts every item in exactly one of the training and test sets; both index lists are strictly increasing, sizes are n_train and n_test as requested, and (when n_test >= 2) the first and last items are test items.", "quantifier": "every number of data n and every integer n_train in [0,n] (hence every ratio in [0,1])", "why_tests_cant": "np.round(np.linspace(...)) could collide or skip for some (n, n_test) pair; tests sample a few pairs only, the claim is about all of them.", "anchors": ["src/pypolymlp/core/utils.py:split_ids_train_test", "src/pypolymlp/core/utils.py:split_train_test"]}
{"id": "C02", "title": "Dataset operations keep every record aligned", "statement": "After any sequence of slice, sort and split operations on a DFT dataset, the i-th structure still comes with its own energy, its own 3*n_atom block of forces, its own six stress components, volume and name, and no record is invented.", "quantifier": "every well-formed dataset and every finite sequence of slice/sort/split operations", "why_tests_cant": "alignment depends on arithmetic over ragged blocks (cumulative atom counts); one mis-sized block shifts all later ones, and operation histories are unbounded.", "anchors": ["src/pypolymlp/core/dataset_utils.py:DatasetDFT.slice", "src/pypolymlp/core/dataset_utils.py:DatasetDFT.sort", "src/pypolymlp/core/dataset_utils.py:DatasetDFT.split", "src/pypolymlp/core/dataset_utils.py:DatasetDFT._force_stress_ids"]}
{"id": "C03", "title": "Atom permutation loses nothing", "statement": "Reordering a structure to a given element order yields the same multiset of (element, position, force) triples, types equal the index of the element in the order, atoms of one element keep their relative order, and a structure with an element missing from the order is rejected.", "quantifier": "every structure, force array and element order", "why_tests_cant": "the masks must cover every atom exactly once for every composition and order; unit tests fix a handful of compositions.", "anchors": ["src/pypolymlp/core/dataset_utils.py:permute_atoms"]}
{"id": "C04", "title": "Type assignment is a function of the element", "statement": "For a list of distinct elements, assigning types gives every atom the index of its element whatever the types were before, is idempotent, and fails iff some atom's element is not listed.", "quantifier": "every structure (any prior types) and every duplicate-free element list", "why_tests_cant": "in-place masked writes could interfere for special prior type values; the claim quantifies over all prior values.", "anchors": ["src/pypolymlp/core/dataset_utils.py:replace_types", "src/pypolymlp/calculator/compute_features.py:update_types"]}
{"id": "C05", "title": "Type assignment with spin-doubled elements matches the model's type numbering", "statement": "When elements are doubled because of spin, an atom's type after permutation/type replacement is the position of its element (and spin) in the model's element list whenever every element/spin channel occurs in the structure; when a channel is absent the types are compacted and the claim fails (two concrete structures).", "quantifier": "every structure and every spin-doubled element list", "why_tests_cant": "only structures missing a spin channel behave differently; a test suite built on full structures never sees it.", "anchors": ["src/pypolymlp/core/dataset_utils.py:permute_atoms_with_spins", "src/pypolymlp/core/dataset_utils.py:replace_types"]}
{"id": "C06", "title": "Atomic energies are subtracted exactly once", "statement": "Every loading path except the single-file-name one reduces each structure's energy by the sum of its atomic energies exactly once, and no later sort or subtraction call changes that; the single-file-name path (phono3py) reduces it exactly twice.", "quantifier": "every dataset, every loading path (list of files, single file, structures) and every atomic-energy vector", "why_tests_cant": "the once-flag lives on the object and objects are rebuilt by splitting; which paths rebuild is a history property.", "anchors": ["src/pypolymlp/core/dataset.py:Dataset.subtract_atomic_energy", "src/pypolymlp/core/dataset.py:Dataset.split_dft", "src/pypolymlp/core/dataset.py:set_datasets_from_single_fileset", "src/pypolymlp/core/dataset.py:set_datasets_from_multiple_filesets"]}
{"id": "C07", "title": "Batches cover the data exactly once", "statement": "The batch slices used for sequential feature evaluation are consecutive, non-empty, no longer than the batch size and together cover 0..n-1 exactly once.", "quantifier": "every number of data and every positive batch size", "why_tests_cant": "off-by-one errors show only for particular residues n mod batch; the claim covers every pair.", "anchors": ["src/pypolymlp/mlp_dev/core/utils_sequential.py:get_batch_slice"]}
{"id": "C08", "title": "Sequential normal equations equal the one-shot ones", "statement": "Accumulating X^T X, X^T y, y^T y and the data count batch by batch gives exactly the matrices of the whole data set, independent of how the data is batched or divided into data sets.", "quantifier": "every data matrix, target vector, weights and every division into batches", "why_tests_cant": "floating tests compare one batching to one tolerance; the claim is an algebraic identity over all batchings.", "anchors": ["src/pypolymlp/mlp_dev/core/data_sequential.py", "src/pypolymlp/mlp_dev/core/utils_sequential.py:sum_array", "src/pypolymlp/mlp_dev/core/utils_sequential.py:sum_xtx"]}
{"id": "C09", "title": "The normal matrix handed to the solver is symmetric and complete except at the threshold", "statement": "For every number of features other than the block threshold (50000), every entry of the accumulated X^T X, lower and upper triangle, is the full sum over all observations and the matrix is symmetric. At exactly the threshold the block sums are not mirrored: every entry in a block below the diagonal is zero whatever the data.", "quantifier": "every feature count including the memory-saving threshold and its neighbours", "why_tests_cant": "the block path is only taken for >= 50000 features (tens of GB); no test can run it.", "anchors": ["src/pypolymlp/mlp_dev/core/utils_sequential.py:sum_xtx", "src/pypolymlp/mlp_dev/core/utils_sequential.py:symmetrize_xtx"]}
{"id": "C10", "title": "Mean squared error from the normal equations equals the direct one", "statement": "The MSE evaluated from X^T X, X^T y, y^T y and N equals the mean squared residual of X beta - y.", "quantifier": "every data matrix, target and coefficient vector", "why_tests_cant": "an algebraic identity over all matrices; numeric spot checks cannot distinguish a wrong term of small size.", "anchors": ["src/pypolymlp/mlp_dev/core/utils_model_selection.py:compute_mse"]}
{"id": "C11", "title": "Each ridge solution belongs to its own penalty", "statement": "The i-th coefficient vector returned by the ridge solver solves (X^T X + alpha_i I) c = X^T y with the i-th alpha, and the normal matrix is left unchanged afterwards.", "quantifier": "every list of penalties and every matrix (linear solver as an oracle)", "why_tests_cant": "penalties are added incrementally in place; the accumulated diagonal depends on the whole list of alphas.", "anchors": ["src/pypolymlp/mlp_dev/standard/solvers.py:solver_ridge"]}
{"id": "C12", "title": "The selected model is the best one", "statement": "Model selection returns a model whose test RMSE is not larger than that of any other candidate, and returns coefficients and scales of that same model.", "quantifier": "every list of candidate errors", "why_tests_cant": "ties, single candidates and order of candidates are unbounded.", "anchors": ["src/pypolymlp/mlp_dev/core/utils_model_selection.py:get_best_model"]}
{"id": "C13", "title": "Conjugate-gradient solver returns its last iterate with a true residual", "statement": "The internal residual of the CG solver is always b - (A + alpha) x of the current iterate. The returned vector is the last iterate (None if no residual norm was ever below 1e10), because the stored minimiser is an alias of the array being updated; the claim that it is the iterate with the smallest residual seen is false.", "quantifier": "every symmetric matrix, right-hand side and iteration limit", "why_tests_cant": "whether the stored minimiser is a copy or an alias shows only when the residual is not monotone; tests on well-conditioned systems are monotone.", "anchors": ["src/pypolymlp/mlp_dev/gradient/solvers_cg.py:solver_cg"]}
{"id": "C14", "title": "Hybrid coefficients are divided without loss", "statement": "Dividing a coefficient vector (or scales) among the sub-models of a hybrid model gives consecutive pieces with the sub-models' sizes whose concatenation is the original vector.", "quantifier": "every coefficient vector and every list of feature counts", "why_tests_cant": "off-by-one per sub-model shows only with particular counts; claim for all.", "anchors": ["src/pypolymlp/mlp_dev/core/dataclass.py:PolymlpDataMLP.hybrid_division", "src/pypolymlp/core/io_polymlp.py"]}
{"id": "C15", "title": "Feature-matrix rows do not overlap", "statement": "For every list of structures and force flags, the rows reserved for energies, stresses and forces are pairwise disjoint, inside the matrix, and cover all rows.", "quantifier": "every list of (n_atoms, has_force) pairs", "why_tests_cant": "a wrong offset silently overwrites rows of another structure; data sets mixing force and non-force structures are unbounded.", "anchors": ["src/pypolymlp/cxx/src/compute/py_model.cpp:set_index", "src/pypolymlp/cxx/src/compute/py_hybrid_model.cpp:set_index"]}
{"id": "C16", "title": "Type pairs are numbered consistently", "statement": "The type-pair table is symmetric, total, and numbers unordered pairs bijectively by 0..n(n+1)/2-1.", "quantifier": "every number of atom types", "why_tests_cant": "tests use 1-3 types.", "anchors": ["src/pypolymlp/cxx/src/polymlp/polymlp_mapping.cpp:set_type_pairs"]}
{"id": "C17", "title": "Conjugate index of a radial/angular key is its mirror", "statement": "For every order-parameter key (n,l,m,type pair) with m<0 or >0, the stored conjugate key index points to the key (n,l,-m, same type pair), taking conjugates twice returns to the start, and the m=0 keys are self-conjugate. Each (l,m) stores the array entry of Y_{l,-|m|}, the sign (-1)^m of conjugation and the parity (-1)^l.", "quantifier": "every number of radial functions, max_l and per-radial type-pair lists", "why_tests_cant": "the index is computed by arithmetic on running ids; it is right only if the loop nest has exactly the assumed strides.", "anchors": ["src/pypolymlp/cxx/src/polymlp/polymlp_mapping.cpp:set_nlmtp_global_attrs", "src/pypolymlp/cxx/src/polymlp/polymlp_mapping.cpp:set_lm_attrs"]}
{"id": "C18", "title": "Fast potential evaluation agrees with features times coefficients", "statement": "The energy and forces computed by the fast evaluator (half neighbour list, doubled coefficients, factor-1/2 accumulation, shared products, conjugate elimination) equal the dot products of the structural features with the coefficients, for pair models and for invariant models; so does the stress (all six components for pair models, the diagonal for invariant models).", "quantifier": "every set of feature parameters and coefficients, every structure and neighbour list; for invariant models every table of invariants that is symmetric under m -> -m and spherical harmonics with parity (-1)^l", "why_tests_cant": "equality must hold for every model (arbitrary products and multiplicities), tests compare few fitted models at float tolerance.", "anchors": ["src/pypolymlp/cxx/src/polymlp/polymlp_potential.cpp", "src/pypolymlp/cxx/src/compute/polymlp_eval.cpp", "src/pypolymlp/cxx/src/polymlp/polymlp_features.cpp"]}
{"id": "C19", "title": "Forces sum to zero", "statement": "For every structure and model the total force over all atoms is zero (predicted forces and force features).", "quantifier": "every structure, neighbour list and pair contribution", "why_tests_cant": "momentum conservation must hold exactly for all inputs; tests check one crystal where symmetry hides errors.", "anchors": ["src/pypolymlp/cxx/src/compute/polymlp_eval.cpp:collect_properties", "src/pypolymlp/cxx/src/compute/local_pair.cpp", "src/pypolymlp/cxx/src/compute/local.cpp"]}
{"id": "C20", "title": "Half neighbour list expands to the full list", "statement": "Mirroring the half neighbour list gives for each atom exactly the neighbours (with multiplicity and displacement) of the full neighbour list, provided no lattice translation has a length between the tolerance and sqrt(3) times it (without this, a translation shorter than the tolerance in each component is lost: refuted).", "quantifier": "every cell, positions and cutoff, and every negation-closed translation set", "why_tests_cant": "self-image pairs (i=j) are filtered by a sign rule whose completeness depends on all lattice directions.", "anchors": ["src/pypolymlp/cxx/src/compute/neighbor_half.cpp", "src/pypolymlp/cxx/src/compute/neighbor_full.cpp"]}
{"id": "C21", "title": "No neighbour inside the cutoff is missed", "statement": "For a cell of non-zero volume and a cutoff, row i of the full neighbour list contains (j, d) if and only if d is the displacement from atom i to a periodic image of atom j with length strictly between the tolerance and the cutoff, and contains it once - provided that for the axes in use (refined ones when refinement is triggered) ceil(cutoff/|axis|)+1 repetitions reach the cutoff across the lattice planes, and, when no refinement happens, that fractional coordinates differ by less than one. Orthogonal axes always meet the condition. Refining the axes never changes the lattice, makes no axis longer and makes the cell strictly more compact whenever a pair of axes fails the metric test. For flat non-orthogonal axes that pass the pairwise test images inside the cutoff can be missed.", "quantifier": "all cells, positions and cutoffs over the reals meeting the stated condition; a concrete cell for the negative part", "why_tests_cant": "only skewed/flat cells or unwrapped positions break it; an infinite family of cells cannot be sampled.", "anchors": ["src/pypolymlp/cxx/src/compute/neighbor_cell.cpp:find_trans", "src/pypolymlp/cxx/src/compute/neighbor_cell.cpp:refine_axis", "src/pypolymlp/cxx/src/compute/neighbor_half.cpp"]}
{"id": "C22", "title": "Feature derivatives are the derivatives of features", "statement": "The derivative of every polynomial feature returned for forces equals the formal derivative of the feature value (sum, product and power rules), for every polynomial order offered.", "quantifier": "every set of linear feature values and derivatives, every combination list of order 1, 2 or 3", "why_tests_cant": "finite-difference tests check special points; repeated factors (i1=i2=i3) are easy to get wrong.", "anchors": ["src/pypolymlp/cxx/src/compute/model.cpp", "src/pypolymlp/cxx/src/polymlp/polymlp_features.cpp", "src/pypolymlp/cxx/src/polymlp/polymlp_features_mapping_utils.cpp"]}
{"id": "C23", "title": "Radial functions and their derivatives are consistent and vanish smoothly at the cutoff", "statement": "The derivative returned with each Gaussian x cosine-cutoff radial function is the true derivative of the value at every distance, including the cutoff; value and derivative are continuous, zero from the cutoff on, and the value lies in (0,1] inside the cutoff for non-negative widths.", "quantifier": "every distance, width, centre and cutoff", "why_tests_cant": "a real-analysis statement over a continuum.", "anchors": ["src/pypolymlp/cxx/src/polymlp/polymlp_functions_interface.cpp", "src/pypolymlp/cxx/src/polymlp/polymlp_basis_function.h"]}
{"id": "C24", "title": "Unit conversion of a potential", "statement": "Converting a pair potential by an energy factor e and a length factor L makes the fast evaluator return, for the structure scaled by L, e times the energy and stress and e/L times the forces. For gtinv potentials only the lengths are converted: the energy factor has no effect (the evaluator reads an unscaled second copy of the coefficients), so the claim for every model kind is refuted.", "quantifier": "every model, coefficients, structure without coinciding atoms, and factors; Gaussian radial functions with cosine cutoff shown to convert", "why_tests_cant": "the flattened copy of the model used for one feature type is not covered by default-unit tests.", "anchors": ["src/pypolymlp/cxx/src/polymlp/polymlp_potential.cpp:convert_unit", "src/pypolymlp/cxx/src/polymlp/polymlp_api.cpp"]}
{"id": "C25", "title": "Spin doubling keeps parameters consistent", "statement": "Doubling spin-active elements gives n_type = elements + spin-active elements; every new type comes from exactly one original type (two new types for spin-active ones, in order), carrying its element, energy and spin flag, and the pair table read at every ordered pair of new types is the original table read at their original types (undefined elsewhere). Without spin-active elements nothing changes; spins without atomic energies raise TypeError. Building parameters twice from one model object gives wrong pairs (proved by counterexample).", "quantifier": "every element list, spin flags and pair-parameter table", "why_tests_cant": "the pair table is rebuilt by products over all pairs; tests fix one system.", "anchors": ["src/pypolymlp/core/data_format.py:PolymlpParamsSingle._set_params_spins", "src/pypolymlp/core/data_format.py:PolymlpModelParams.revise_params"]}
{"id": "C26", "title": "Gaussian parameter tables are well-formed", "statement": "Explicit parameters give every combination of the two sets of equidistant points plus the constant (0,0); a number n >= 3 of functions and a cutoff give n functions ending in (0,0) with equidistant centres up to cutoff - 1 and width max(1, spacing). For distinct elements and distances given at most once per unordered pair of known elements, the active table has exactly one entry per pair of types i <= j: ascending, in range, containing the constant function and exactly the functions within reach of a given distance (all if none are given). One or two automatic functions raise IndexError; of distances given for both orders of a pair only the later ones count.", "quantifier": "every parameter triple, element list and distance dictionary", "why_tests_cant": "dictionary keys given in either element order, repeated distances and overlaps are unbounded.", "anchors": ["src/pypolymlp/core/params_utils.py:set_gaussian_params", "src/pypolymlp/core/params_utils.py:set_active_gaussian_params"]}
{"id": "C27", "title": "Parameter flags respect the data set type in every history", "statement": "After construction and any history of setter calls (accepted or rejected) and accepted changes of the list of sub-models, a flag not supported by the current data set type (forces: electron; stresses: electron, phono3py, openmx; spins: these and sscha) is off in the common view and in every sub-model. Sub-models given with equal type, force and stress flags keep agreeing with the common view; a rejected setter changes nothing, an accepted one writes everywhere. Setters are rejected exactly for unsupported flags. A list of two or more sub-models is accepted exactly if the longest element list contains all elements and either no sub-model has active spins or all have, with one spin value per element; the common view has the first longest lists, the largest number of types and the flags of the first sub-model; appending or replacing a sub-model is the same as constructing the new list. Not true of the code: sscha keeps stresses active, sub-models given with different flags stay different, a rejected append stays in the object, and a bool given to enable_spins makes every append fail (each proved by counterexample).", "quantifier": "every list of sub-models and every sequence of setter calls (accepted or rejected)", "why_tests_cant": "invariants over histories of setter calls; unit tests check single calls.", "anchors": ["src/pypolymlp/core/params.py:PolymlpParams"]}
{"id": "C28", "title": "Hybrid sub-models see the right atoms", "statement": "For a hybrid model whose longest element list has distinct elements and contains the (distinct) elements of every sub-model, the type indices of each sub-model select exactly the atoms whose element belongs to it and number them by the sub-model's element list, which is re-sorted into the order of the whole model; training (C++) and prediction (Python) agree; a sub-model with other elements is rejected. Pair parameters stay with their elements only if the sub-model already lists its elements in that order, and sub-models of spin-doubled elements lose atoms (both proved by counterexample).", "quantifier": "every element list, sub-model element subsets (any order) and structure", "why_tests_cant": "sequential in-place type replacement can collide for particular orders only.", "anchors": ["src/pypolymlp/core/params.py:PolymlpParams._set_unique_types", "src/pypolymlp/cxx/src/compute/py_hybrid_model.cpp:find_active_atoms", "src/pypolymlp/calculator/utils/properties_utils.py:find_active_atoms"]}
{"id": "C29", "title": "Multi-structure evaluation equals one-by-one evaluation", "statement": "For structures with one position and type per named atom and a potential returning one force per atom, evaluating a list gives at position i exactly what evaluating structure i alone gives. A model of some of the elements evaluates the atoms of those elements (numbered by the model's element list), gives every other atom a zero force, and gives zeros if no such atom exists. A hybrid potential's energy, forces and stress are the sums over its sub-potentials, also for lists. Duplicate elements in a partial model raise RuntimeError, no sub-potential IndexError.", "quantifier": "every list of structures (including ones with no active atom) and every list of sub-potentials (evaluator as an oracle)", "why_tests_cant": "re-insertion of skipped structures depends on the interleaving of active and inactive ones.", "anchors": ["src/pypolymlp/calculator/properties_single.py:PropertiesSingle", "src/pypolymlp/calculator/properties_hybrid.py:PropertiesHybrid", "src/pypolymlp/calculator/utils/properties_utils.py:find_active_atoms"]}
{"id": "C30", "title": "Polynomial combinations enumerate every multiset once", "statement": "The polynomial terms of order 2 and 3 consist of each admissible unordered combination of linear features exactly once.", "quantifier": "every number of linear features and every admissibility condition", "why_tests_cant": "missing or duplicated products change the model silently; claim for all sizes.", "anchors": ["src/pypolymlp/cxx/src/polymlp/polymlp_model_params_polynomial.cpp"]}
{"id": "C31", "title": "Type words enumerate everything", "statement": "The enumeration of type-pair words for polynomial invariants yields every word of the given length over the given alphabet exactly once.", "quantifier": "every alphabet size and length", "why_tests_cant": "combinatorial completeness for all sizes.", "anchors": ["src/pypolymlp/cxx/src/polymlp/polymlp_model_params_gtinv.cpp:Permutenr"]}
{"id": "C32", "title": "Refined positions are canonical representatives", "statement": "Refining fractional positions returns positions that differ from the input by integers and lie in (-tol, 1-tol]; the result depends only on the class of positions differing by integers, and refining twice equals refining once. Coordinates within tol below an integer come out negative, so the range is not [0,1).", "quantifier": "every real position", "why_tests_cant": "values within the tolerance of integers behave differently; measure-small inputs are not sampled by tests.", "anchors": ["src/pypolymlp/utils/structure_utils.py:refine_positions", "src/pypolymlp/core/strgen.py", "src/pypolymlp/core/interface_vasp.py"]}
{"id": "C33", "title": "Displacements round-trip", "statement": "Applying displacements to a structure and recovering them from the displaced structures returns the same displacements if their fractional components are shorter than one half, also when the displaced positions are wrapped in between; in general the recovered displacement differs by a lattice vector. Cell, types, elements and counts of the displaced structures are those of the base.", "quantifier": "every cell, positions and displacement set", "why_tests_cant": "periodic wrap-around occurs only for particular atoms at particular positions.", "anchors": ["src/pypolymlp/core/displacements.py"]}
{"id": "C34", "title": "Supercells contain every image exactly once", "statement": "In a diagonal supercell of size (n1,n2,n3) each atom of the unit cell becomes n1*n2*n3 consecutive atoms with its type and element, and every periodic image of the unit-cell atom is a periodic image of exactly one of them by exactly one supercell translation; counts and volume are multiplied by n1*n2*n3. Conversely, every periodic image of a supercell atom is an image of the unit-cell atom it was copied from.", "quantifier": "every cell, positive sizes", "why_tests_cant": "ordering and broadcasting of images for all sizes.", "anchors": ["src/pypolymlp/utils/supercell_utils.py", "src/pypolymlp/utils/structure_utils.py"]}
{"id": "C35", "title": "Structure reordering by type is a stable sort", "statement": "Reordering a structure by types is a stable sort: types ascend, atoms of each type keep their order, counts per type are right, cell, volume and name are kept, a sorted structure is unchanged; sort_wrt_types also returns the permutation. If every type has a single element, elements move with their atoms.", "quantifier": "every structure", "why_tests_cant": "masks over arbitrary type labels; unbounded compositions.", "anchors": ["src/pypolymlp/core/data_format.py:PolymlpStructure.reorder", "src/pypolymlp/utils/structure_utils.py:sort_wrt_types"]}
{"id": "C36", "title": "Automatic data-set division keeps the files", "statement": "If every file gives exactly one calculation, automatic division copies every file to exactly one train or test directory; directories are distinct and not empty, a file's directory is that of the last energy/force level it reaches (within its composition, end members having their own), and the first group of each composition gets the reduced weight. For alloys this needs a non-positive energy in each composition; for one element at least two groups. It fails otherwise: a skipped or multi-step file shifts the files, positive energies or a single group raise.", "quantifier": "every list of files, calculations, element count and number of groups", "why_tests_cant": "index bookkeeping between skipped files and groups depends on which files are skipped.", "anchors": ["src/pypolymlp/utils/dataset_divide.py", "src/pypolymlp/utils/dataset_divide_utils.py"]}
{"id": "C37", "title": "Optimal grid models are the non-dominated ones", "statement": "The optimal models kept are, in cost order, exactly the vertices of the convex hull of (cost, error) whose energy error is below the threshold and that no other hull vertex beats in cost and in both errors; so every kept model is an input and no kept model beats another. Models are listed cheapest first; a directory list without complete results fails. It is false that no input beats a kept model: one inside the hull can.", "quantifier": "every list of models, hull facets, cost scale and choice of error", "why_tests_cant": "geometry of all point sets, ties included.", "anchors": ["src/pypolymlp/utils/grid_optimal.py"]}
{"id": "C38", "title": "Elastic constants of a linear solid are recovered", "statement": "If the stress (per volume of the unstrained cell) is a linear function of strain with a symmetric stiffness matrix invariant under the crystal rotations, the elastic-constant routine returns that matrix, including its symmetry projection, for any number of samples >= 2 and any strain above the closeness threshold.", "quantifier": "every symmetric 6x6 matrix, strain amplitude and sample count", "why_tests_cant": "Voigt index conventions and factor 2 for shear components; tests use cubic crystals where many mistakes cancel.", "anchors": ["src/pypolymlp/calculator/compute_elastic.py:PolymlpElastic.run"]}
{"id": "C39", "title": "Triangularised axes are a rotation of the original", "statement": "For every non-singular cell the triangularised axis matrix is upper triangular with positive diagonal and has the same metric as the original; the returned rotation is orthogonal, maps the original axis to the triangular one and is proper exactly for right-handed cells; rotating forces and stresses back inverts the rotation.", "quantifier": "every non-singular axis matrix, every force and stress", "why_tests_cant": "identities over all real matrices.", "anchors": ["src/pypolymlp/calculator/utils/rotation_utils.py"]}
{"id": "C40", "title": "The derivatives given to the geometry optimiser", "statement": "The objective of geometry optimisation is the enthalpy at the trial point. For relaxation of positions and of the cell shape, the supplied gradient is its derivative in every direction, taken at the point of the last objective call whatever argument it is called with. For volume-only relaxation the supplied number is V dH/dV, not dH/dV.", "quantifier": "every structure, pressure, history of calls, and periodic potential whose forces and stress are derivatives of its energy", "why_tests_cant": "wrong scale of a gradient only slows/terminates optimisation early; end-to-end tests still pass.", "anchors": ["src/pypolymlp/calculator/opt_geometry.py:GeometryOptimization.derivatives_by_axis"]}
{"id": "C41", "title": "Formation energies vanish at end members and compositions sum to one", "statement": "For linearly independent end members a mixture of x_k formula units is accepted, its composition coordinates are x_k / sum x, summing to one; an end member is a unit vector with zero formation energy; formation energy is unchanged by adding a linear function of atom counts to all energies and by multiplying the cell; the array version equals the single one structure by structure, raising if any structure is outside the space; the setter of end-member energies accepts exactly one energy per end member, and without energies the formation energy raises.", "quantifier": "every set of independent end members, structures and energies", "why_tests_cant": "linear-algebra identities for all compositions.", "anchors": ["src/pypolymlp/calculator/utils/composition_utils.py:Composition"]}
{"id": "C42", "title": "SSCHA iterations stop for the stated reason", "statement": "An SSCHA run always ends after k updates with 2 <= k <= max(2, max_iter), at the first k >= 2 whose score is not above the tolerance or at the limit, and is flagged converged exactly if the last score is below the tolerance. For 0 < mixing < 1 a converged last update changed the force constants by less than mixing/(1-mixing) times the tolerance. With mixing = 1 every run converges whatever the change, and unset initial force constants make the run fail.", "quantifier": "every sequence of solver results, mixing, tolerance and iteration limit", "why_tests_cant": "control flow over arbitrary sequences of stochastic updates.", "anchors": ["src/pypolymlp/calculator/sscha/sscha_core.py:SSCHACore.run", "src/pypolymlp/calculator/sscha/sscha_core.py:SSCHACore._single_iter", "src/pypolymlp/calculator/sscha/sscha_core.py:SSCHACore.set_initial_force_constants"]}
{"id": "C43", "title": "Harmonic energy and forces are consistent", "statement": "Energy and forces from second-order force constants satisfy E = u.Phi.u/2 = -u.F/2; for symmetric force constants F = -grad E, and the stress is minus the first-order response to a symmetric deformation of the displacements; with the acoustic sum rule energy and forces are unchanged by rigid translation and the net force is zero. Loading keeps atom/axis order. (Without symmetry F = -grad E is refuted.)", "quantifier": "every symmetric force-constant matrix and displacement", "why_tests_cant": "identities over all matrices.", "anchors": ["src/pypolymlp/calculator/utils/fc_utils.py:eval_properties_fc2"]}
{"id": "C44", "title": "Stress components keep their order through conversions", "statement": "Converting stress between 3x3, six-component (xx,yy,zz,xy,yz,zx) and Voigt order and back preserves every symmetric tensor; symmetrisation applies the 9x9 projection to the full tensor. (The ASE calculator hands over six components without converting to the Voigt order ASE expects: refuted.)", "quantifier": "every symmetric tensor", "why_tests_cant": "different modules hard-code different index lists; agreement must hold for all tensors.", "anchors": ["src/pypolymlp/core/dataset_utils.py:DatasetDFT._set_properties", "src/pypolymlp/core/interface_yaml.py:parse_property_yamls", "src/pypolymlp/calculator/compute_elastic.py", "src/pypolymlp/calculator/sscha/sscha_utils.py:symmetrize_properties", "src/pypolymlp/calculator/utils/ase_calculator.py"]}
{"id": "C45", "title": "Input-file tags are read line by line, last line wins", "statement": "For an input file of lines separated into words by any white space: the values of a tag are those of its last line (cut to the requested number, converted one by one); a tag without a line gives the default, or KeyError if required; data-set lines are kept in file order; pair distances are stored under the pair sorted by element order, the last line of an unordered pair winning and unknown elements raising; stress is never requested without force. Missing values are not rejected: a shorter list is returned (refuted as a guarantee), and unknown tags are silently accepted.", "quantifier": "every input file text", "why_tests_cant": "string splitting over arbitrary text and tag names.", "anchors": ["src/pypolymlp/core/parser_infile.py:InputParser", "src/pypolymlp/core/parser_polymlp_params.py:ParamsParser"]}
{"id": "C46", "title": "Boolean strings are decoded exactly", "statement": "A string is read as a boolean iff it is one of t/true/1/f/false/0 in any letter case; everything else is an error.", "quantifier": "every string", "why_tests_cant": "all strings.", "anchors": ["src/pypolymlp/core/utils.py:strtobool"]}
{"id": "C47", "title": "Regression weights are positive and preserve exact solutions", "statement": "Every data row of the matrix and its target are multiplied by the same weight, which is positive (in (0,1] times the data-set weight) except for stresses of data sets with forces but without stresses, whose weight is zero; so a coefficient vector reproduces the weighted data exactly if and only if it reproduces all observations of non-zero weight. Stresses without forces raise UnboundLocalError.", "quantifier": "every data set with energies, forces and stresses, every weight parameters", "why_tests_cant": "row/target pairing must hold for every data type combination.", "anchors": ["src/pypolymlp/mlp_dev/core/utils_weights.py"]}
{"id": "C48", "title": "Rescaling by feature scales keeps predictions", "statement": "Dividing features by their scales and dividing the fitted coefficients by the same scales leaves predictions unchanged; features whose scale counts as zero are switched off, get a scale of one, and get coefficient zero from the ridge equations with a non-zero penalty.", "quantifier": "every data matrix and coefficients", "why_tests_cant": "zero or tiny scales are special values.", "anchors": ["src/pypolymlp/mlp_dev/core/utils_scales.py", "src/pypolymlp/mlp_dev/core/dataclass.py"]}
{"id": "C49", "title": "Linear gtinv features enumerate every invariant once", "statement": "The list of linear features of a gtinv model contains, for every angular combination, radial function and assignment of type pairs that some atom type supports, exactly one feature up to exchanging equal (l, type pair) factors, and its list of atom types is exactly the types supporting it.", "quantifier": "every number of types, radial functions, conditional radial lists and ascending angular combinations", "why_tests_cant": "completeness and uniqueness of a deduplicated enumeration are claims about all sizes; tests only fit models.", "anchors": ["src/pypolymlp/cxx/src/polymlp/polymlp_model_params_gtinv.cpp:uniq_gtinv_type"]}
{"id": "C50", "title": "Force features are minus the position derivatives of the energy features", "statement": "When one atom moves along one axis, the derivative of every column of the energy row equals minus the entry of the matching force row: the force features (and with C18 the forces of the fast evaluator) are the exact negative gradient of the energy features, provided the radial functions and spherical harmonics have the derivatives the code uses.", "quantifier": "every pair or gtinv model, every periodic structure whose atoms do not coincide and whose neighbours are not exactly at the cutoff, every atom and axis", "why_tests_cant": "Finite differences sample a few structures with a tolerance; the statement is an identity for all structures, orders and types.", "anchors": ["src/pypolymlp/cxx/src/compute/model.cpp", "src/pypolymlp/cxx/src/compute/local.cpp", "src/pypolymlp/cxx/src/compute/local_pair.cpp"]}
{"id": "C51", "title": "Automatic supercell size respects the atom bounds", "statement": "find_supercell_size_nearly_isotropic returns the first candidate size with at least natom_lb atoms if it has at most natom_ub, otherwise the previous candidate (or the unit cell); so the supercell never has more than natom_ub atoms unless it is the unit cell, and all components are positive.", "quantifier": "all length ratios, atom counts and bounds with natom_lb <= natom_ub", "why_tests_cant": "tests cover a few cells; the loop has several exits that depend on rounding of arbitrary ratios", "anchors": ["src/pypolymlp/core/strgen.py:find_supercell_size_nearly_isotropic"]}
{"id": "C52", "title": "Spherical harmonics are the textbook functions", "statement": "For every direction, poles included, entry l(l+1)/2+l-k of the array filled by the recurrences is Y_{l,-k} = N_lk (d^k P_l/dx^k)(cos theta) (sin theta e^{-i phi})^k with P_l the Legendre polynomial and N_lk = sqrt((2l+1)/(4 pi) (l-k)!/(l+k)!); every entry of the array is one of these and none is used twice.", "quantifier": "every lmax, l, k <= l and every non-zero vector", "why_tests_cant": "The values come from three coupled recurrences over flat triangular indices; a wrong coefficient at high l or an index collision is not visible at small l.", "anchors": ["src/pypolymlp/cxx/src/polymlp/polymlp_spherical_harmonics.cpp:normalized_associated_legendre", "src/pypolymlp/cxx/src/polymlp/polymlp_spherical_harmonics.cpp:compute_ylm", "src/pypolymlp/cxx/src/polymlp/polymlp_functions_interface.cpp:get_ylm_"]}
{"id": "C53", "title": "Derivatives, parity and scaling of the spherical harmonics", "statement": "The three arrays of compute_ylm_der are the Cartesian derivatives of the array of compute_ylm at every non-zero vector, also on the z axis; values have parity (-1)^l, derivatives parity (-1)^(l+1), m = 0 entries are real; values do not depend on the length of the vector and derivatives scale with its inverse.", "quantifier": "every lmax, entry, axis and non-zero vector", "why_tests_cant": "Finite differences sample directions; the poles, where the azimuth is undefined, and all l, m need a proof.", "anchors": ["src/pypolymlp/cxx/src/polymlp/polymlp_spherical_harmonics.cpp:compute_ylm_der", "src/pypolymlp/cxx/src/polymlp/polymlp_functions_interface.cpp:get_ylm_"]}
{"id": "C54", "title": "Force and stress features are derivatives for the functions of the code", "statement": "With the Gaussian radial functions, cosine cutoff and spherical harmonics of the code, every column of the force rows is minus the position derivative of the energy row and every column of the six stress rows is minus the strain derivative, for pair and invariant models, including neighbours exactly at the cutoff distance; the evaluation from half neighbour lists equals the features times the coefficients.", "quantifier": "every model, structure without coinciding atoms, atom, axis and strain component", "why_tests_cant": "Composition of all layers from radial functions to polynomial features; sampling cannot hit the cutoff or the poles exactly.", "anchors": ["src/pypolymlp/cxx/src/compute/model.cpp", "src/pypolymlp/cxx/src/compute/local.cpp", "src/pypolymlp/cxx/src/compute/local_pair.cpp", "src/pypolymlp/cxx/src/polymlp/polymlp_functions_interface.cpp"]}
{"id": "C55", "title": "Stress features are minus the strain derivatives", "statement": "Under a homogeneous strain or shear of positions and translations, the derivative of every column of the energy row is minus the entry of the stress row with that pair of axes (rows xx, yy, zz, xy, yz, zx), if the radial functions and harmonics have the derivatives the code uses.", "quantifier": "every pair or gtinv model, every periodic structure without coinciding atoms or neighbours at the cutoff, each of the six components", "why_tests_cant": "The virial is summed over pairs, the energy over atoms; agreement for all structures and orders is an identity, finite strains only sample it.", "anchors": ["src/pypolymlp/cxx/src/compute/model.cpp", "src/pypolymlp/cxx/src/compute/local.cpp", "src/pypolymlp/cxx/src/compute/local_pair.cpp"]}
{"id": "C56", "title": "Predicted forces and stresses are derivatives of the predicted energy", "statement": "For the evaluation of a potential from half neighbour lists, the returned force on atom k along axis c is minus the derivative of the returned energy with respect to that coordinate; the returned stress components (all six for pair models, the three diagonal ones for invariant models) are minus the strain derivatives.", "quantifier": "every model and coefficient vector, every structure without coinciding atoms", "why_tests_cant": "The fast evaluation computes forces by an independent reverse accumulation; only a proof shows it is the gradient for all inputs.", "anchors": ["src/pypolymlp/cxx/src/compute/polymlp_eval.cpp", "src/pypolymlp/cxx/src/polymlp/polymlp_functions_interface.cpp"]}
{"id": "C57", "title": "Energies are invariant under rotations and reflections", "statement": "Applying any orthogonal map (rotation, possibly with reflection) to all displacements leaves every entry of the energy feature row and the energy evaluated from half neighbour lists unchanged. For models with invariants this holds for every coupling table annihilated by the ladder operators of angular momentum (L = 0); pair models need nothing.", "quantifier": "every pair or gtinv model, every coefficient vector, every structure without coinciding atoms, every orthogonal map", "why_tests_cant": "Rotations form a continuum and the cancellation involves whole coupling tables; rotating a few structures samples neither.", "anchors": ["src/pypolymlp/cxx/src/compute/local.cpp", "src/pypolymlp/cxx/src/compute/model.cpp", "src/pypolymlp/cxx/src/compute/polymlp_eval.cpp", "src/pypolymlp/cxx/src/polymlp/polymlp_functions_interface.cpp"]}
{"id": "C58", "title": "Energy features do not depend on whether forces are evaluated", "statement": "The energy row computed without forces (order parameters kept when the absolute radial value exceeds the threshold, conjugates filled pairwise) equals the row computed together with forces (kept when the value is not below the threshold, conjugates filled in a last pass), unless a radial value equals the threshold exactly.", "quantifier": "every pair or gtinv model, any structure, any nonnegative threshold", "why_tests_cant": "The two code paths differ in skipping tests and in how conjugate entries are written; equality must hold for all models and structures.", "anchors": ["src/pypolymlp/cxx/src/compute/local.cpp", "src/pypolymlp/cxx/src/compute/model.cpp", "src/pypolymlp/cxx/src/polymlp/polymlp_api.cpp"]}
{"id": "C59", "title": "The stress is symmetric and both evaluators agree on it", "statement": "All six stress components of the evaluation from half neighbour lists equal the stress features times the coefficients, and are minus the derivatives of the energy both under the shear of axis c along c' and of c' along c. The two evaluators pair the axes of displacement and derivative in opposite orders; the orders agree because no rotation changes the invariants (coupling tables with L = 0).", "quantifier": "every pair or gtinv model with L = 0 tables, every coefficient vector, every structure without coinciding atoms, all six components, both shears", "why_tests_cant": "The components differ term by term and agree only after the sum over a whole coupling table; symmetric test structures have zero shear anyway.", "anchors": ["src/pypolymlp/cxx/src/compute/polymlp_eval.cpp", "src/pypolymlp/cxx/src/compute/local.cpp", "src/pypolymlp/cxx/src/compute/model.cpp"]}
{"id": "C60", "title": "Energies, forces and stresses depend on the periodic crystal only", "statement": "If two inputs (cell, positions, types) describe one periodic crystal up to a rigid shift, the fast evaluator, run on the half neighbour lists it builds from them, returns for every atom the force on the atom it represents, and energy and stress multiplied by the number m of atoms that represent each atom. Special cases: renumbered atoms, rigid shifts, single atoms moved by lattice vectors, another cell of the same lattice (m = 1), and the diagonal supercells of supercell_utils (m = nx ny nz). Condition: the neighbour search is complete for both inputs (C20, C21), which always holds for orthogonal axes and positions inside the cell.", "quantifier": "every pair or gtinv model, every coefficient vector, all pairs of descriptions of a crystal without coinciding atoms, all supercell sizes", "why_tests_cant": "Tests compare a few structures with one supercell; the claim couples the cell search, the half-list ordering by atom index and direction, the mirrored list, and the pairing of sums of both atoms, for every cell shape and numbering.", "anchors": ["src/pypolymlp/cxx/src/compute/polymlp_eval.cpp", "src/pypolymlp/cxx/src/compute/neighbor_half.cpp", "src/pypolymlp/cxx/src/compute/neighbor_cell.cpp", "src/pypolymlp/utils/supercell_utils.py"]}
{"id": "C61", "title": "Every loaded file carries the weight and the flags of its source", "statement": "After loading with any of the five entry points (given training and test files, one list of files split by ratio, several file sets, structures in memory, the lines of an input file), the multiset of (file, weight, include_force, include_stress) over the resulting data sets is exactly the multiset of the files named, each with the weight and flags of the call or of its line: splitting into training and test data neither loses nor changes a setting. For SSCHA data a file whose result has imaginary modes has its weight multiplied by the imaginary weight, and no other file has. On an input-file line the force flag is the second word (default true) and-ed with the run's flag, stress is off whenever the line's force flag is off, and the weight is the third word (default 1); both halves of a data_md line keep its settings. A list of phono3py files and splitting the files of data already read are refused with RuntimeError. False in two places, recorded as refutations: a phono3py line ignores its own force flag and weight, and imaginary SSCHA results keep full weight when given as several file sets or on a data_md line.", "quantifier": "All file lists, weights, flags, ratios 0 <= p/q <= 1, data types, file contents, sets of imaginary files, input-file lines and prefixes.", "why_tests_cant": "The weight of each file is the product of choices made in four functions over arbitrary lists of lines; a wrong weight changes no shape and no exception, only the fit.", "anchors": ["src/pypolymlp/core/dataset.py:91-206", "src/pypolymlp/core/dataset.py:428-514", "src/pypolymlp/core/dataset.py:527-719", "src/pypolymlp/core/parser_polymlp_params.py:230-288", "src/pypolymlp/core/interface_yaml.py:79-95"]}
{"id": "C62", "title": "Forces and stress together give the change of the energy for every motion", "statement": "Let all atoms move at the same time with any velocities u_k while the space (cell included) is deformed by any matrix M. The energy returned by the evaluation then changes at the rate -(sum_k F_k . u_k + sum_cc' M_cc' sigma_cc') with the forces and the stress it returns; the same holds for every energy feature with its force and stress features. Consequences for a cluster without periodic images: every component of the returned stress is the virial sum_k F_kc r_kc', and the forces exert no torque.", "quantifier": "every pair or gtinv model with L = 0 tables, every coefficient vector, every structure without coinciding atoms, all velocities and deformation matrices", "why_tests_cant": "Finite differences move one coordinate at a time and never test that the partial derivatives combine linearly at points where bonds cross the cutoff or lie on the polar axis of the harmonics.", "anchors": ["src/pypolymlp/cxx/src/compute/polymlp_eval.cpp", "src/pypolymlp/cxx/src/compute/local.cpp", "src/pypolymlp/cxx/src/compute/model.cpp", "src/pypolymlp/cxx/src/polymlp/polymlp_functions_interface.cpp"]}
{"id": "C63", "title": "Forces rotate with the structure and the stress as a tensor", "statement": "When a structure, cell included, is rotated or reflected by an orthogonal matrix O, the returned force on every atom is O F and the returned stress is O sigma O^T, all six components.", "quantifier": "every pair or gtinv model with L = 0 tables, every coefficient vector, every structure without coinciding atoms, all orthogonal matrices", "why_tests_cant": "Tests cannot cover all orientations; C57 covers the energy only, while forces and stress are computed by separate code from derivatives of the harmonics.", "anchors": ["src/pypolymlp/cxx/src/compute/polymlp_eval.cpp", "src/pypolymlp/cxx/src/compute/local.cpp", "src/pypolymlp/cxx/src/compute/model.cpp", "src/pypolymlp/cxx/src/polymlp/polymlp_functions_interface.cpp"]}
{"id": "C64", "title": "Potential files are read back as the potential that was saved", "statement": "A potential written by save_mlp_yaml and read by load_mlp_yaml has the same elements, types, spins, masses, pair tables and basis, and the coefficients divided by the scales and rounded to their printed form, so the evaluator built from it is the one of the saved object. The C++ reader of the same text gives the same evaluator, elements and masses for every model without active spins; with active spins it builds a model with fewer types. The pair tables written by the parameter parser have the form that both readers need.", "quantifier": "every model of one or more elements with words free of separators, every complete pair table, all coefficients, every way of printing numbers that reads back", "why_tests_cant": "Tests read a few shipped files. Each of the two readers, the writer and the two evaluator builders is separate code with its own layout rules, and agreement is needed for all element lists, tables and lengths.", "anchors": ["src/pypolymlp/core/io_polymlp_yaml.py", "src/pypolymlp/core/data_format.py", "src/pypolymlp/cxx/src/polymlp/polymlp_parse_potential.cpp", "src/pypolymlp/cxx/src/compute/py_params.cpp", "src/pypolymlp/cxx/src/compute/polymlp_eval.cpp"]}
{"id": "C65", "title": "Files of hybrid potentials are read back as the hybrid potential", "statement": "Saving a hybrid potential with save_mlps and loading the files with load_mlps gives a potential with the same elements, flags and type indices of every sub-model and the same energies, forces and stresses for every structure, whenever every two or more of the sub-models from the first on are covered by their own longest element list; otherwise load_mlps raises ValueError. PropertiesHybrid(pot=[...]) over the same files gives the same results exactly when every sub-model has all elements of the structure (element lists in the order of the longest one); otherwise it raises RuntimeError although the saved potential gives a result.", "quantifier": "All numbers of sub-models, element lists, structures, evaluators and coefficients.", "why_tests_cant": "Hybrid tests use files of sub-models that all have the same elements in the same order; the flags in the files matter only for other combinations.", "anchors": ["src/pypolymlp/core/io_polymlp.py", "src/pypolymlp/core/io_polymlp_yaml.py", "src/pypolymlp/core/params.py", "src/pypolymlp/core/data_format.py", "src/pypolymlp/calculator/properties_hybrid.py"]}
{"id": "C66", "title": "Reported errors are those of the records", "statement": "For a data set of aligned records, compute_error_single returns the root mean square and the mean absolute value of the deviations of all the records: energies per atom, forces component by component, stresses per atom or in GPa; None for quantities the data do not have. Absolute errors never exceed root mean squares, an error is zero exactly when all predictions are right, the order of the records does not matter, and squared errors of parts average to that of the union. The prediction files list the values of each record with its name. compute_error gives each name the errors, and each output key the files, of the last data set that has it. Output keys of names without '*', '.', '/', '-' are distinct; other names can share a key. A file of forces or stresses the data do not have, or an unknown unit, is an UnboundLocalError. The direction error never fails and is zero exactly when each force is predicted along the line of the true one, of either sign.", "quantifier": "All lists of records with at least one member, structures, potentials, flags, units, names.", "why_tests_cant": "Tests compare the errors of one small data set with stored numbers; a misaligned flattening, a wrong normalisation of structures of different sizes, or a file that overwrites another is seen only by other data.", "anchors": ["src/pypolymlp/mlp_dev/core/eval_accuracy.py", "src/pypolymlp/core/utils.py", "src/pypolymlp/core/dataset_utils.py"]}
{"id": "C67", "title": "Structure files keep the atoms", "statement": "Reading the POSCAR file that write_poscar_file writes gives the cell and positions as printed, the counts and the title; the element of each atom is that of the first atom of its block and its type is the block number. So the elements come back exactly if the atoms of each block have one element, which holds for every structure sorted by reorder(), whose atoms are those of the structure in another order. The line of the coordinate type is not looked at. A file with selective dynamics is read as the one without it if the reader is told, and is an error otherwise. Structures made from phonopy cells keep cell, positions and elements, and their types name the elements exactly if equal elements stand together; structures of OpenMX have types that always name the elements, in alphabetical order, and counts of the types.", "quantifier": "All structures with at least one atom, cells, counts with empty blocks, element names with a letter and no blank, titles of one line, lines of the coordinate type, number formats that round-trip up to a rounding.", "why_tests_cant": "Tests read a few stored files; whether elements survive depends on the order of atoms and counts, which is unbounded.", "anchors": ["src/pypolymlp/utils/vasp_utils.py", "src/pypolymlp/core/interface_vasp.py", "src/pypolymlp/utils/phonopy_utils.py", "src/pypolymlp/core/interface_openmx.py", "src/pypolymlp/core/data_format.py"]}
{"id": "C68", "title": "Data sets hold what the output files say", "statement": "Reading vasprun.xml files gives the structures, energies, forces and stresses of exactly the samples of the files, in order: every calculation of a molecular dynamics run with its own structure, energy, forces and stress (times volume, in eV); one sample of any other file unless the last two electronic steps of its first calculation differ. For a file with one calculation this is that calculation; of a relaxation with several steps it is the final structure with the energy and the first forces and stress of the first step. A file that cannot be parsed ends the reading. Of sscha_results.yaml files exactly the converged ones with supercell, forces and stress are read; energy per atom and stress per atom are the same of the unit cell and the supercell form. Of electron.yaml files every structure gets the property of its own file, at the first row of the temperature, if every file has such a row; otherwise the data set is refused.", "quantifier": "All lists of files, numbers of calculations and atoms, contents of the documents including missing entries, temperatures, tolerances and cell sizes.", "why_tests_cant": "Tests read a few stored files of one kind; alignment must hold for every mixture of runs, skipped files and missing entries.", "anchors": ["src/pypolymlp/core/interface_vasp.py", "src/pypolymlp/core/interface_yaml.py", "src/pypolymlp/core/dataset_utils.py", "src/pypolymlp/core/data_format.py"]}
{"id": "C69", "title": "Sampled supercells have the statistics of the effective oscillators", "statement": "A sampling run of the real-space harmonic part keeps exactly the samples whose energy is above -10 eV and within twice the mean of the mean; displacements, structures, energies, forces, stresses and all averages are those of the kept samples, sample by sample. Displacements have the covariance of the normal modes; the harmonic energy of a sample is the sum over modes of half the eigenvalue times the squared coordinate, so its mean is half the oscillator energy h f (n + 1/2) of each mode at or above 0.1 THz, and half of 0.01 times the eigenvalue of the others. Amplitudes grow with temperature and exceed both the zero-point and the classical value. For a quadratic potential with these force constants the average forces vanish and the anharmonic potentials are those of the static forces alone.", "quantifier": "All numbers of atoms and samples, masses, force constants, eigenvectors, temperatures, potentials, orders of a set, linear averages with uncorrelated modes.", "why_tests_cant": "Sampling is random and the number of kept samples is unbounded; tests compare rounded averages of one run.", "anchors": ["src/pypolymlp/calculator/sscha/harmonic_real.py", "src/pypolymlp/calculator/utils/fc_utils.py", "src/pypolymlp/core/displacements.py"]}
{"id": "C70", "title": "A fit returns the penalised least squares solution with the least test error", "statement": "With positive penalties, fit and fit_standard end without error. The coefficients they return minimise the weighted squared deviations from the training energies, forces and stresses plus penalty times squared norm, for one of the given penalties; no minimiser for another penalty has a smaller root mean square error on the test data; the reported training and test errors are those of the returned potential (coefficients divided by scales) on the records. Both functions give the same model for every batch size, sort and memory content. If the equations cannot be solved the coefficients are 1e30 and no error is raised, whatever the threshold for singular equations.", "quantifier": "All non-empty training and test data of usable data sets, penalties, features, weights, batch sizes; solvers exact on positive definite matrices (real arithmetic).", "why_tests_cant": "Optimality is over all real coefficient vectors; tests compare one fit with stored numbers.", "anchors": ["src/pypolymlp/mlp_dev/standard/fit.py", "src/pypolymlp/mlp_dev/standard/solvers.py", "src/pypolymlp/mlp_dev/core/utils_model_selection.py", "src/pypolymlp/mlp_dev/core/api_mlpdev.py"]}
{"id": "C71", "title": "Learning curves fit the first records of the training data", "statement": "With one training data set of N >= 10 structures with forces, a learning curve has 10 to 19 points at multiples of N/10 (rounded down); the point with n structures reports the test errors of the best penalised fit to the first n records with the scales of all records, one entry for each test data set, in order; a point with all N structures has the model of fit_standard. Fewer than ten structures are a ValueError, other than one training data set a RuntimeError. The last point has all structures only if N/10 divides N. A training data set without forces always ends in an IndexError.", "quantifier": "All training and test data sets, penalties, features, weights, evaluations; exact solvers over the real numbers (the IndexError for any numbers and solver).", "why_tests_cant": "A test runs one data set; which rows a slice holds is not observable in the errors.", "anchors": ["src/pypolymlp/mlp_dev/standard/fit.py", "src/pypolymlp/mlp_dev/core/data_utils.py"]}
{"id": "C72", "title": "Polynomial fits are least squares fits and their order has the least leave-one-out error", "statement": "Polyfit(x, y).fit(order=n) gives a function s*sqrt(x) + sum of c_k x^k of the requested kind (with or without square root, constant and linear terms) that minimises the weighted sum of squares over all functions of that kind, whenever the abscissae determine such functions, and its error is the root mean square deviation; eval gives the values of that function and eval_derivative its derivative (with a square root: at x >= 1e-10). Without weights and order, the combination of square root and order with the least leave-one-out error (below 1e10, the first of equal ones) is taken; combinations which the records without one of them do not determine are passed over; if none is left the fit ends in a TypeError, which is always so for three records or fewer with constant and linear terms. fit_solve_poly hands the difference of two such fits to the root finder. Not so: with a square root the reported derivative at 0 < x < 1e-10 is never the derivative; with weights the search does not minimise the leave-one-out error of the weighted fit.", "quantifier": "All abscissae, values, orders, kinds and weights; exact solvers over the real numbers.", "why_tests_cant": "Minimality over all functions of a kind, and the identity of the leverage formula with refitting, cannot be checked by running finitely many fits.", "anchors": ["src/pypolymlp/calculator/utils/fit_utils.py"]}
{"id": "C73", "title": "Thermodynamic data sets are put on their common grid and added point by point", "statement": "load_yamls returns for every given data set (SSCHA, electrons, TI, extrapolated TI, electron-phonon) a grid with the same strictly increasing volumes and temperatures. The volumes are exactly those to which at least n_require (and at least one) data with a free energy round in every data set, the temperatures the integers to which at least one does. A grid point holds the last datum whose volume and temperature, both rounded to the given decimals, are those of the point, and is empty if there is none. compute_grid_sum gives at every point the sum of each property over all grids if all have it and nothing otherwise, keeps volume and temperature of the first grid, and refuses other volumes with a RuntimeError; so a fit at a temperature sees exactly the volumes where all contributions are present, with their sums. Not so: a datum at 300.4 K is counted at 300 K but never placed; a later unconverged result displaces an earlier converged one; empty points are one shared object, so adding a grid gives all of them the structure of one of its points.", "quantifier": "All data sets, decimals, numbers required, grids.", "why_tests_cant": "Tests load a few files with integer temperatures and full grids; sharing of objects and lost data show only for other combinations.", "anchors": ["src/pypolymlp/calculator/thermodynamics/thermodynamics_parser.py", "src/pypolymlp/calculator/thermodynamics/thermodynamics_grid.py", "src/pypolymlp/calculator/sscha/sscha_restart.py"]}
{"id": "C74", "title": "Thermodynamic integration: which records count, and the properties they give", "statement": "load_ti_yaml of a complete file returns None exactly if the energy is below -100, more than a fifth of the records are left out, or all of the last three are. A record is left out if its displacement is more than twice the first one or more than 0.05 from the latest earlier one that did not jump; none is left out if the first displacement vanishes; the first is never left out. Otherwise two results are returned, both per atom and from the kept records only: the free energy is the Simpson integral of delta_e over alpha, the energy that of the last minus that of the first kept record, and F = E - TS (S = 0 at T = 0); the second result adds the point alpha = 1 with the value there of the line through the last three kept records that minimises the squared deviations plus 1e-10 times the squared coefficients, and does the same for the energy. A supercell with k times as many atoms gives the same results if the energies used for the failure test agree. Missing keys give KeyError, no records RuntimeError, zero atoms ZeroDivisionError; load_ti_yamls keeps exactly the files that load, in order. The trapezoid rule is exact on straight lines; unknown rules give RuntimeError. Not so: the failure test is not per atom, as the energy in the file is that of the supercell, so the same system in a larger supercell is dropped.", "quantifier": "All files, logs of any length, temperatures, volumes, numbers of atoms, exact linear solvers and Simpson rules.", "why_tests_cant": "Tests read one file in which no record is left out; the jump rule, the fifth and the last-three rule and the scale of the failure test need logs with melting.", "anchors": ["src/pypolymlp/calculator/thermodynamics/ti_utils.py", "src/pypolymlp/calculator/thermodynamics/thermodynamics_parser.py", "src/pypolymlp/mlp_dev/standard/solvers.py"]}
{"id": "C75", "title": "Calculators between a reference state and a potential, and averages over their runs", "statement": "The ASE calculators with a reference state answer with an energy and forces that go linearly in the mixing parameter alpha from the reference state (alpha 0) to the final state (alpha 1): for the harmonic reference E(0) is the energy of the undisplaced structure plus half the quadratic form of the displacements; delta_energy_10 is E1 - E0 and is the derivative of the energy in alpha; delta_energy_1a is E(1) - E(alpha) = (1 - alpha) delta_energy_10. At the undisplaced structure the harmonic calculator gives the energy of the potential whatever alpha. If the forces of the potential are minus the gradient of its energy and the force constants are symmetric, the same holds of every mixture. Construction refuses, with AssertionError, exactly alphas outside [0,1] and force constants of another size than 3N x 3N. After a run, averages are means over the records after the first n_eq; the heat capacity is the variance of the energy over kB T^2 (not negative; zero exactly when all energies agree; zero at T = 0). The free energy reported by perturbation is -(1/b) ln<exp(-b dE)> with b = kB T - not 1/(kB T), for which the statement is refuted; it is at most the mean of dE and, while kB T <= 1 eV, at least the difference at 1/(kB T).", "quantifier": "for all potentials, force constants, structures, mixing parameters, temperatures and recorded trajectories, over the reals", "why_tests_cant": "A test looks at a few structures and alphas; that delta_energy_10 is the derivative and that the forces are conservative is a statement about all of them. Perturbation results look plausible (they lie between the right value and the first order), so no test of the sign or size of the result sees that the inverse temperature is inverted.", "anchors": ["src/pypolymlp/calculator/utils/ase_calculator_ref.py:19-447", "src/pypolymlp/calculator/md/ase_md.py:270-304"]}
{"id": "C76", "title": "A thermodynamic integration: its runs, results and file, and the reference it starts from", "statement": "run_thermodynamic_integration runs, with a calculator that has a reference state, one simulation at every root of the quadrature moved to [0, max_alpha] (in order, n_steps each), then one at alpha 0 and one at max_alpha (3 n_steps each); logs are alpha 0, the roots, max_alpha, each with the averages of its own run. The free energy is max_alpha/2 times the weighted sum of the average energy differences at the roots; the energy is the last average minus the first and F = E - TS (both zero at T = 0). The quadrature on [a,b] is exact for polynomials of the degree for which the rule is exact on [-1,1]. For every system with finitely many states, the free energy difference is the integral of the canonical average of E1 - E0, so if every run reproduces canonical averages up to d and the rule integrates that average up to e, the reported free energy, energy and T times the entropy are those of max_alpha relative to alpha 0 (Gibbs entropy) up to e + max_alpha d, 2 d and e + (max_alpha + 2) d. The file saved after a run with a harmonic reference is complete in the sense of C74, with the logs as records (displacements rounded); with other reference states saving fails. Construction refuses a missing calculator, structure or reference with RuntimeError. find_reference returns the first converged reference without imaginary modes at zero temperature, or else the first with the least temperature, RuntimeError if there is none or the target is colder. Not refused: alpha outside [0,1] (the exception is constructed but not raised), an unknown thermostat (nothing runs, the averages of the last run are integrated at every alpha), a calculator without reference set after one with (fails with TypeError after the runs).", "quantifier": "for all simulations (which may depend on everything simulated before), quadrature rules, numbers of points and steps, temperatures, finite systems, and lists of references, over the reals", "why_tests_cant": "A run takes hours and is random; a test can at best compare one free energy with a tolerance. That logs belong to their own alpha, that energies and entropies are consistent and that the sum is the free energy difference of the ensemble are statements about all runs. The silent cases produce numbers, not failures.", "anchors": ["src/pypolymlp/calculator/md/api_ti.py", "src/pypolymlp/calculator/md/api_md.py", "src/pypolymlp/calculator/md/md_utils.py", "src/pypolymlp/calculator/md/ase_md.py"]}
{"id": "C77", "title": "Equilibrium properties: when they exist, what they are, and what is saved", "statement": "Free energy, entropy and heat capacity at a temperature are evaluated at the minimum of the fitted equation of state exactly if the fit exists, its volume is at most 1.2 times the largest volume and its bulk modulus is at least 0.001 eV per cubic angstrom, and are None otherwise; without fits RuntimeError. The heat capacity at constant pressure is Cv + T V (dS/dV)^2/B, which for exact fits is T dS/dT along the equilibrium volumes (for all differentiable state functions with the Maxwell relation). Numerical heat capacities at inner temperatures are T times the slope of the entropy between the neighbours: the derivative at some temperature between, exact for quadratic entropies on equidistant temperatures; the ends are NaN, except zero at zero temperature. Pressure and Gibbs free energy at a volume are minus the derivative of the free energy at a volume c within eps, and at least the exact Gibbs free energy at this pressure (the least F + pV, if F is convex) and at most M eps^2 more, M bounding the second derivative. The file saved gives back, when read, temperatures, volumes, bulk moduli, free energies, entropies (in J/K/mol), heat capacities, the data present, fitted and Gibbs curves. But: from four temperatures on, the standard procedure succeeds exactly if every temperature has an acceptable minimum (otherwise TypeError); one temperature without a fit makes saving fail with AttributeError; a file saved without entropies or heat capacities cannot be read (ValueError); eval_heat_capacities always fails; eval_eq_cp without entropies is None where eval_eq_entropy raises.", "quantifier": "for all volumes, temperatures, fits, convex free energies, state functions and entropies, over the reals", "why_tests_cant": "Formulae are tested at one state point with a tolerance. That the heat capacity formula is the derivative along minima, or that reported Gibbs energies are within M eps^2, are statements about all functions. A failed fit at a single temperature does not occur in small tests.", "anchors": ["src/pypolymlp/calculator/thermodynamics/thermodynamics_utils.py", "src/pypolymlp/calculator/thermodynamics/api_thermodynamics.py", "src/pypolymlp/calculator/thermodynamics/thermodynamics_io.py", "src/pypolymlp/calculator/utils/eos_utils.py"]}
{"id": "C78", "title": "Phase transitions and phase boundaries", "statement": "find_transition succeeds exactly when its data are at least two points of ascending temperatures per phase (up to ValueError of the interpolation), and returns what the root finder gives for the difference of the polygons through the data (straight between neighbours, first and last sides extended); if that is a root, both polygons agree there. For free energies falling linearly with different slopes it is exactly the temperature where both are equal. A polynomial fit without given order reproduces every polynomial of degree at most max_order (at least 3) given at max_order + 2 different points. Hence, for two phases whose enthalpies and entropies are polynomials of the pressure of degree at most fit_gibbs_max_order, with that many pressures at each of at least two temperatures and different entropies, compute_phase_boundary succeeds and consists, in order of the pressure, exactly of the points (p, T) with p on the grid -3 + k * interval, p above -1e-5 and below 0.8 times the largest pressure in the data of either phase, T > 0, and equal Gibbs free energies; its slope is (V1 - V2)/(S1 - S2). But: a transition is also reported outside of the temperatures of the data and where one phase is stable everywhere (the convergence of the root finder is not looked at), and boundaries include pressures beyond all data at some temperatures, because the limit is taken from the largest of the largest pressures.", "quantifier": "for all data, polynomial enthalpies and entropies, pressure intervals and orders, over the reals", "why_tests_cant": "Tests compare one boundary of one pair of files with stored numbers. That no spurious points appear and none are left out, and the exactness of the whole chain of fits for a class of functions, are statements about all data.", "anchors": ["src/pypolymlp/calculator/thermodynamics/transition.py", "src/pypolymlp/calculator/utils/fit_utils.py", "src/pypolymlp/api/pypolymlp_thermodynamics.py"]}
{"id": "C79", "title": "Histories of the developer object", "statement": "For every sequence of calls of the developer object: parameters are there exactly when load_parameter_file, set_params or load_mlp has succeeded; training and test data are both there or both missing and are those of the last successful call that makes data, built from the parameters as that call leaves them; the model in use is that of the last successful regression or loaded file, regressed from the parameters and data that were current then. fit raises RuntimeError unless parameters and data are there and otherwise is the regression. run is fit followed by estimate_error. After a successful estimate_error, save_errors writes the errors of the model in use on the current training and test data; a new model has none. A failing call leaves the choice of parameters, the data, the log and, except for estimate_error and run, the model as they were. Parameter objects that are not current are never changed by any later call; the flags of those that are current can only be lost: once forces or stresses were not given, they stay off for all later data until parameters are set anew. A sub-model appended after a fit makes the fitted model unusable. But: the fitted model shares the current parameters, so that looking for phono3py or electronic data, even in vain, removes spins from the potential saved afterwards; failing calls are not atomic (dataset type and flags stay changed, a run that fails keeps its new model, a failing estimate leaves training errors of the new and test errors of the old data); save_errors without an estimate raises AttributeError rather than its RuntimeError.", "quantifier": "for all histories of calls, for all data, regressions, errors and parsers", "why_tests_cant": "Tests follow the documented order of calls once. Which parameters, data and errors end up in files after any other order is a statement about all histories.", "anchors": ["src/pypolymlp/mlp_dev/pypolymlp.py", "src/pypolymlp/mlp_dev/core/dataclass.py", "src/pypolymlp/core/io_polymlp.py", "src/pypolymlp/core/params.py"]}
{"id": "C80", "title": "Averages over random substitutions", "statement": "For every way of drawing samples without replacement: a substituted lattice is made exactly if on each sublattice the rounded numbers (half to even) of its species are not negative and together not more than its atoms, otherwise ValueError; then on each sublattice each species gets its rounded number of atoms, all different, others keep element and type. If all products of numbers and probabilities are integers, every atom is replaced. The returned structure is the substituted lattice in order of types, with the order of atoms that was used; if every atom is replaced, element names fit into the names of the lattice and every type occurs, its types are those the potential expects, with and without spins. Forces are returned at the places of the lattice's atoms whatever the order was; energies and stresses are those of the calculator, one for each sample. The average is the mean over all samples of the first K batches, where K is the first (from the second on) at which the mean energy per atom changes by no more than the tolerance, or the largest number allowed. An occupancy is accepted exactly if probabilities of each sublattice sum to one within tolerance, all its keys are elements (or spin states of elements with spins) of the potential, and every species of the potential occurs; it is then completed by the types of the potential. But: accepted occupancies can be impossible to realise (halves of three atoms raise ValueError); with thirds of four atoms one atom is left and is renamed, or renames another, when sorting; element names longer than those of the lattice are cut, and spin channels without atoms shift the types, both giving energies of other structures without error.", "quantifier": "for all lattices, occupancies, random choices, calculators and numbers of samples", "why_tests_cant": "Tests draw five samples of a lattice of eight atoms with halves and check shapes. That numbers, places of forces and types are right for every draw, and when rounding spoils them, cannot be sampled.", "anchors": ["src/pypolymlp/postproc/disorder_utils.py", "src/pypolymlp/postproc/disorder.py", "src/pypolymlp/utils/structure_utils.py"]}
{"id": "C81", "title": "Formation energies and stable compounds", "statement": "For any convex hull routine that returns the positions of the extreme points and raises exactly if all points lie on a hyperplane: the row of a structure holds its fractions, each not negative with sum one, and its energy minus that of its end members, per formula unit; with energies of elements these are the atomic fractions and the energy per atom above the elements, and the row of an element's own structure is pure with its energy per atom minus the reference. The end member found for an element is the structure of one block of that element with the lowest energy per atom, RuntimeError exactly if there is none below the bound. Reported compounds are rows of the data (end members without a row are added at zero) below the tolerance, in lexicographic order; every row of the data lies on or above a mixture of reported rows; reported rows below minus the tolerance are stable: no mixture of rows has the same composition and a lower energy; reported rows at zero are elements; reported names are those of the same rows; a second call reports the same and adds nothing. The only error with enough rows is that of points on a hyperplane. But: rows above zero within the tolerance and end members above a lower pure row are reported though not stable, a row that passes for an end member at the tolerance hides that element, duplicated pure rows without compounds raise instead of giving the elements, atoms of elements outside the potential are not counted, and names given by the caller are dropped while names of an earlier call stay.", "quantifier": "for all elements, structures, energies, numbers of rows and tolerances, over the reals", "why_tests_cant": "Tests check one binary system with given energies. That nothing stable is left out, and that everything reported is stable, is a statement about all mixtures.", "anchors": ["src/pypolymlp/calculator/compute_formation_energies.py", "src/pypolymlp/calculator/utils/composition_utils.py", "src/pypolymlp/api/pypolymlp_calc.py"]}
{"id": "C82", "title": "Tables of invariants, written and read", "statement": "A table of invariants (l, coefficients, m) is written exactly if its integers and lengths are 32 bit. What is written is read back unchanged, bit by bit, by the python and by the C++ reader, whatever follows it in the file. Any file that the python reader accepts the C++ reader reads as the same table, or it refuses a negative length. Orders outside 1 to 6, versions outside 1 to 2 and missing files are refused. From valid tables of all orders asked for (rows in step, l increasing, m within l) the terms taken are exactly the rows with no l above the bound of their order (zero for order one), in order, with l*l+l+m as places of (l, m), a one to one correspondence of pairs up to the bound with the places below (lmax+1)^2. But: the C++ reader accepts files of any other kind and cut files (completed by what is in memory), only the last l of a row is tested, and one missing file leaves nothing.", "quantifier": "for all tables, files, contents of memory, orders and bounds", "why_tests_cant": "Tests read the shipped tables only. Agreement of three programs on all tables and files, and what happens with damaged files, are not covered by them.", "anchors": ["src/pypolymlp/polyinv/binary/convert_binary.py", "src/pypolymlp/polyinv/binary/check_binary.py", "src/pypolymlp/cxx/src/polymlp/polymlp_gtinv_binary.cpp", "src/pypolymlp/cxx/src/polymlp/polymlp_gtinv_data.cpp", "src/pypolymlp/cxx/src/polymlp/polymlp_read_gtinv.cpp"]}
{"id": "C83", "title": "The projector on rotational invariants", "statement": "For orders two to eight and an even sum of l the matrix that build_projector fills, by threads in any order, has at each pair of states the sum over all paths of intermediate l of products of coupling amplitudes, with sign and 1/(2l+1), and nothing else is written; other orders and odd sums are refused. With orthonormal couplings it is symmetric, equal to its square, and its trace is the number of paths. With couplings invariant under rotation every vector solve returns is, with the indices beside it, a tensor annihilated by J+, J- and Jz. The indices are exactly the (l, m) within range whose m sum to zero, once each; the index functions of python and C++ agree and are inverted by matrix_index_to_lm. Enumeration selects exactly the nondecreasing l up to the bound with the conditions asked. But order one, and odd sums when asked for, end in an exception.", "quantifier": "for all l, orders 2 to 8, all tables of 3j symbols with the stated laws, all orders of writes, any eigenvectors kept by the matrix", "why_tests_cant": "Tests compare a few eigenvectors with stored numbers. That all the loops of seven orders give invariants for every l is not covered.", "anchors": ["src/pypolymlp/polyinv/polyinv_utils.py", "src/pypolymlp/polyinv/api_polyinv.py", "src/pypolymlp/polyinv/projector.py", "src/pypolymlp/polyinv/cxx/src/projector/projector.cpp", "src/pypolymlp/polyinv/cxx/src/projector/precondition.cpp"]}
{"id": "C84", "title": "Radial functions and their derivatives", "statement": "For every positive distance and all parameters, cosine, exp1, exp2, exp3, sto, modified_morlet, mexican (positive parameter) and morse return the values of their formula, with and without the derivative, and the number returned beside the value is the derivative. polynomial_d is right exactly for exponents that are zero or at least 1e-15 in size. get_fn_ fills one value for each parameter set for Gaussians, with and without derivatives alike; any other pair type leaves what was in the output vectors, padded with zeros. Not so for three functions: gto and morlet call gauss with its arguments exchanged, so that gto is r^p exp(-q^2 r) and its derivative fits only at r = q/2, and morlet with parameter 1/2 is zero with derivative one; bump_cutoff_function and bump_cutoff_function_d have different exponents, and the derivative lacks the factor 1/cutoff.", "quantifier": "for all distances > 0, all real parameters, all pair types and contents of the output vectors", "why_tests_cant": "A finite difference at a few points does not show agreement everywhere, and the functions are not called by the tests.", "anchors": ["src/pypolymlp/cxx/src/polymlp/polymlp_basis_function.cpp", "src/pypolymlp/cxx/src/polymlp/polymlp_basis_function.h", "src/pypolymlp/cxx/src/polymlp/polymlp_functions_interface.cpp"]}
{"id": "C85", "title": "Force constants from a potential", "statement": "PolymlpFC.run with displacements of shape (n, 3, atoms), n > 0, and no forces hands symfc the displacements and the potential's forces on the displaced cells minus those on the cell, both with the last two axes exchanged, and keeps the force constants of the orders asked for; a harmonic potential therefore gives harmonic data whatever forces are left in the cell. Sampled displacements point where the drawn vectors point and have the length asked for, and come in cancelling pairs on request. Over every history of calls, also after exceptions, force constants of an order change only in a run that succeeds and asks for the order, and come from the displacements and forces held then. Wrong shapes are refused with RuntimeError. Not so: missing displacements or forces end in AttributeError; displacements read from a phono3py file are lost; displacements and forces given to PypolymlpCalc.run_fc are ignored; force constants of an earlier run are written with those of a later one; forces of other displacements are accepted.", "quantifier": "for all structures, potentials, solvers, arrays, orders, magnitudes, drawn numbers and histories of calls", "why_tests_cant": "Tests cannot try every history of calls, and the tests there are never give displacements and forces to the calculator.", "anchors": ["src/pypolymlp/calculator/fc.py", "src/pypolymlp/core/displacements.py", "src/pypolymlp/api/pypolymlp_calc.py"]}
{"id": "C86", "title": "Energies at a sequence of volumes", "statement": "For every positive step and every range that meets [0.9, 1.1], the fine grid of PolymlpEOS is ascending, inside [eps_min, eps_max), has no gap wider than the step, and none wider than a third of it inside [0.9, 1.1). A run records, for each point, the volume multiplied by it and the potential's energy of the cell scaled isotropically; a fit that fails does not make the run fail; the fitted curve is sampled every 0.01 from a tenth of the range below the smallest volume to a tenth above the largest. Over all histories of runs the data are those of the last run that succeeded. The quasi-harmonic run hands phonopy volumes, energies and tables by temperature and volume in the same order. Not so: a range above 1.1 starts at 1.1, one below 0.9 goes on beyond its end; a run without a fit keeps and writes the equilibrium and curve of earlier data; the recorded volume is never exactly that of the scaled cell (it agrees up to 2e-13 for factors between 1/e and e).", "quantifier": "for all real ranges, steps, cells, potentials, fits and histories of runs", "why_tests_cant": "Tests use the default range, and one run per object.", "anchors": ["src/pypolymlp/calculator/compute_eos.py", "src/pypolymlp/calculator/compute_phonon.py", "src/pypolymlp/utils/structure_utils.py"]}
{"id": "C87", "title": "The calculator object over histories", "statement": "For all histories of calls on any number of PypolymlpCalc objects that share one potential, and whatever the calculations do inside, the energies, forces and stresses shown are those the potential gives for the structures evaluated last. An evaluation holds and evaluates the structures given, or those held. What an object holds for elastic constants, equation of state, quasi-harmonic run, phonons, geometry, force constants or formation energies was made by its own last call making it, for the structure that was first then, and its result is of a run of just that. Runs before initialisation raise RuntimeError and change nothing (a geometry run returns nothing); a geometry without degrees of freedom drops the earlier object; after an optimization the structure held is the optimized one. Which calculator is made follows from the arguments as stated. Not so: the values need not be those of the structures held, not even after an optimization, nor of one's own evaluation if another object shares the potential; a failing constructor keeps the object of the earlier structures; the unit cell need not be that of the calculation run.", "quantifier": "for all interleaved histories, potentials, calculations (as programs that ask the potential adaptively) and arguments", "why_tests_cant": "Tests call one calculation of one object once.", "anchors": ["src/pypolymlp/api/pypolymlp_calc.py", "src/pypolymlp/calculator/properties.py"]}
{"id": "C88", "title": "Candidate models and their input files", "statement": "The grid search enumerates every combination of radial setting with an entry of the list of invariants, and of radial setting, polynomial order and pair type, exactly once. The list of invariants holds, for every model type asked for and every order up to the bound, exactly the non-increasing lists of positive multiples of the intervals within the bounds, each once; for type 2 only those of order three whose second number is at most five. A run adds its models to those enumerated before; hybrid models pair each model twice with a model of two thirds of the cutoff; without settings every call raises RuntimeError. The file written for a model, read by the parser of input files, gives its cutoff, radial functions, type, polynomial order, invariants, penalties, elements and flags back (stress only together with force); no two models share a directory. Automatic cutoffs are always two, ascending, at least 6 and 8. Not so: models with invariants always have polynomial order two, whatever orders are asked for; two runs give every model twice; the penalties in an enumerated object are powers of start, stop and number; hybrid models are not renewed with the models.", "quantifier": "for all settings, element lists, histories of calls, numbers of models and printing functions that can be read back", "why_tests_cant": "Tests enumerate one default grid and do not read the files.", "anchors": ["src/pypolymlp/utils/grid_search/api_grid_search.py", "src/pypolymlp/utils/grid_search/grid_enum.py", "src/pypolymlp/utils/grid_search/grid_utils.py", "src/pypolymlp/utils/grid_search/grid_io.py", "src/pypolymlp/core/parser_polymlp_params.py", "src/pypolymlp/core/parser_infile.py"]}
{"id": "C89", "title": "Self-consistent harmonic calculations: temperatures, samples and what a run starts from", "statement": "A single temperature is taken as given, or as an integer within 1e-8 + 1e-5 of it; otherwise temperatures are an arithmetic progression from the lowest in steps, as long as they are below the highest plus one, or integers near Chebyshev nodes between the bounds. The samples are 450 (0.01/tol)^2.5 times the basis functions per atom, rounded, and three times as many at the end. A run starts from held force constants or else from the chosen algorithm, makes at most 19 preconditioning passes with n, 2n, 3n ... samples at the first temperature while the score is above five tolerances, and then visits the temperatures in order, each starting from the result of the one before; if one fails, exactly those before it are saved. For a large system a run with cutoff 6 at the first temperature comes before, and parameters get their cutoff back. Runs keep the inputs of the object; force constants and results change only in calls that end well; without potential, cell or matrix nothing happens but RuntimeError. With a given number of samples, evaluations for a geometry optimisation or elastic constants do not depend on those before. Averaged stress is the projected symmetric tensor in the order xx yy zz xy yz zx; forces are those of the first copy of each atom. Not so: a temperature above the highest is visited; nodes ignore the order and may repeat; an odd permutation as matrix gives a negative number of cells; a given initial number without a final one leaves no final number; a run on another cell starts from the force constants of the run before, whatever algorithm; a failed large run leaves the cutoff 6; an optimisation keeps the results of an earlier run; without a number of samples the first structure decides for all; the force constants beside a restart file of the current directory are looked for in the root directory.", "quantifier": "for all settings, matrices, cells, potentials, iteration functions and histories of calls", "why_tests_cant": "Tests run one small calculation at one temperature; they do not call the object twice nor make a run fail.", "anchors": ["src/pypolymlp/calculator/sscha/sscha_params.py", "src/pypolymlp/calculator/sscha/api_sscha.py", "src/pypolymlp/calculator/sscha/sscha_core.py", "src/pypolymlp/calculator/sscha/api_properties.py", "src/pypolymlp/calculator/sscha/sscha_utils.py", "src/pypolymlp/api/pypolymlp_sscha.py"]}
{"id": "C90", "title": "YAML files of structures, properties and self-consistent harmonic calculations come back as written", "statement": "A structure written in YAML under any name and read again has the same axes, positions, atoms, types and elements, and its volume; unit cell and supercell in one file come back both, the supercell with its number of cells and the 3 x 3 form of its matrix. Energy, forces and stress of a structure come back, for training data the stress as the symmetric tensor of xx yy zz xy yz zx. A results file of a self-consistent harmonic calculation gives the name of the potential (unless one is given), the temperature, all energies, entropy and heat capacity of the last iteration, whether it converged and has imaginary modes, the unit cell, the integer supercell matrix and the logs of all iterations; average, total and, if asked for, symmetrised forces and stress are under their names. Not so: a supercell without matrix is not written; a file without forces or without stress is written but refused when read; a single number without a point such as 1e-05 turns the array of all forces into strings, and a free energy printed so cannot be asked for after a restart (TypeError).", "quantifier": "for all structures with plain element names, numbers, matrices, logs and any printing of numbers that float() undoes", "why_tests_cant": "Tests read example files whose numbers all have a point; no test writes a file with a number like 1e-05 or without forces and reads it back.", "anchors": ["src/pypolymlp/utils/yaml_utils.py", "src/pypolymlp/calculator/sscha/sscha_io.py", "src/pypolymlp/calculator/sscha/sscha_restart.py", "src/pypolymlp/core/interface_yaml.py"]}
{"id": "C91", "title": "Normal forms of fractional coordinates identify the same arrangements of atoms", "statement": "normalize_positions gives the same result when atoms are moved by whole cells or atoms of one element are exchanged, for all coordinates; and when all atoms are translated together, for coordinates and translations of at most as many decimals as are kept. Its result describes the given arrangement up to a translation, whole cells and the order of atoms of an element, within one unit of the last decimal, so that two structures of the same normal form are the same within two units; coordinates are at least -1/2 and below 1/2; no atoms raise ZeroDivisionError. Not so for other translations: moving four atoms by 3e-6 changes the normal form with five decimals from (-0.45, -0.3, -0.2, -0.05) to (-0.45, -0.3, 0.30001, 0.45).", "quantifier": "for all numbers of decimals, rational coordinates, numbers of atoms of the elements, translations and reorderings", "why_tests_cant": "The tests use random translations of three structures; random rounding decides between origins only when the positions of several atoms have equal spacings, so that the tests pass except for rare translations.", "anchors": ["src/pypolymlp/calculator/utils/structure_matcher/matcher.py"]}
{"id": "C92", "title": "Random structures keep the conventional cell of the space group and the given displacements; reduced and refined cells describe the same atoms", "statement": "construct_basis_cell gives an orthonormal basis of exactly the cells of the conventional shape of the space group (cubic, hexagonal also for trigonal groups, tetragonal, orthorhombic, monoclinic, triclinic), with one column for each free parameter. Structures of StructureGeneratorSym have cells of that shape at most sqrt(number of parameters) * max_deform from the cell of the generator, atoms at the positions of the cell moved by a combination of the basis of displacements with coefficients up to max_distance and whole cells, and the elements and types of the cell; each run appends n_samples structures; fixing both axis and positions, or the axis without a basis of displacements, raises RuntimeError, and the property basis_sets raises AttributeError exactly when the axis or the positions are fixed. ReducedCell.transform gives the same atoms in the reduced cell within the tolerance of the cell, its metric tensor gives lengths, and a structure of another cell is refused. SymCell.refine_cell keeps all atoms, grouped by type with the right numbers, if types are below the number of entries of n_atoms; not otherwise: an atom of type 2 of a structure with two kinds of atoms is lost.", "quantifier": "for all space groups 1..230, cells, structures, bases of displacements, random numbers, amplitudes, numbers of samples and orders of atoms", "why_tests_cant": "Tests generate a few structures of one or two space groups and compare stored numbers; the shapes of the cells, the distances and the other branches of the space groups are not looked at.", "anchors": ["src/pypolymlp/utils/spglib_utils.py", "src/pypolymlp/core/strgen_sym.py"]}
{"id": "C93", "title": "The smallest interatomic distance is that of the periodic structure, when one is given", "statement": "If the lists of neighbours are right for the cutoff that find_minimum_distance takes (the shortest axis + 1e-5), the value it returns is the distance of two atoms or of an atom and its image, and no other pair in the infinite crystal is nearer, although only pairs within the cutoff are looked at. It raises ValueError exactly when some atom has no neighbour of some type within the cutoff; never with one kind of atoms. So it has no value for structures of several kinds of atoms in cells with a short axis: with axes 1, 1, 10 and two atoms of different kinds at distance 5. There is one coordination number for each atom and type.", "quantifier": "for all cells, positions, types and numbers of types, with lists of neighbours as specified", "why_tests_cant": "Tests use compact structures, where every atom has neighbours of all types within the shortest axis; they cannot look at all pairs of an infinite crystal.", "anchors": ["src/pypolymlp/utils/structure_neighbor.py"]}
