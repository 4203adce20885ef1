# Formal model of pypolymlp: design

Subject: `sekocha/pypolymlp`, source in `/repo` (Python and C++), read as text.
Proof assistant: Rocq/Coq 8.16.1.  Sources in `rocq/theories`, logical prefix `Verif`.

## Method

* Each modelled function is a small total Gallina function that follows the source
  branch by branch.  The comment above each definition cites file and lines.
* A Python exception is a value: `Err e` of the type `res A` (file `Base.v`).
  An index error, assertion failure or unbound local variable is therefore visible
  in theorem statements; it is never replaced by a default value.
* In-place mutation becomes a function that returns the new value.  Where aliasing
  matters (CG solver, parameter objects) the heap cell is explicit in the model.
* External calls (LAPACK, numpy `linalg`, the C++ evaluator seen from Python, phonopy,
  symfc) are Section variables: the theorem holds for every function in their place,
  under the hypotheses written in the theorem statement.
* Floating point is replaced by exact arithmetic: `Z`, `Q`, an arbitrary commutative
  ring/field, or `R`.  Each file says which.  Rounding error is not modelled.
* Property theorems live in files `Props/Cxx.v`: the theorems, their `Print Assumptions`, and a
  module `Example` showing that the hypotheses are met by a concrete non-trivial input.
* A statement that the code violates is proved as `..._refuted` with a witness,
  next to the strongest positive statement that does hold.

## Trusted base

* Coq 8.16.1 kernel, and the reading of `/repo` that produced the model.
* Axioms: whatever `Print Assumptions` prints under each theorem.  Theorems over `Z`,
  `nat`, lists, generic rings are closed under the global context.  Theorems over `R` use the
  Reals axioms of the standard library (listed in the section "Assumptions" below).
* No axioms of our own, no `Admitted`, no disabled kernel checks.

## Plan per property

| id | model and proof idea |
|----|----------------------|
| C01 | `np.round(np.linspace)` as exact half-to-even rounding of i(n-1)/(m-1) on integers; strict monotonicity since the step is >= 1; complement mask. |
| C02 | dataset as parallel flat arrays with block offsets; specification is a list of records; every operation refines `firstn/skipn`, stable-sort-permutation or index selection on records; induction over histories. |
| C03 | masks as filters; permutation proof by induction over a duplicate-free order; the array-size assertion as `Err`. |
| C04 | sequential masked writes as fold; characterise as element index. |
| C05 | same with spin doubling; positive theorem when all spin channels are present, refutation otherwise. |
| C06 | `Dataset` with the `finished` flag; paths as compositions; count of subtractions. |
| C07 | `range(0,n,b)`; induction on fuel-free arithmetic characterisation. |
| C08 | matrices over a commutative ring, batches as a list of row blocks. |
| C09 | block-wise upper-triangle accumulation and mirroring as function updates; refutation at the threshold. |
| C10 | ring identity by induction on rows. |
| C11 | in-place diagonal as state, solver as oracle. |
| C12 | argmin fold. |
| C13 | CG with explicit heap cell for the coefficient array; refutation by a computed run; residual invariant over a ring. |
| C14 | cumulative slicing. |
| C15 | running offsets; induction on the structure list. |
| C16 | double loop numbering; closed form; inverse. |
| C17 | loop-nest numbering; closed form of the index; conjugation as involution. |
| C18 | polynomial features as sums of products; Euler homogeneity; fold over maps. |
| C19 | accumulation of +f/-f over the pair list. |
| C20 | permutation between mirrored half list and full list for a negation-closed translation set. |
| C21 | lattice over Z/Q; counterexample by computation; positive theorem for a height condition over R. |
| C22 | dual numbers/derivation over a commutative ring. |
| C23 | Coquelicot derivatives. |
| C24 | nested/flat model copies; refutation. |
| C25 | expansion fold with type map; partition lemmas. |
| C26 | product lists and index sets. |
| C27 | record of flags for sub-models and the common view; invariant over setter sequences. |
| C28 | sequential replacement; positive theorem for ascending indices; refutation otherwise. |
| C29 | evaluator oracle; list recursion re-inserting skipped structures. |
| C30 | triangular loops; NoDup and completeness. |
| C31 | word enumeration; NoDup and completeness. |
| C32 | rational floor; refutation of [0,1); proof of [-tol, 1-tol]. |
| C33 | rational rounding; matrix inverse as hypothesis. |
| C34 | index expansion lists. |
| C35 | grouping by sorted distinct types. |
| C36 | group lists; index bookkeeping. |
| C37 | list filter. |
| C38 | least squares through the origin over a field. |
| C39 | real matrices, explicit 3x3 components. |
| C40 | Coquelicot partial derivatives of the determinant. |
| C41 | matrices with left-inverse hypothesis. |
| C42 | iteration as fuel-bounded loop over an oracle stream, with termination proof. |
| C43 | quadratic form over a ring. |
| C44 | explicit index lists. |
| C45 | string tokens as lists. |
| C46 | strings over ascii. |
| C47 | row scaling. |
| C48 | column scaling over a field. |
| C49 | enumeration of invariants against the set of admissible (l, type pair) multisets; soundness, completeness, NoDup. |
| C50 | real derivative of the energy features along a moved atom, through the product maps (C22). |
| C51 | case analysis of the supercell loop. |
| C52 | the recursion of the code against derivatives of (x^2-1)^l: Legendre and associated Legendre identities. |
| C53 | derivative, parity and scaling of the harmonics; discharges the hypotheses of C50, C18. |
| C54 | C18 and C50 with the radial functions and harmonics of the code. |
| C55 | affine strain of all displacements; derivative of the features. |
| C56 | composition of C18, C20, C54, C55: the numbers returned by the fast evaluator. |
| C57 | Lie algebra route: ladder condition on a table kills the generators; Euler angles; uniqueness of solutions of a linear ODE gives finite rotations; parity gives reflections. |
| C58 | comparison of the two order-parameter loops. |
| C59 | vanishing of the antisymmetric part of the virial from C57's infinitesimal statement. |
| C60 | exchange symmetry of pair contributions, sums over full lists, bijection of the rows (C20, C21, C34). |
| C61 | multiset of (file, weight, flags) through every loading path; permutations through splits. |
| C62 | linear combination of the elementary motions of C54 and C55; uniqueness of derivatives for clusters. |
| C63 | C57 along any motion and C62, uniqueness of derivatives. |
| C64 | line-by-line simulation of the C++ state machine on rendered items; the Python reader item by item. |
| C65 | closed form of the common element list; invariant of the appends by induction from the right; evaluators compared through C04, C28, C29. |
| C66 | flattening lemmas reduce the arrays of numpy to lists per record; mean-square algebra over R; Cauchy-Schwarz; dict and key lemmas on strings. |
| C67 | lines and words of a rendered text are its parts; block arithmetic on counts; sorted types as blocks (C35). |
| C68 | one-step characterisation of each reader as appending samples, then induction over the files; C02 for the data set. |
| C69 | linear algebra of orthonormal eigenvectors over a field; linear functionals for averages; tanh by its exponential form and the mean value theorem. |
| C70 | C08/C11 for the sums; completion of the square for the penalised objective; uniqueness of its minimiser for positive penalties; C10 for the selection. |
| C71 | the rows of the one-shot matrix in order; slices of three concatenated blocks; C70 per point; division lemmas for the sizes. |
| C72 | normal equations and completion of the square; rank-one update of the normal matrix for the leave-one-out identity; an executable Gaussian elimination, proved exact, as witness of the solvers; derivative of Horner's scheme. |
| C73 | counting dictionaries as multiplicities; placement by induction on the data; references to points with the invariant that only value-free points are shared. |
| C74 | jumps by induction with the reference carried along, uniqueness by strong induction; completion of the square for the penalised line, uniqueness by the midpoint. |
| C75 | linear paths; is_derive (Coquelicot); convexity of the exponential for the bounds |
| C76 | oracle simulations with histories; is_RInt_derive for the free energy; error bounds by the triangle inequality |
| C77 | mean value theorem; chain rule in two variables (Coquelicot) for the heat capacity; convexity by tangents |
| C78 | roots of polynomials by degree; leave-one-out scores vanish exactly for functions that contain the data |
| C79 | state machine with a heap of parameter objects, induction over histories |
| C80 | fold invariants over disjoint index sets for any sampler |
| C81 | finite Minkowski theorem (points are mixtures of extreme points), supporting functionals |
| C82 | encoders and decoders over byte lists, composed |
| C83 | sums over paths, induction on the list of l; ladder operators |
| C84 | Coquelicot derivatives of closed formulas |
| C85 | small-step model of the object; induction over histories |
| C86 | covering of intervals over the reals; induction over histories |
| C87 | induction over interaction trees and histories |
| C88 | enumeration as a set, round trip through the modelled parser, injectivity of padded numbers |
| C89 | induction over passes and temperatures as relations, invariants of histories, real arithmetic of progressions |
| C90 | a reader of the subset of YAML proved against documents, files as documents |
| C91 | rounding to the nearest even on rationals modulo one, candidates as sets, sorting and least elements of total orders |
| C92 | orthonormal families and their projections over lists of reals, the shapes of cells case by case; lattice vectors of C32 for positions |
| C93 | least elements of lists of lists; the shortest axis is itself a distance of the crystal |

## Layout

* `Base.v` results and exceptions, `Num.v`/`NumR.v`/`Complex.v` number classes and instances.
* `Model/*.v` the code.  `Spec/*.v` vocabulary for the statements, independent of the model's helpers
  as far as types allow.  `Proofs/*.v` lemmas.  `Props/Cxx.v` the theorems.
* `tools/refresh.py` regenerates `_CoqProject` and `MANIFEST.json`; `tools/mutate.py` runs wrong
  programs against the theorems and appends to `seeded/LOG.jsonl`; `tools/assumptions.py` prints the
  table of the next section.

## Assumptions (output of `tools/assumptions.py`)

* C01-C07, C09-C19, C25, C27-C31, C35, C44-C46, C49, C51, C61, C65, C67, C68, C73, C79, C82, C87, C90, C91: closed under the global context
* C08: `ClassicalDedekindReals.sig_forall_dec`, `FunctionalExtensionality.functional_extensionality_dep`
* C20-C22, C24, C26, C32-C34, C37-C39, C41, C42, C48, C50, C52, C53, C55, C60, C64, C66, C70-C72, C74, C80, C83, C85, C88, C89, C92, C93: those two and `ClassicalDedekindReals.sig_not_dec`
* C23, C36, C40, C43, C47, C54, C56-C59, C62, C63, C69, C75, C76, C77, C78, C81, C84, C86: those three and `Classical_Prop.classic`

All of them come from the standard library (`Coq.Reals`, `Coq.Logic`).

## What is modelled

Paths relative to `src/pypolymlp`.

| file of the model | code |
|-------------------|------|
| Model/Structure, StructureUtils | core/data_format.py (structure, reorder), core/dataset_utils.py (type replacement, atom permutation), utils/structure_utils.py, utils/supercell_utils.py, core/displacements.py, core/strgen.py (part) |
| Model/DatasetDFT, Dataset, DatasetLines, Split | core/dataset_utils.py (DatasetDFT), core/dataset.py, core/parser_polymlp_params.py (data sets), core/utils.py (split) |
| Model/Accuracy | mlp_dev/core/eval_accuracy.py (errors, keys, files), core/utils.py (rmse) |
| Model/Poscar | utils/vasp_utils.py (write_poscar_file), core/interface_vasp.py (Poscar), utils/phonopy_utils.py (phonopy_cell_to_structure), core/interface_openmx.py (_assign_types) |
| Model/Readers | core/interface_vasp.py (set_dataset_from_vaspruns, parse_properties_from_vaspruns, Vasprun, VasprunMD, check_vasprun_type, _is_convergent), core/interface_yaml.py (SSCHA results, electronic properties) |
| Model/Parser | core/parser_infile.py, core/utils.py (strtobool), force tags of core/parser_polymlp_params.py |
| Model/ParamFlags, SpinParams, GaussParams, HybridTypes | core/params.py, core/data_format.py (parameters), core/params_utils.py (Gaussian tables), cxx/src/compute/py_hybrid_model.cpp (types) |
| Model/PotentialFile | core/io_polymlp_yaml.py, cxx/src/polymlp/polymlp_parse_potential.cpp (yaml), cxx/src/compute/py_params.cpp |
| Model/HybridFile | core/io_polymlp.py (save_mlps, load_mlps), core/params.py (append), calculator/properties_hybrid.py (construction) |
| Model/Regress, Batch, CG, Weights, Hybrid, Index | mlp_dev/core/*.py, mlp_dev/standard/{fit,solvers}.py, mlp_dev/gradient/solvers_cg.py, core/io_polymlp.py (coefficients), cxx/src/compute/{py_model,py_hybrid_model}.cpp (rows) |
| Model/Cxx, Mapping, ModelParams, Features, Potential | cxx/src/polymlp: mapping, model_params*, features*, products, potential |
| Model/Radial, Harmonics | cxx/src/polymlp: basis_function.h (Gaussian, cosine cutoff), spherical_harmonics, functions_interface |
| Model/Neighbor | cxx/src/compute: neighbor_cell, neighbor_half, neighbor_full |
| Model/Compute, Eval | cxx/src/compute: local, local_pair, model, polymlp_eval |
| Model/Properties | calculator/properties_single.py, properties_hybrid.py, compute_features.py, cxx/src/compute/py_properties_fast.cpp |
| Model/Fit | mlp_dev/standard/{fit,solvers}.py, mlp_dev/core/{utils_model_selection,data_utils,api_mlpdev}.py |
| Model/HarmonicReal | calculator/sscha/harmonic_real.py |
| Model/Tensor, Elastic, FC2, SSCHA, Optimize, Composition | calculator: compute_elastic.py, opt_geometry.py, sscha/sscha_core.py, utils/{fc_utils,rotation_utils,composition_utils,properties_utils,ase_calculator}.py |
| Model/Polyfit | calculator/utils/fit_utils.py |
| Model/ThermoGrid | calculator/thermodynamics/{thermodynamics_parser,thermodynamics_grid}.py (without the fits), calculator/sscha/sscha_restart.py (units) |
| Model/TI | calculator/thermodynamics/ti_utils.py, thermodynamics_parser.py (load_ti_yamls) |
| Model/MD | calculator/utils/ase_calculator_ref.py, calculator/md/ase_md.py (_calc_averages) |
| Model/TIRun | calculator/md/api_ti.py, api_md.py (alpha, run_md_nvt, set_ase_calculator), md_utils.py |
| Model/Equilibrium | calculator/thermodynamics/thermodynamics_utils.py, api_thermodynamics.py (evaluation), thermodynamics_io.py; calculator/utils/eos_utils.py |
| Model/Transition | calculator/thermodynamics/transition.py; fit_solve in calculator/utils/fit_utils.py |
| Model/Develop | mlp_dev/pypolymlp.py; mlp_dev/core/dataclass.py; save_mlps in core/io_polymlp.py |
| Model/Disorder | postproc/disorder_utils.py; _eval_single and load_lattice in postproc/disorder.py |
| Model/Hull | calculator/compute_formation_energies.py |
| Model/Tables | polyinv/binary/convert_binary.py, check_binary.py; cxx polymlp_gtinv_binary, polymlp_gtinv_data, polymlp_read_gtinv |
| Model/Projector | polyinv/polyinv_utils.py, api_polyinv.py, projector.py; polyinv cxx projector, precondition |
| Model/BasisFunctions | cxx/src/polymlp: basis_function.cpp, get_fn_ of functions_interface (choice of the kind) |
| Model/ForceConstants | calculator/fc.py; core/displacements.py (random displacements); api/pypolymlp_calc.py (init_fc, run_fc, save_fc) |
| Model/EOS | calculator/compute_eos.py; compute_phonon.py (PolymlpPhononQHA.run); structure_utils.isotropic_volume_change |
| Model/Calc | api/pypolymlp_calc.py (histories); calculator/properties.py (choice and record) |
| Model/Grid | utils/grid_search/*.py; core/parser_polymlp_params.py (what set_params reads); data_format.py (penalties) |
| Model/SSCHARuns | calculator/sscha: sscha_params.py, api_sscha.py, sscha_core.py (construction, initial force constants), api_properties.py, sscha_utils.py; api/pypolymlp_sscha.py |
| Model/YamlFiles | utils/yaml_utils.py, calculator/sscha/sscha_io.py, sscha_restart.py (reading, energies), core/interface_yaml.py (parse_property_yamls), with PyYAML for the lines that occur |
| Model/Matcher | calculator/utils/structure_matcher/matcher.py, with exact arithmetic |
| Model/SymStructures | utils/spglib_utils.py L45-84, L142-289, core/strgen_sym.py L14-135; spglib, symfc and random numbers as functions |
| Model/NearestDistance | utils/structure_neighbor.py L56-80; lists of distances given |
| Model/Divide, GridOptimal | utils/dataset_divide*.py, utils/grid_optimal.py |

## What is not modelled

* Floating point rounding, NaN, infinities, integer overflow; OpenMP scheduling (parallel loops write
  disjoint entries); the file system, YAML/XML/HDF5 libraries, numpy's BLAS.
* The binary tables of invariants are parameters.  Theorems state what they need
  (`gtinv_table`, `invariant_table` in `Spec/`).  A script checked the eight shipped tables: sum of l even, sum of m zero,
  l ascending, |m| <= l, conjugation symmetry to 1e-8, ladder (L = 0) condition to 3e-13.
* Thresholds such as 1e-20 on radial values are a parameter `tol`; derivative theorems take `tol = 0`
  because a skipped term makes the code's function discontinuous.
* scipy, phonopy, symfc, spglib, LAMMPS, ASE: parameters where they appear.
* polyinv/eig_solver.py (eigenvectors), polyinv_io.py, md (LAMMPS and ASE drivers), auto (plots and web pages), v1_bak/v2_bak, misc, dev.

## Findings: behaviour the proofs rule out or pin down

Proved as `_refuted` or as exact characterisation:

* C05: a missing spin channel or element shifts the types of the others.
* C06: the single-string (phono3py) path subtracts atomic energies twice; re-reading the files of one
  data set leaves energies unlowered.
* C07: a negative batch size processes nothing.  C09: at the feature-count threshold the lower blocks
  of the normal matrix stay zero.  C13: the CG solver returns its last iterate, not the best.
* C20, C21: very short translations; very flat cells miss neighbours inside the cutoff.
* C24: unit conversion of a potential with invariants changes only one of two copies.
* C25, C27: shared parameter object doubled twice; sscha data keep stress; flags can stay mixed.
* C26: `n_gaussians <= 2` fails; distances given for both orders of a pair overwrite each other.
* C28: pair tables are not renumbered when elements of a sub-model are re-sorted; spin-doubled
  sub-models lose atoms.
* C32: refined positions lie in (-tol, 1-tol].  C33: long displacements do not round-trip.
* C36: skipped or MD files misalign the division; positive energies raise; one group raises.
* C37: kept grid models may be dominated by models off the hull.
* C38: off-diagonal elastic constants come from the later strain loop.  C39: left-handed cells get an
  improper rotation.
* C40: gradient handed over ignores its argument; volume-only gradient lacks 1/V.
* C42: mixing 1 always counts as converged.  C44: ASE stress order.  C45: truncated lists accepted.
* C61: a phono3py line of the input file ignores its own force flag and weight; imaginary SSCHA results
  keep full weight when given as several file sets or on a data_md line.
* C64: the C++ reader (LAMMPS) of a spin-enabled potential has one type per element although the model has
  two, with a doubled mass list; an empty index list stops it (not written by the parameter parser).
* C65: files of hybrid potentials carry `type_full: 1` for every sub-model (the copy of the arguments is
  written, not what the hybrid set).  `PropertiesHybrid(pot=[...])` then raises for structures with an
  element that one sub-model lacks.  The element order of a file is the given one, the masses follow the
  common order, so a sub-model in another order is evaluated with its types exchanged.  `load_mlps` appends
  file by file and fails when a first part of the list is not covered by its own longest element list.
* C66: data sets of one name keep one entry of errors; names that differ in `.`, `-`, `/`, `*` or a leading
  `../` share a prediction file.  The direction error of forces with the wrong sign is zero.  A log of
  forces the data lack, or an unknown stress unit, is an UnboundLocalError.
* C67: `write_poscar_file` names a block after its first atom, so structures whose blocks mix elements come
  back with other elements (also those of OpenMX whose elements are not in alphabetical order).
  `phonopy_cell_to_structure` numbers the types by blocks of counts: wrong types if equal elements do not
  stand together.  `Poscar` does not look at the coordinate type: Cartesian coordinates are taken as
  fractional.  A newline in the title makes the file unreadable.
* C68: of a relaxation the final structure gets the energy, forces and stress of the first ionic step.  One
  unreadable file ends the reading: `check_vasprun_type` parses before the `try` that would skip it.
  `extract_electron_properties` shifts the properties when a file lacks the temperature; the data set
  constructor then raises.
* C69: `HarmonicReal.run` ignores `eliminate_outliers`; when every sample is an outlier it is an IndexError
  (cannot happen if all energies are positive).  Modes below 0.1 THz, also strongly unstable ones, get the
  amplitude 0.01.  `SSCHADistribution.energies` and `static_potential` are documented as eV/supercell but are
  kJ/mol per unit cell.
* C70: `compute_rmse` does not hand `check_singular` on: when every factorization fails, `fit` returns
  coefficients 1e30 silently.  If only the test data have forces, features with a scale between 1e-20 and
  1e-10 are switched off in the test error but used by the potential.
* C71: the last point of a learning curve leaves out up to nine structures (N = 25: 24).  Without
  forces `PolymlpDataXY.slice` starts at row -1 and mixes in wrong rows; the curve always ends in an
  IndexError.
* C72: with weights, `fit` compares orders by the leverages of the unweighted fit and can take an order
  whose weighted leave-one-out error is larger.  Near zero `eval_derivative` replaces the slope of the
  square root by 1/2.  An order that interpolates the data, or a score of 1e10 and more, is never chosen; when
  no order is left (three records or fewer) the fit ends in a TypeError from np.arange(None).
* C73: temperatures are counted after rounding to integers but placed after rounding to three decimals,
  so a datum at 300.4 K makes a column it is not in.  A later unconverged result takes the place of a
  converged one.  All empty points of a grid are one object and collect a structure in sums.
  `Restart.volume` is a signed determinant, negative for left-handed cells.
* C74: `load_ti_yaml` tests the energy of the file against -100 as if it were per atom, but `save_ti_yaml` writes
  that of the supercell (only the fallback divides by the number of atoms): large supercells are dropped as failed.
* C75: free energy perturbation (`ase_md.py` L300) takes `beta = KbEV * temperature` where 1/(KbEV T) is meant: at 1000 K it evaluates -(1/b) ln<exp(-b dE)> at b = 0.086 instead of 11.6 per eV, so that hardly anything but the first order is left. Refuted: C75_beta_refuted; the value reported lies between the right one and the mean (C75_perturbation).
* C76: `PolymlpMD.alpha` constructs a RuntimeError for values outside [0,1] without raising it; `run_md_nvt` does nothing for an
  unknown thermostat, so that a second integration with a misspelt one returns stale averages as results; `set_ase_calculator`
  leaves `_use_reference` set; `save_ti_yaml` works with the harmonic reference only.
* C77: one temperature without acceptable equation of state makes `eval_cp_numerical` subtract None and `ThermodynamicsData.run`
  raise TypeError; one failed fit makes saving raise AttributeError although the writer has a branch for it;
  `Thermodynamics.eval_heat_capacities` reads an attribute that is never set; `load_thermodynamics_yaml` refuses the word None that
  the writer prints.
* C78: `find_transition` ignores the convergence flag of `fsolve` and reports a temperature also when one phase is stable everywhere,
  or far outside of the data; `compute_phase_boundary` takes the largest of the maximum pressures over temperatures while the
  common range that is printed takes the smallest, so free energies are extrapolated at other temperatures.
* C79: the fitted model keeps a reference to the parameters of the developer object: `set_datasets_phono3py` or `set_datasets_electron`
  after a fit set `enable_spins` to None (before any file is read) and `save_mlp` then writes a potential without spins; the
  fields `error_train`, `error_test` of PolymlpDataMLP are commented out, so that `save_errors` without an estimate raises
  AttributeError; `include_force` is never switched on again after data without forces.
* C80: `int(round(n * prob))` need not sum to the atoms of the sublattice: ValueError from `random.sample`, or atoms of the bare lattice
  left over, whose type is one of the potential's and whose name `sort_wrt_types` mixes with it; `st.elements[rep_ids] = ele` cuts
  names to the width of the numpy array of the lattice's names ("Si" in a lattice of "O" becomes "S"); a spin channel that gets
  no atom by rounding is lost in `replace_types`.
* C81: `get_convex_hull` takes vertices of the whole hull of the rows below tol, so rows slightly above zero and end members above a
  lower pure structure are reported as stable; `np.isclose` to an end member at exactly the tolerance hides the element;
  flat data raise QhullError; `compute(..., names=...)` drops the given names and keeps those of the previous call;
  `_get_n_atoms` ignores atoms of elements that are not in the potential.
* C82: `GtinvData::parse` checks neither the magic bytes nor the types of the blocks nor the end of the file (`ifs.good()` is asked before
  the first read); after a short read values come from uninitialised arrays.  `Readgtinv::screening` tests the last l of a row only.
* C83: `run_enum` accepts order one and `eliminate_odd=False`; `build_projector` then throws ("Order >= 9", odd sum).
* C84: `gto`, `morlet` pass arguments of `gauss` in the old order (value and derivative do not fit); `bump_cutoff_function_d` is another function than `bump_cutoff_function`, its derivative lacks 1/cutoff; an unknown pair type leaves old values in place.
* C85: `PypolymlpCalc.run_fc` ignores `disps` and `forces` (given both, a fresh object ends in AttributeError); `PolymlpFC.__init__` overwrites displacements read from phono3py.yaml with None; `run_fc` builds RuntimeErrors without raising them; force constants of an earlier run survive and are saved with later ones.
* C86: `PolymlpEOS._set_eps` leaves the range asked for if it lies above 1.1 or below 0.9; a run without a fit writes the equilibrium of earlier data; `isotropic_volume_change` uses the exponent 0.3333333333333, so that the volume field and the cell differ; an empty QHA range ends in UnboundLocalError.
* C87: Values of `PypolymlpCalc` after `run_eos`, `run_phonon` or an optimization are those of the last structures evaluated inside; objects sharing a `Properties` overwrite each other's values; after a failed `init_phonon` the run uses the cell of the earlier one; coefficients without parameters end in TypeError.
* C88: `enum_gtinv_models` ignores `maxps` (all models with invariants have `max_p` 2); `PolymlpGridSearch.run` called again repeats all models; `grid` holds objects whose `alphas` are 10 to the start, stop and number of the penalties; `add_complex_models` before an enumeration ends in AttributeError.
* C89: `PypolymlpSSCHA.run` on a new cell starts from the force constants of the last run and ignores `init_fc_algorithm` (C89_reuse_refuted); `run_sscha_large_system` that fails leaves `cutoff_radius` 6; after `run_geometry_optimization` the properties are those of an earlier run; `load_restart` with its default file name looks for `/fc2.hdf5`; `n_samples_init` alone leaves `n_samples_final` None; temperatures may exceed `temp_max` (by less than one step and 1 K); Chebyshev temperatures may repeat.
* C90: PyYAML reads `1e-05`, as Python prints it, as a string: `load_data` and `parse_property_yamls` then return forces or stress as strings (C90_strings_refuted), and `Restart.free_energy` raises TypeError (C90_restart_refuted). `save_data` without forces or stress writes a file that `load_data` refuses with KeyError.
* C91: `normalize_positions` is not invariant under translations that are not on the grid of the kept decimals: rounding decides which origin is chosen, and the result changes by far more than the last decimal (C91_translation_refuted).
* C92: `SymCell.refine_cell` drops atoms whose type is not below the number of entries of n_atoms (C92_refined_refuted); `StructureGeneratorSym.basis_sets` raises AttributeError when the axis or the positions are fixed.
* C93: `find_minimum_distance` raises ValueError for structures of several kinds of atoms when an atom has no neighbour of some kind within the shortest axis (C93_refuted).

Seen while reading, not proved:

* `compute_ylm_der` reads one element past its array for lmax = 0 (multiplied by zero).
* `np.argmin` picks NaN scores.
* Types without features read `dfx[0]` of an empty vector.  Deprecated `gto`/`morlet` swap arguments.
* `deriv_algo1` fills fields in the wrong order (unused).  `find_mlps` sorts names as strings.
* `load_mlp_lammps` can use unbound variables.  Poscar reader ignores Cartesian mode.
* Hybrid potentials whose longest element list lacks an element of another are rejected.
