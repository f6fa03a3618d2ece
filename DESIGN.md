# Formal model of mockfactory in Rocq

## 1. What is built

`/verif/rocq/theories` holds a Gallina model of the Python package in `/repo`, small independent
specifications, and machine-checked proofs of the properties listed in `properties.jsonl`.

| layer | files | content |
|---|---|---|
| base | `Base.v`, `Vec3.v` | decidable comparisons on R, results with exceptions, 3-vectors and 3x3 matrices |
| model | `*_Model.v` | the code, function by function; every definition cites file and lines of `/repo` |
| specification | `*_Spec.v` | what the user is promised, stated without the model's helpers |
| proofs | `*_Proof.v` | lemmas |
| theorems | `*_Thm.v` | one theorem per claim, closed by `exact`, with `Print Assumptions`, and an `Example` showing that the hypotheses are met |

Naming: a theorem `Cnn_name` is a claim of property `Cnn`. The suffix `_partial` marks a theorem that covers only part
of the property; the suffix `_refuted` marks a proof that the property, as a user would state it, is false of the code:
the theorem exhibits the input. A refuted property is then also proved under the restriction under which it is true.

## 2. Modelling decisions (all part of the trusted base)

* **Numbers.** Python floats are modelled by Coq's real numbers `R`. Rounding, overflow, NaN and infinities are not
  modelled, except in `Round_Model.v` (C81), `Drift_Model.v` (C83), `Cut_Model.v` (C95), `Slip_Model.v` (C99), `Astro_Model.v` (C101) and `Wobble_Model.v` (C102), where a rounding function is applied after every operation (in `Wobble_Model.v` also IEEE double precision itself), and in `Smear_Model.v`, which has infinities. Where numpy would produce NaN/inf by a division by zero the model returns an error value instead.
  Python integers are `Z` or `nat`.
* **Arrays.** `(N, 3)` arrays are lists of triples; one-dimensional arrays are lists. numpy broadcasting is written out,
  and where its rules make a difference (shape errors, accidental broadcasting) the model contains the rule.
* **Exceptions** are values (`Err`), or, for methods that mutate before they raise, a pair (new state, outcome).
* **Mutation** is a function to a new state. Where two Python objects share one array (aliasing) and it matters, the
  model has an explicit store.
* **MPI.** A distributed array is a list (one entry per rank) of lists. The collective operations of mpytools
  (`csort`, `cconcatenate`, `gather`, `allreduce`, slicing) are modelled by their documented effect on the concatenation over ranks.
* **Randomness.** Random streams are arguments: theorems quantify over all of them, with draws in the interval the
  generator documents (e.g. `[0, 1)` for `uniform`).
* **External packages** (scipy splines, brentq, healpy, pymangle, fiberassign, desimodel, cosmoprimo, pypower/pyrecon, pmesh FFT)
  are function arguments. What is assumed of them is a hypothesis of the theorem that uses it.

## 3. Plan per property

| id | model | statement and proof |
|---|---|---|
| C01 | state (R, T) of `EuclideanIsometry`, an inductive type of API calls, interpreter | invariant `R` orthogonal with det 1 by induction on the history; distances and triple products preserved, stated on points only |
| C02 | `transform` with the flag | linear algebra; independence of translation calls |
| C03 | `concatenate`, `extend`, `__add__`, `__radd__` | induction on the list, equality with `fold_left` of transforms |
| C04 | `rotation_matrix_from_two_vectors` incl. in-place normalisation | Rodrigues identity by field reasoning; refutation for opposite vectors |
| C05 | `_get_los`, `rotation_matrix_from_vector_angle` | ring/field with sin/cos addition formulas |
| C06 | `dot`, `rotation`, `translation`, `reset_rotation` with frame strings | spec says what happens to points; refutations for `rotation(frame=...)` and failing `dot` |
| C07, C08, C09, C10 | `utils.py` | arctan2 written out from `atan`; case analysis on the quadrants; `wrap_angle` via floor |
| C11 | `trunccauchy_gen` | atan/tan calculus, derivative via `Coq.Reals` |
| C12, C13, C14, C15 | `BoxCatalog` with list of rows | signed permutation matrices for quarter turns; list filters; refutation for `pad` and for `rotate(axis=None)` |
| C16 | grid arithmetic of `isometry_for_cutsky` | floor inequalities, real arithmetic; refutation when only one margin is given |
| C17 | filter by conjunction of masks | list lemmas |
| C18, C19 | `box_to_cutsky`, `cutsky_to_box` | trigonometric inequalities; refutations for corners and the full circle |
| C20 | `rsd_position` with numpy broadcasting | per-row spec; refutation for callable `f` |
| C21, C22, C23 | `Cuboid`, `Cell`, `Plane` | Gram-Schmidt algebra, lattice arithmetic; refutation for a sign-flipped basis; Hadamard's inequality with its case of equality for the volume (`Exact_Thm.v`) |
| C24, C25 | `gcd`, `coprime_triples`, `generate_lattice_vectors` on Z | number theory by induction; completeness up to the bound |
| C26, C27, C28, C29, C30, C32, C33 | masks | piecewise-linear interpolation model for order 1; refutations where found |
| C31 | the sampling loop with fuel and the final redistribution over ranks | invariant over rounds; partial correctness for every stream, termination when every round accepts something |
| C34, C35, C36 | density estimate, randoms, smearing | finite sums, floor bounds, monotone interpolation |
| C37, C38, C39, C40, C41, C53 | mock generation | per-mode and per-cell algebra; FFT only as a linear map |
| C42, C43, C44, C45, C46 | blinding | permutation and radial-scaling arguments |
| C47, C48, C49, C50 | fibre assignment and completeness | invariants by induction over tiles and passes; permutation independence |
| C51, C52 | brick quantities, footprint | invariant over the bricks of a process, sorting by key and back, uniqueness of the result over distributions; counting and monotonicity of filters; refutations for mixed types, partial callables, image edges and environment variables |
| C54, C55 | isometry objects with a store of arrays | aliasing followed in the store; refutations |
| C56 | `BoxCatalog.remap` on top of C21 | rotation found from the orthonormal basis |
| C57 | displacement of `LagrangianLinearMock` | per-mode algebra |
| C58 | `get_z` | weighted means |
| C59 | shot-noise factor of `png` | quadratic equation |
| C60 | `DistanceToRedshift`: grid `0, 10^-8 ... zmax`, spline as argument, order 1 computed | interpolation lemma on increasing lists; refutation for cubic splines (overshoot) |
| C61 | `TracerRedshiftSmearingRVS`: files as lists of rows, sort, concatenation | induction over the files; refutations for unknown tracers |
| C62 | `TracerRedshiftSmearing` on top of the smearing model (C36) | the two tables agree, weights sum to one; mixture identity; units by field reasoning |
| C63 | `_compensate_mesh`: modes as functions of frequencies | sinc positive on (-pi, pi): calculus on sin; per-mode algebra |
| C64 | `readout` of both classes, mesh readout as linear argument | algebra; refutation for `compensate` of Lagrangian mocks |
| C65 | mock object as a record of optional attributes, interpreter of calls | invariant over histories; refutations |
| C72 | `ArrayMesh` up to the name that is not defined | refutation by case analysis |
| C66 | region functions with strings | case analysis on names, linear arithmetic; refutation for N+SNGC and N+DN |
| C67 | steps of the script on rows, on top of C17, C20, C28, C52 | list filters; refutation: `wrap` is not an argument of `cartesian_to_sky` |
| C68 | sky-target branch of `fiber_assignment_v0` | list lemmas; refutations for unsorted tables and for dropped argument |
| C69 | `build_tiles_for_fa` | filters |
| C70 | `stuck_on_sky_from_fafns`, file names | association lists, bits of integers, decimal digits |
| C71 | `catalog_fn`, `get_region`, `get_edges` | injectivity of joined decimal numbers; refutation for the missing global |
| C73 | `TabulatedRadialMask` of order 2 and more: splines with two derivatives as argument, Newton loop with fuel and NaN | contract of splines (nodes, homogeneity, polynomials reproduced); refutations: the search does not end, does not find the maximum, looks outside of the range |
| C74 | `remap_the_box` on top of C12, C25 and C56 | composition of the two quarter turns; all bases that are asked for have the same size in exact arithmetic (norms are square roots of integers); objects land in the box for bases starting with (1, 1, 1), computed counterexample for another |
| C75 | streams as functions of the seed, calls without seed read an oracle | equality of outputs; refutation for `sample`, whose mask is called without seed |
| C76 | `fiber_assignment_v0.apply_fiber_assignment` next to the current version | refinement: one run for all tiles of a process equals the runs tile by tile, under the contracts of C47-C49 |
| C77 | collective calls of the functions that communicate, as programs that ask for collective operations | lockstep execution; every process makes the same calls: invariants by induction on loops; refutations for calls made by some processes only |
| C78 | weights, mean and covariance of `covariance_from_desi_sv3_cutsky.py`; pair counts are arguments | finite sums; the quadratic form of the covariance is a sum of squares |
| C55, C79 | memory of arrays with addresses and types; every function written with loads, stores in place and new arrays, np.asarray as a reference, np.array as a copy | frame rule: a call writes to new arrays only; results compared with those of the models on values; simulation between a memory of integers and the same memory in floats; refutations |
| C80 | mocks and catalogs as references to arrays, with or without copies by mpytools | invariant of all histories: no address of a catalog is written to by others; refuted when references are shared |
| C81 | the few functions whose guarantees hang on rounding, with a rounding function after every operation; rounding to nearest of Flocq with 53 bits, with or without underflow | monotone and idempotent rounding for bounds; relative errors of Flocq; square root of a rounded square; refutations at the upper limits and under underflow |
| C82 | draws of all processes and rounds as a function of (round, process, number); average over all such functions with values in a finite list; `sample` as in C31 | sum over all patterns of acceptance: the objects returned are at distinct places fixed by the pattern (naturality of `sample`), so that averages factor; counting of multiples of a step below a bound |
| C83 | `EuclideanIsometry` with a rounding function after every operation | error bounds by induction over the calls, norm of a product of matrices; distances by the triangle inequality |
| C84 | fields of the Gaussian mocks as functions of the noise (`Mock_Model.v`, `Mesh_Model.v`), noise as a random variable | expectation = any linear functional on functions of the seed, with value 1 on 1; contract of the noise: second moments; bilinear sums, orthogonality of plane waves, inverse transforms |
| C85 | `poisson_sample` (`Mock_Model.v`), counts as random variables | same expectation; counts of positions per cell from C39, then second moments of a Poisson law |
| C86 | main part of `desi/from_box_to_desi_sv3_cutsky.py` (`Rosette_Model.v`), on top of `remap`, `box_to_cutsky`, `isometry_for_cutsky`, `cutsky_from_isometry` and `rsd_position`; files as a list of names and catalogs | composition of the isometries in the frame (line of sight, east, north); rows followed through each step; means over independent numbers of `Law_Spec.v` for the thinning |
| C87 | `get_cosmo`, `CutskyCatalogBlinding.__init__` and the procedure of its documentation (`Proc_Model.v`), on top of `get_cosmo_blind`, `png_weights`, `rsd` and `ap` of `Blind_Model.v`; cosmoprimo's constructors, `clone`, reconstructions and meshes are arguments | each step followed on the catalogs by the lemmas of C42, C43, C45 and C46; witness for the call as documented, which does not give the redshift that the growth rate needs, and for the density parameter, which is read at that redshift |
| C88 | `_run_assign_init` with its two inner functions, the arguments that `_run_assign_full` gives to fiberassign, one tile and one pass (`Job_Model.v`): a run is the record of what fiberassign is given; files, times and rotations are arguments | one record per tile, by cases on the options and induction over the tiles; the attribute `names` of the table is an argument too: astropy tables do not have it, which raises when no date is asked for |
| C89 | the whole Lagrangian chain of `Mock_Model.v` (`set_real_delta_field`, `displacement`, `lagrangian_sample`, `lagrangian_set_rsd`) with the density field scaled by a small number; Poisson numbers and positions in cells are averaged over; pmesh's interpolation is any one with non-negative weights of sum one that depend on the position in the cell only | a mode of the catalog is a sum over objects of plane waves; averaging turns it into a sum over cells; plane waves are expanded to second order (cos and sin bounds), the linear terms are discrete Fourier transforms of the density and of the displacement, and the latter gives (1 + f mu^2) by C57; the constant of the bound is explicit in the proof |
| C90 | `_write_all_skytargets` and `read_sky_targets` of `fiber_assignment_v0` (`Arch_Model.v`): a directory is a list of named files; a run is the list of its writes, in order, so that an interruption is a prefix; order of listings and sharing of rows between files are arguments | the files read after a run are those it wrote plus those it did not overwrite (exact, from any directory), by induction on writes; names of different catalogs do not clash by a lemma on decimal numbers and dashes; refutations for left-over files, equal names, paths with a dot |
| C91 | the functions of `Mock_Model.v`, `Mesh_Model.v`, `Sky_Model.v`, `Cutsky_Model.v`, `Isometry_Model.v`, `Box_Model.v`, `Rsd_Model.v`, `Remap_Model.v`, unchanged; conversion of units for each type of argument and result is defined in `Unit_Spec.v` | each function commutes with the conversion; histories of calls and isometry programs by induction (simulation between the two runs); functions on meshes are compared with functional extensionality |
| C92 | the functions of `Mock_Model.v`, `Mesh_Model.v`, `Box_Model.v`, `Rsd_Model.v`, `Remap_Model.v`, unchanged; what moves with a box (center, positions and other vectors that are not translation-invariant, limits of cuts) is defined in `Move_Spec.v` | each call commutes with the move (simulation); histories by induction, the vector being turned by rotations and forgotten by recentring; cut skies: the isometries made for a moved box undo the move |
| C93 | the functions of `Box_Model.v`, `Rsd_Model.v`, `Remap_Model.v`, unchanged; selection of rows by a list of indices is defined in `Rows_Spec.v` | each call that keeps rows commutes with selecting rows, by induction on columns and rows, and sequences of calls by induction; calls that select rows: the selected rows of a selection are found with a mask computed row by row |
| C94 | the functions of `Box_Model.v`, `Isometry_Model.v`, `Rsd_Model.v`, `Blind_Model.v`, unchanged; opposite moves are in `Undo_Spec.v` | one move and its opposite give the same catalog (columns and rows by induction, the box by the sizes of quarter turns), histories by induction from the middle; line of sight directions do not change by displacements along them; C33_back for masks |
| C95 | `subbox` with every operation rounded (`Cut_Model.v`), on the catalogs of `Box_Model.v`; rounding as in C81: a function that keeps order and numbers of the format; for accuracies, one with a relative error; for witnesses, double precision | the rounded cut selects the rows of the exact cut with limits given by the rounded ones, so that C14 applies; rounded limits of a grid are in order; errors of limits are summed; refutations: a box of side 1024 centered near the origin, of which the sub-box (0, 1) loses an object, and a cut whose new box leaves out an object kept |
| C96 | the functions of `Sky_Model.v`, `Rsd_Model.v`, `Blind_Model.v`, `Box_Model.v`, `Mock_Model.v`, unchanged; turned catalogs and the six relabellings of axes are in `Axes_Spec.v` | orthogonal matrices keep products, of which the functions are made; right ascension: the angle of a turned point is unique modulo a turn; relabelling: each call commutes with it, histories by induction; sums over a mesh are reordered |
| C97 | `box_to_cutsky`, `ctb_boxsize` and `cutsky_to_box` of `Cutsky_Model.v`, unchanged | each branch of one function is followed through the branches of the other; arcsin and arccos are inverted on the ranges they return; ranges wider than half a turn, the half turn with a minimum distance and reversed distances are excluded and refuted |
| C98 | `step`, `run`, `mock_new` and the readouts of `Mesh_Model.v`, `Mock_Model.v` and `Rsd_Model.v`, unchanged | an invariant of three mocks (same box, mesh, center, selection; fields in the linear relation) is kept by every call, by induction on the history; c2r, r2c, kernels and readout are linear sums; distortions are composed from the C20 theorems; the lognormal transform, callable biases and nbar*(1+delta) are refuted |
| C99 | `translate`, `recenter` and `rotate` with every operation rounded (`Slip_Model.v`), built from `Drift_Model.v`; the catalogs of `Box_Model.v` | one rounding per coordinate since products with the rows of the identity are exact; bounds by induction on the history, with the steps of C83 and one more for the angle, k pi / 2 rounded; containment from the exact theorems C12 and C13; a witness in double precision that moving back may miss the start |
| C100 | main part of `desi/from_box_to_desi_cutsky.py` (`Desi_Model.v`), on top of `Script_Model.v`, `Region_Model.v`, `Random_Model.v`; the call of `cartesian_to_sky` is a parameter: as written (`wrap=True`) and as meant; files as a list of names and tables; random numbers by seed, sharing of rows between files and footprints are arguments | as written the run always stops before the first file; as meant: induction on the regions for the files, rows followed through each step with C67, the placement with the lemmas of C86, randoms with C28 and C31; a witness that data leave the limits of the randoms |
| C101 | `cartesian_to_sky` and `sky_to_cartesian` with every operation rounded (`Astro_Model.v`), on top of `Round_Model.v`; cos, sin, arcsin and arctan2 of the library are arguments with an accuracy | relative errors of the distance and of the sine, then two bounds on the arcsine: the square root of the error everywhere, the error over the cosine away from the poles; remainders of angles below a turn take no quotient; round trip from the exact one (C07) and Lipschitz bounds; two positions near the pole with the same computed coordinates refute a bound in proportion to the precision |
| C102 | `Cuboid` written once for any arithmetic (`Wobble_Model.v`: a record of operations), with three instances: real numbers, real numbers rounded after every operation, IEEE double precision (the standard library's `SpecFloat`) | with real numbers it is the model of C22, C23; rounded: induction along the loop over cells, if every face that decides is farther than a margin, same cells and an image within a bound; without that, an image of some periodic copy or an error; double precision: positions of the box for which the error is raised, by computation in the kernel; and, without computation, the IEEE transform is that of real numbers rounded after every operation as long as sizes exclude overflow (relation between bit patterns and reals, kept by each operation by Flocq's correctness theorems; the standard library's operations proved equal to Flocq's), so the two statements above hold for IEEE double precision; if what is stored is within `delta` of the exact cuboid, faces are at most `(3 b + 1) delta` away: a walk far enough from exact faces is one far from stored faces, so positions of the box are found; for one sheared box this is checked of what the constructor stores, and there rounding is odd and faces come in opposite pairs, so no position is lost |

Properties that cannot be expressed in this model: statistical quality of the generator itself (C82 takes its numbers as independent
and equally likely), accuracy of splines against the true function, FFT numerics, file formats and logging.

## 4. Trusted base

* Coq 8.16.1 kernel (and `coqchk`).
* Axioms reported by `Print Assumptions`: only those of the standard library's real numbers
  (`ClassicalDedekindReals.sig_forall_dec`, `ClassicalDedekindReals.sig_not_dec`,
  `FunctionalExtensionality.functional_extensionality_dep`, and `Classical_Prop.classic` where `Coq.Reals` lemmas use it). Theorems about
  integers and lists only are closed under the global context.
* Flocq's definition of rounding to nearest in double precision (`Round_Spec.v`); its proofs are checked with ours and add no axiom.
* The modelling decisions of section 2.
* The contracts below, which are hypotheses of theorems (never axioms).

### Contracts of external code

| package | contract | used in |
|---|---|---|
| numpy | operations on lists item by item; length-one broadcasting is modelled only where the code relies on it | everywhere |
| scipy splines | of order 1: piecewise-linear interpolation, computed in the model (radial masks); of order 3: a function through the nodes (`interpolates` in density, `cubic_spline` in smearing, `scipy_spline` in distances) | C26-C30, C34, C36, C60, C62 |
| scipy `brentq` | returns a root between the bounds given, if the signs differ there (`root_finder`) | C28 |
| scipy `truncnorm`, distributions | inverse of the distribution function, increasing; supports of the distributions used for tracers, increasing there (`scipy_laws`) | C11, C36, C62 |
| healpy, pymangle | pixel and polygon functions are arguments | C32 |
| mpytools | `csort` with `orderby_counts` keeps the rows and brings the rows of a key together (`shares`, `keeps_rows`); `csort` by index sorts; `gather`, `cconcatenate`, `cslice` act on the concatenation over processes; local sizes and weighted variances are arguments | C14, C31, C34, C47-C51 |
| pmesh | frequencies `proper_freq`, complex fields on the full mesh, `r2c`/`c2r` inverse of each other, particle grid, readout as a weighted sum of the cells with weights of its own for each resampler, summed over the processes that hold the cells (`distributed`) | C37-C41, C53, C57, C63-C65 |
| random generators | streams are arguments; uniform draws in [0, 1), Poisson draws natural numbers, shuffles permutations | C31, C35, C36, C39, C44 |
| pmesh white noise, Poisson generator | on average over seeds: modes (or cells) of the noise of mean 0 and variance 1, uncorrelated (`white`, `white_cells`); Poisson numbers uncorrelated, of mean and variance the mean asked for (`poisson_law`); laws that meet them are in `Ens_Thm.v` and `Ens_Thm2.v` | C84, C85 |
| cosmoprimo | `clone` sets and keeps parameters (`clone_sets`, `clone_keeps`); distances increasing; the distance-to-redshift interpolator is an inverse | C42-C45, C58, C59 |
| pyrecon | displacements depend on the growth rate as documented (`uses_growth`), linear readout | C43, C45, C46 |
| fiberassign, desitarget, desimodel | a fibre is given to one target of the tile and a target gets one fibre (`sound_assignment`, `sound_fibers`); tiles over a point are listed once each (`finds`); a point is inside when a tile covers it (`contains`); `match` finds a unique identifier; results depend on the targets of the tile only (`local`, `own_targets`) | C47-C50, C52 |
| desimodel (SV3 script) | a point is inside when it is near one of the tiles given (`tile_lookup`); the distance-to-redshift function, the selection function and all random numbers are arguments; for the number of data, independent and equally likely numbers on a grid | C86 |
| cosmoprimo constructors, pyrecon (blinding procedure) | named fiducial cosmologies and `Cosmology` are arguments; `clone` with the values of the cosmology gives the same distances (`clone_same`); reconstructions use the growth rate given and their meshes are read linearly (`sound`) | C87 |
| pmesh readout of displacements, generators (first order) | the displacement read at a position is a weighted sum of cells, with weights >= 0 of sum one that depend on the position in the cell only (`interpolation`, `reads`; met by `linear`, cloud in cell); the uniform draws have one law (`same_law`), the Poisson draws have the means asked for (`mean_numbers`) | C89 |
| file system, glob, mpytools' reading and writing of several files | listings give the names in some order (`lists`); rows are shared between the files of a list in order (`shares`); a file written again is replaced; what reading no file gives is an argument | C90 |
| astropy, fiberassign (runs per tile) | times, field rotations and contents of files are arguments; a table may have an attribute `names` or not (astropy's has none, FITS records have one) | C88 |
| scipy.interpolate, splines of any order | through the table, zero outside, homogeneous, exact on parabolas (`splines`); of order 1, straight between redshifts of the table (`straight`); both met by concrete makers | C73, C67 |
| mpytools random streams | the stream of a seed is a function; without a seed it is an oracle (`Seed_Model.v`) | C75 |
| regressis | the footprint of a region is a map of pixels; a pixel of each position (`Region_Model.v`) | C66, C67 |
| desiutil, astropy.wcs | brick of a position and declination of its centre (`one_centre`), pixel of a position | C51 |
| desimodel, regressis, mpytools (DESI script) | the survey is a set of directions for each release, program and number of passes (`sky_area`); the rows of a table are shared between ten files in order (`shares`); numbers of objects are split between processes without loss (`splits`); redshift errors as many as redshifts; the stream of numbers of each seed, distances and redshifts are arguments | C100 |
| libm (sky coordinates) | cos and sin within `d`, arcsin within `d` on [-1, 1], arctan2 of relative accuracy `d` (`library`); every operation of relative accuracy `u` | C101 |
| floating-point operations (remapping) | every operation within `eps` times the result plus `eta` (`rounds`); for the refutations, IEEE double precision as specified in Coq's standard library, elementwise and without fused multiply-add | C102 |
| processor, libm, BLAS | every operation, cosine and sine within a relative error `u`, sums of three products within `g` times the product of norms, in whatever order | C83 (`C83_left`, `C83_double` show that sums from left to right in double precision qualify) |

### What is modelled, file by file

| file | modelled | not modelled |
|---|---|---|
| `utils.py` | `distance`, `wrap_angle`, `cartesian_to_sky`, `sky_to_cartesian`, `radecbox_area`, `vector_projection`, `trunccauchy_gen` with `_rescaling_parser` | `is_sequence`; `truncnorm_gen` beyond its rescaling (scipy) |
| `make_survey.py` | rotations, `EuclideanIsometry`, `box_to_cutsky`, `cutsky_to_box`, `RedshiftDensityInterpolator`, `ParticleCatalog` columns and `rsd_position`, `CutskyCatalog.isometry`, all of `BoxCatalog`, `RandomBoxCatalog`, `RandomCutskyCatalog`, all masks with `sample`, smearing classes with `average`, `DistanceToRedshift` | reading of files by masks (contents are arguments), logging, plotting, pickling |
| `remap.py` | all | `__repr__` |
| `gaussian_mock.py` | `_get_los`, `_transform_rslab`, constructor arguments, `set_complex_delta_field`, `set_real_delta_field`, `set_analytic_selection_function`, `set_real_white_noise`, `poisson_sample`, `_compensate_mesh`, `readout`, `from_complex_delta_field`, `to_nbodykit_mesh`, `to_catalog`, sequences of these calls, `ArrayMesh` up to its first exception | attributes `attrs` other than the normalization; a field in which numpy would leave NaN after a division by zero is an error and leaves the mock as it was |
| `eulerian_mock.py` | all | |
| `lagrangian_mock.py` | all | |
| `blinding/catalog.py` | `_get_from_cosmo`, `get_cosmo_blind`, `get_z`, `_format_positions`, `_format_output_positions`, `ap`, `shuffle`, `rsd`, `png`, `get_cosmo`, formatting of weights, `get_z` with `mpiroot` | float types of outputs are all labelled F8 |
| `desi/fiber_assignment.py` | `build_tiles_for_fa`, `_extract_info_assignment`, `_apply_mtl_one_tile`, one tile, one pass, `apply_fiber_assignment`, `compute_completeness_weight` | inside of fiberassign objects (what they are given by `_run_assign_init` and `_run_assign_full` is in `Job_Model.v`, with `read_sky_targets`); `fafns_for_tiles`, `stuck_on_sky_from_fafns` and `build_tiles_for_fa` are in `Tile_Model.v` |
| `desi/brick_pixel_quantities.py` | `get_brick_pixel_quantities` | the script at the end |
| `desi/footprint.py` | all | the script at the end |
| `desi/redshift_smearing.py` | `TracerRedshiftSmearingRVS`, `TracerRedshiftSmearing` (tables are lists of rows) | reading of files; the script at the end |
| `/repo/desi/from_box_to_desi_cutsky.py` | all functions (`Region_Model.v`, `Script_Model.v`); the table of bases used by `remap_the_box` is an argument where rounding decides; the main part: catalogs, names and contents of all files, seeds (`Desi_Model.v`) | messages; bricks, which a flag in the script switches off; reading of files |
| `desi/fiber_assignment_v0.py` | choice and labelling of sky targets, one pass, `apply_fiber_assignment` (`V0_Model.v`); `_write_all_skytargets` and `read_sky_targets` (`Arch_Model.v`) | exchange of sky targets between processes (rows of all processes are put together); columns of the rewritten files; `compute_completeness_weight`, which is line for line the one of `fiber_assignment.py` but for messages (C50) |
| `/repo/desi/from_box_to_desi_sv3_cutsky.py` | `get_region`, `catalog_fn`, the check of groups, names of files written (`SV3_Model.v`); the main part: placement of boxes, cut-sky, selection, rows and files (`Rosette_Model.v`) | messages; plots and bricks, which flags in the script switch off |
| `/repo/desi/covariance_from_desi_sv3_cutsky.py` | `get_edges`, names of files, weights, mean and covariance (`SV3_Model.v`) | pair counts (pycorr); the plot |
| communication of all these functions | order of collective calls (`Coll_Model.v`): sampling, formatting of positions and weights, `shuffle`, `rsd`, `png`, bricks, fibre assignment (both versions), completeness weights, densities, tabulated masks, `normalize`, `ArrayMesh` | point-to-point messages inside external packages; several communicators at once; computations between calls (arguments) |
| arrays in memory, of all functions on positions and angles | references, copies, operations in place and integer types (`Alias_Model.v`); `to_catalog`, `set_rsd`, `pad` and moves of catalogs as references | views of parts of arrays; whether mpytools' Catalog copies (an argument) |
| rounding in `wrap_angle`, `distance`, `cartesian_to_sky` (the sine), positions in boxes of `RandomBoxCatalog`, `poisson_sample` and `Cuboid.inverse_transform` | every operation rounded (`Round_Model.v`) | overflow; rounding everywhere else |
| rounding in `EuclideanIsometry` (all methods but `rotation_matrix_from_two_vectors`, whose result is an argument) | every operation rounded (`Drift_Model.v`); the sums of products of `np.dot` and `tensordot` in any order, and cosine and sine, are arguments with a relative accuracy | overflow, underflow |
| rounding in `BoxCatalog.subbox` (`Cut_Model.v`), `translate`, `recenter` and `rotate` (`Slip_Model.v`) | every operation rounded; products and cosine and sine as in `Drift_Model.v` | overflow, signed zeros; underflow in the bounds on turns |
| rounding in `cartesian_to_sky` and `sky_to_cartesian` (`Astro_Model.v`) | every operation rounded; functions of the library are arguments with an accuracy | overflow, underflow in the bounds, signed zeros |
| rounding in `Cuboid` (`Wobble_Model.v`) | constructor and `transform` of positions, for any arithmetic | `inverse_transform`, velocities, lattice vectors given as floats, overflow in the bounds; the bounds take the numbers stored in the cuboid as they are |
| notebooks | | not modelled |

### Print Assumptions, theorem by theorem

<!-- assumptions -->

Closed under the global context (no axioms):

C66_des, C24_gcd, C24_gcd_unique, C24_single_refuted, C24_no_argument, C24_coprime_triples, C47_budget, C47_counts, C48_untouched, C48_distribution, C49_fibers, C49_working, C49_available_partial, C49_flags, C50_weight, C50_defined, C50_total, C50_computed, C52_selection, C52_y5, C52_unknown, C52_no_file, C52_passes, C52_default, C52_more_tiles, C52_indices, C52_path, C52_default_path, C52_path_refuted, C52_surveyops_refuted, C72_raises_refuted, C72_scattered, C69_tiles, C69_case, C69_capitals, C69_returns, C70_number, C70_files, C70_names, C70_table, C70_tiles, C70_read_error, C70_one, C70_no_tile, C68_sorted_partial, C68_exactly, C68_order_refuted, C68_ignored, C68_used_refuted, C68_read, C68_script_refuted, C76_agree, C71_names, C71_correlation_names, C71_import_refuted, C71_correlation_refuted, C71_files, C71_no_overwrite, C71_groups, C71_groups_region, C71_mixed, C86_tiles, C86_directions, C49_available_exactly, C87_cosmology_only, C87_cosmology_none, C90_fits, C90_bigfile, C90_rerun, C90_fewer, C90_fewer_refuted, C90_same_name_refuted, C90_dot_refuted, C90_errors, C92_constructed, C93_rows, C93_masks, C100_distinct, C100_seeds, C100_box_seed_refuted, C102_one_lost_all_lost, C102_rejected.

Axioms: `ClassicalDedekindReals.sig_forall_dec`:

C02_translation_irrelevant, C06_bad_frame_partial, C12_full_turn, C32_rows, C32_dispatch, C49_available_refuted, C77_sample, C77_positions, C77_weights, C77_output, C77_shuffle, C77_shuffle_refuted, C77_rsd, C77_png, C77_bricks, C77_fiber, C77_completeness, C77_v0_partial, C77_v0_refuted, C77_bricks_refuted, C77_density, C77_tabulated, C77_tabulated_refuted, C77_normalize, C77_mesh, C77_get_z, C77_get_z_refuted, C80_pad, C80_pad_refuted, C88_tile, C88_pass, C88_readable, C88_others, C88_no_date_refuted, C88_date, C88_tables.

Axioms: `ClassicalDedekindReals.sig_forall_dec`, `FunctionalExtensionality.functional_extensionality_dep`:

C02_velocity_is_difference, C03_concatenate_applies_in_order, C03_grouping_and_identity, C06_dot_frames, C06_translation_frames, C06_dot_atomic_refuted, C12_containment, C12_volume_and_sides, C12_turns_add, C13_translate, C13_recenter, C13_containment, C14_subbox_rows, C14_one_range, C14_wrong_number_of_ranges, C14_new_box, C14_grid_partition, C15_rows_are_images_partial, C15_particle_lost_refuted, C15_particle_tripled_refuted, C15_factor_above_two_refuted, C16_particles_apart, C66_regions, C66_regressis, C66_apart, C66_disjoint, C66_case, C66_synonyms, C66_unknown, C66_center_partial, C66_center_refuted, C66_center_unknown_refuted, C66_ngc_refuted, C66_ndn_refuted, C66_turn_refuted, C20_transverse_unchanged, C20_rest, C22_rows, C23_image_exists, C26_rows, C26_certain_acceptance, C26_certain_rejection_partial, C26_zero_draw_refuted, C27_uniform_radial, C27_default_range, C28_probability, C28_follows_table, C28_default_maximum_partial, C28_default_maximum_refuted, C28_refused, C29_reaches_target_partial, C29_monotone, C29_reachable, C29_refused, C29_unweighted_refuted, C29_zero_target_refuted, C33_conserved, C33_back, C33_same_distances, C33_succeeds, C31_sizes, C31_kept, C31_first_kept, C31_ends, C31_nothing_refuted, C31_empty_mask_refuted, C35_box_number, C35_box_positions, C73_outside, C73_nodes, C73_uncut, C73_default, C73_flat, C73_parabola, C73_convex_refuted, C73_hang_refuted, C73_range_refuted, C73_probability_refuted, C73_linear, C36_tabulated_cdf, C36_average, C36_sample_range_partial, C36_quantiles, C36_sample_range_refuted, C36_flat_refuted, C36_disjoint_refuted, C37_from_cells, C37_required, C37_from_box, C37_sizes_differ_refuted, C37_cellsize_ignored_refuted, C39_cells, C39_number, C39_processes, C39_negative_density, C41_in_box, C42_interval_partial, C42_values, C42_others, C42_prefix, C42_growth_needs_redshift, C42_order_refuted, C42_density_at_redshift_refuted, C47_overlap_refuted, C48_overlap_refuted, C50_overlap_refuted, C51_files, C51_registered, C51_callables, C51_nothing, C51_unknown, C51_distribution, C51_kind_refuted, C51_missing_refuted, C51_edge_refuted, C52_y5_survey_refuted, C65_nbodykit, C61_merge, C61_last_file, C61_total, C75_mask, C75_sample_refuted, C75_certain, C75_random_catalogs, C75_processes_refuted, C74_contained, C67_radial, C67_range, C67_density, C67_gap_refuted, C67_default_refuted, C67_redshifts, C67_footprint, C71_region, C71_survey, C78_rescaled, C78_counts, C78_shares, C78_shares_exist, C78_mean, C78_mean_same, C78_cov_exists, C78_cov_symmetric, C78_cov_value, C78_cov_positive, C81_remainder_partial, C81_exact, C81_boxes_partial, C15_exactly, C15_box_emptied_refuted, C82_independent, C82_failure, C82_ends, C82_kept, C82_box, C83_linear, C85_numbers, C86_number, C86_expected, C28_default_exactly, C89_linear, C91_geometry, C91_random_box, C92_recenter, C94_masks, C95_rows, C95_arguments, C95_grid, C95_nested, C95_limits, C95_far, C95_new_box, C95_whole, C99_translate, C99_order, C99_recenter, C99_back, C99_left, C102_lost_refuted, C102_grid_lost_refuted.

Axioms: `ClassicalDedekindReals.sig_forall_dec`, `ClassicalDedekindReals.sig_not_dec`, `FunctionalExtensionality.functional_extensionality_dep`:

C01_history_rigid, C02_velocity_keeps_length, C03_extend_and_add, C04_two_vectors_partial, C04_two_vectors_refuted, C05_axis_angle_formula, C05_is_rotation_fixing_axis, C05_axis_meaning, C05_angles_add, C05_zero_angle_identity, C05_right_hand_rule, C06_reset_rotation_frames, C06_rotation_ignores_frame, C06_rotation_current_refuted, C06_rotation_origin, C54_independent_partial, C54_radd_copy_refuted, C55_arguments_unchanged_refuted, C07_integer_arguments_refuted, C08_wrap_angle, C08_wrap_decides_direction, C08_wrap_idempotent, C09_area_element, C09_area_additive, C09_area_nonnegative_partial, C09_area_full_sky, C09_crossing_range_refuted, C10_projection_one_direction, C10_projection_own_directions, C10_projection_direction_only, C10_projection_idempotent, C10_projection_linear, C19_covers_symmetric_partial, C19_axis_points_to_centre, C19_full_circle_refuted, C19_wide_range_refuted, C19_off_equator_refuted, C19_shell_corner_refuted, C12_rotate, C12_default_axis_refuted, C16_cuts_disjoint_inside, C16_single_cut, C16_fits_or_error_partial, C16_one_margin_refuted, C16_zero_external_refuted, C20_fixed_line_of_sight, C20_local_line_of_sight, C20_observer_position, C20_callable_one_particle_partial, C20_callable_raises_refuted, C20_callable_three_particles_refuted, C21_orthogonal_edges, C21_volume_partial, C21_anisotropic_volume_refuted, C21_tiling, C21_rejected, C22_round_trip, C22_velocities, C23_lands_in_cuboid_partial, C23_reversed_axes_refuted, C23_shifted_twice_refuted, C56_catalog, C56_separations, C56_arguments, C25_enumeration, C25_maxcomb_zero_refuted, C25_repeated_refuted, C30_selects_arc_partial, C30_default_ranges, C30_crossing_refuted, C30_wide_refuted, C38_zero_mean, C38_inverted_phase, C38_unitary_amplitude, C38_lognormal, C38_hermitian, C38_real, C40_fixed, C40_local_partial, C40_fixed_is_local_partial, C40_observer_refuted, C40_odd_mesh_refuted, C41_rsd_fixed, C41_rsd_local, C41_callable_raises_refuted, C41_leaves_box_refuted, C57_divergence_partial, C57_irrotational_partial, C57_zero_mean, C57_odd_mesh_refuted, C46_errors, C46_png_positions_refuted, C44_processes, C45_png_nothing, C45_png_linear, C45_png_scale, C45_png_same_fnl_refuted, C45_png_shotnoise_refuted, C45_png_instance_raises, C45_png_barycentre, C59_solves, C63_names, C64_values, C64_linear, C64_density, C64_translation, C64_case, C64_ngp, C64_processes, C64_range, C64_refused, C64_not_set, C64_number_refuted, C64_displacements, C64_lagrangian_others, C64_disp_names_refuted, C65_new, C65_from_real_field, C65_set_complex_refuted, C61_distributions, C61_shipped, C61_accepted, C61_refused, C61_error_refuted, C61_uncertainty_refuted, C61_clustering, C74_turned, C74_choice_refuted, C74_inside, C74_inside_refuted, C80_copies_partial, C80_set_rsd, C80_shared_refuted, C81_angles_partial, C16_exactly, C30_exactly, C09_crossing_every_range_refuted, C19_exactly, C83_left, C84_modes, C84_mean, C84_power, C84_correlation, C84_all_modes, C84_kaiser, C84_shot, C84_total, C84_even, C85_density, C85_contrast, C85_constant, C85_kaiser, C86_rigid, C86_frame, C86_reach, C86_cone, C86_front, C86_same_motion, C86_range, C21_volume_exactly, C57_divergence_exactly, C57_irrotational_exactly, C40_local_exactly, C54_exactly, C89_compression, C89_half_cell, C89_common_window_refuted, C91_new_mock, C91_readout, C91_isometries, C91_box_catalogs, C91_cuboids, C91_rsd, C92_new_mock, C92_readout, C92_box_catalogs, C92_rsd, C93_pieces, C93_one_by_one, C93_rsd, C93_rsd_one_by_one, C93_callable_refuted, C94_catalogs, C94_isometries, C94_rsd_fixed, C94_rsd_local, C94_default_axis_refuted, C96_projections, C96_rsd, C96_rsd_callable_refuted, C96_catalogs, C96_gaussian, C96_eulerian, C96_displacements, C98_new, C98_noises, C98_amplitude, C98_from_field, C98_readout, C98_rsd_catalogs_fixed, C98_rsd_catalogs_local, C98_density_refuted, C100_range, C101_defined_away, C102_same_program, C102_far_from_faces_partial, C102_found_partial, C102_copy_or_error, C102_opposite_faces.

Axioms: `ClassicalDedekindReals.sig_forall_dec`, `ClassicalDedekindReals.sig_not_dec`, `Classical_Prop.classic`, `FunctionalExtensionality.functional_extensionality_dep`:

C07_cartesian_sky_cartesian, C07_sky_cartesian_sky, C11_cdf_edges, C11_cdf_increasing, C11_ppf_in_support_and_inverse, C11_cdf_then_ppf, C11_pdf_is_derivative, C18_observer_inside_partial, C18_observer_outside_partial, C18_observer_outside_refuted, C18_dec_range_refuted, C17_selected_rows, C17_one_isometry, C17_list_of_isometries_partial, C17_list_rdd_ignored_refuted, C20_local_keeps_sky_position, C31_radial_candidates, C31_angular_candidates, C34_bins, C34_total, C34_covers, C34_processes, C34_interpolator, C34_communicator_refuted, C35_cutsky, C35_density_crossing_refuted, C35_nothing_refuted, C35_gap_refuted, C35_cutsky_exactly, C36_rvs_cdf_partial, C36_upper_infinite_refuted, C36_lower_infinite_refuted, C53_nodes, C53_orders, C53_order_two, C53_order_three_refuted, C46_pos, C46_xyz, C46_rdd, C46_rdz, C46_ap_format, C46_shuffle_format, C46_rsd_format, C43_cartesian, C43_angles, C43_rdd, C43_rdz, C43_identity_cartesian, C43_identity_rdd, C43_identity_rdz, C43_observer, C44_cartesian, C44_sky, C44_null_growth, C44_larger_growth, C44_equal_growth_refuted, C45_rsd_linear, C45_rsd_identity, C45_rsd_same_cosmology_refuted, C58_redshifts, C58_cartesian, C59_positive, C60_table, C60_nodes, C60_constructed, C60_refused, C60_outside, C60_linear, C60_increasing, C60_cubic_refuted, C60_single_refuted, C63_modes, C63_recovered, C63_unique, C63_mean, C63_amplitudes, C63_linear, C64_compensated, C64_compensate_refuted, C64_sample_compensate_refuted, C65_no_field, C65_no_density, C65_no_sample, C65_kept, C65_eulerian, C65_lagrangian, C65_from_field, C65_failed_sample_refuted, C65_center_refuted, C65_norm, C65_rsd, C65_white_noise, C62_mixture, C62_succeeds, C62_units, C62_quantiles, C62_truncation_partial, C62_narrow_refuted, C67_rsd_refuted, C67_wrap_refuted, C71_edges, C71_mirrored, C55_calls, C55_programs, C55_new, C55_others, C55_overwritten, C55_values, C79_same, C79_remap_refuted, C79_two_vectors_refuted, C79_sky_refuted, C79_shuffle_refuted, C81_remainder_refuted, C81_angles_refuted, C81_boxes_refuted, C81_distance, C81_precision, C81_declination_partial, C81_declination_refuted, C18_outside_exactly, C19_polar_cap_exactly, C82_distances, C82_angles, C82_cutsky, C83_positions, C83_distances, C83_back, C86_los, C86_sv3_groups, C86_too_wide, C86_group, C86_files, C86_names, C86_succeeds, C86_mock_fn_refuted, C87_cosmology, C87_documented_refuted, C87_objects, C87_effect, C87_weights, C87_nothing, C87_undo, C87_zero_refuted, C89_first_order, C89_large_scales, C91_history, C91_sky, C91_cutsky, C91_cutsky_catalogs, C91_random_cutsky, C92_history, C92_cutsky, C92_failed_sample_refuted, C93_cutsky, C94_rescaling_cartesian, C94_rescaling_rdd, C94_rescaling_rdz, C95_whole_refuted, C95_new_box_refuted, C96_rescaling, C96_pole, C97_ranges, C97_wide, C97_wide_refuted, C97_half_turn, C97_half_turn_refuted, C97_boxes, C97_same_box, C97_reversed_refuted, C98_histories, C98_selection, C98_rsd_fields, C98_rsd_objects, C98_callable_bias_refuted, C98_lognormal_refuted, C99_back_refuted, C99_moves, C99_contained, C100_as_written_refuted, C100_files, C100_names, C100_independent, C100_gap_refuted, C100_empty_refuted, C100_cover_refuted, C100_succeeds, C101_distance_right_ascension, C101_declination, C101_declination_partial, C101_positions, C101_there_and_back, C101_there_and_back_partial, C101_defined, C101_pole_refuted, C101_sky_and_back_partial, C102_double_rounds, C102_double_precision, C102_double_far_partial, C102_double_copy_or_error, C102_stored_found_partial, C102_shear, C102_shear_never_lost.

<!-- end assumptions -->
