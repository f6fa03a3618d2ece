{"id": "C01", "title": "Isometries are rigid motions whatever the history of calls", "statement": "After any sequence of translation, rotation, reset_rotation, reset_translate, concatenation and extension calls on EuclideanIsometry objects, transform() preserves the distance between every pair of points and the orientation (handedness) of every triple of displacement vectors.", "quantifier": "every finite sequence of API calls, every rotation axis, every angle, every translation, every pair/triple of points", "why_tests_cant": "Histories are unbounded and the angles and axes are real-valued; tests sample a handful of sequences.", "anchors": ["mockfactory/make_survey.py:EuclideanIsometry.transform", "mockfactory/make_survey.py:EuclideanIsometry.rotation", "mockfactory/make_survey.py:EuclideanIsometry.translation", "mockfactory/make_survey.py:EuclideanIsometry.reset_rotation", "mockfactory/make_survey.py:EuclideanIsometry.concatenate"]}
{"id": "C02", "title": "Translation-invariant vectors (velocities) are only rotated", "statement": "transform(v, translational_invariant=True) equals the difference of the transforms of any two points separated by v; in particular it keeps the norm of v, and is not changed by any translation call.", "quantifier": "every reachable isometry, every point, every vector", "why_tests_cant": "Universally quantified over histories, points and vectors.", "anchors": ["mockfactory/make_survey.py:EuclideanIsometry.transform", "mockfactory/make_survey.py:BoxCatalog.cutsky_from_isometry"]}
{"id": "C03", "title": "Concatenating isometries means applying them in order", "statement": "EuclideanIsometry.concatenate(i1, ..., in).transform(x) equals in.transform(... i1.transform(x)), also through extend, + and +=; the identity isometry is neutral and grouping does not matter.", "quantifier": "every list of isometries, every point", "why_tests_cant": "Lists of every length.", "anchors": ["mockfactory/make_survey.py:EuclideanIsometry.concatenate", "mockfactory/make_survey.py:EuclideanIsometry.extend", "mockfactory/make_survey.py:EuclideanIsometry.__add__", "mockfactory/make_survey.py:EuclideanIsometry.__radd__"]}
{"id": "C04", "title": "Rotation between two vectors takes the first direction onto the second", "statement": "rotation_matrix_from_two_vectors(a, b) is a rotation (orthogonal, determinant 1) that maps the direction of a to the direction of b, for all non-zero a and b.", "quantifier": "all pairs of non-zero 3-vectors, including collinear ones", "why_tests_cant": "Real-valued inputs; the degenerate set (opposite vectors) has measure zero and is never hit by random tests.", "anchors": ["mockfactory/make_survey.py:rotation_matrix_from_two_vectors"]}
{"id": "C05", "title": "Rotation about an axis by an angle", "statement": "rotation_matrix_from_vector_angle(axis, angle) is a rotation that leaves the axis fixed; rotations about one axis add their angles; the opposite angle undoes it; a quarter turn about x, y, z follows the right-hand rule.", "quantifier": "every non-zero axis, every pair of angles", "why_tests_cant": "Real-valued inputs.", "anchors": ["mockfactory/make_survey.py:rotation_matrix_from_vector_angle", "mockfactory/make_survey.py:_get_los", "mockfactory/make_survey.py:EuclideanIsometry.rotation"]}
{"id": "C06", "title": "The frame argument decides about what point and along which axes a move is made", "statement": "With frame='origin' a rotation turns the already translated points about the origin and a translation is along the fixed axes; with frame='current' a rotation turns them about the current centre (the translation is kept) and a translation is along the rotated axes; any other value raises ValueError and leaves the isometry unchanged.", "quantifier": "every isometry, every frame value, every axis, angle and shift", "why_tests_cant": "Covers every state and the invalid-argument paths; also a failure-atomicity claim.", "anchors": ["mockfactory/make_survey.py:EuclideanIsometry.dot", "mockfactory/make_survey.py:EuclideanIsometry.rotation", "mockfactory/make_survey.py:EuclideanIsometry.translation", "mockfactory/make_survey.py:EuclideanIsometry.reset_rotation"]}
{"id": "C07", "title": "Cartesian to sky and back", "statement": "sky_to_cartesian(cartesian_to_sky(x)) = x for every non-zero x, and cartesian_to_sky(sky_to_cartesian(d, ra, dec)) = (d, ra, dec) for every d > 0, ra in the output interval, |dec| < 90 (degree and radian modes).", "quantifier": "all positions / all sky coordinates", "why_tests_cant": "Branch cuts of arctan2 and the wrap make the claim a case analysis on the whole plane.", "anchors": ["mockfactory/utils.py:cartesian_to_sky", "mockfactory/utils.py:sky_to_cartesian"]}
{"id": "C08", "title": "Angle wrapping", "statement": "wrap_angle(a) lies in [0, 360) (or [0, 2 pi)), differs from a by a whole number of turns, is idempotent, and depends only on a modulo a turn.", "quantifier": "every real angle", "why_tests_cant": "Every real number.", "anchors": ["mockfactory/utils.py:wrap_angle"]}
{"id": "C09", "title": "Area of an RA/Dec box", "statement": "radecbox_area is non-negative, is additive when a box is cut along RA or Dec, and gives the whole sky for [0, 360] x [-90, 90]; an RA range that crosses 360 (e.g. (300, 40)), which masks and RandomCutskyCatalog accept, has the area of the region it denotes.", "quantifier": "all RA ranges and Dec ranges", "why_tests_cant": "Real-valued inputs and a convention that tests only visit with ordered ranges.", "anchors": ["mockfactory/utils.py:radecbox_area", "mockfactory/make_survey.py:RandomCutskyCatalog"]}
{"id": "C10", "title": "Projection of a vector on a line of sight", "statement": "vector_projection(v, d) is parallel to d, the remainder v - projection is orthogonal to d, projecting twice is projecting once, and the result does not depend on the length or sign of d.", "quantifier": "all vectors v, all non-zero directions d", "why_tests_cant": "Real-valued inputs.", "anchors": ["mockfactory/utils.py:vector_projection"]}
{"id": "C11", "title": "Truncated Cauchy law", "statement": "trunccauchy: cdf is 0 at the lower edge, 1 at the upper edge and increasing in between; ppf takes [0, 1] into [a, b] and is the two-sided inverse of cdf; the pdf is positive and is the derivative of cdf.", "quantifier": "all truncation edges a < b, all x in [a, b], all q in [0, 1]", "why_tests_cant": "Real-valued inputs, calculus.", "anchors": ["mockfactory/utils.py:trunccauchy_gen", "mockfactory/utils.py:_rescaling_parser"]}
{"id": "C12", "title": "Quarter-turn rotation of a box keeps the box", "statement": "BoxCatalog.rotate by any integer number of quarter turns about x, y or z keeps every contained particle in the box, keeps the volume, keeps the list of side lengths up to order, and four turns undo it; this also holds for the documented default axis.", "quantifier": "all boxes, all contained particles, all integers of quarter turns, all axes accepted (incl. the default)", "why_tests_cant": "All integers and all positions.", "anchors": ["mockfactory/make_survey.py:BoxCatalog.rotate"]}
{"id": "C13", "title": "Moving a box moves its contents with it", "statement": "translate and recenter move all particles and the box centre by the same vector, so that relative coordinates, containment and pairwise separations are unchanged; recenter puts the centre at the origin; velocities are unchanged.", "quantifier": "all catalogs, all shifts", "why_tests_cant": "All catalogs of every size.", "anchors": ["mockfactory/make_survey.py:BoxCatalog.translate", "mockfactory/make_survey.py:BoxCatalog.recenter", "mockfactory/make_survey.py:BoxCatalog.isometry"]}
{"id": "C14", "title": "Sub-box selects exactly the particles within the ranges", "statement": "subbox(ranges) keeps exactly the particles with lo <= x < hi on every axis, in order, unmodified; sub-boxes of a grid of edges partition the box contents; the returned box contains every kept particle that was in the original box.", "quantifier": "all catalogs, all ranges", "why_tests_cant": "All catalogs and ranges; boundary conventions only matter on measure-zero sets.", "anchors": ["mockfactory/make_survey.py:BoxCatalog.subbox"]}
{"id": "C15", "title": "Periodic padding yields every periodic image in the padded box exactly once", "statement": "BoxCatalog.pad(factor) returns the original particles plus exactly the periodic images lying in the enlarged box, each once, and enlarges boxsize by factor.", "quantifier": "all boxes, all padding factors, all particles", "why_tests_cant": "All factors and positions.", "anchors": ["mockfactory/make_survey.py:BoxCatalog.pad"]}
{"id": "C16", "title": "Multiple cutsky outputs use disjoint parts of the box", "statement": "isometry_for_cutsky(noutput=...) places its sub-boxes so that they are pairwise disjoint, separated by at least the internal margin, at least the external margin from the box faces, and inside the box; the number of outputs is as requested or the maximum; it raises ValueError if the request does not fit.", "quantifier": "all box sizes, cutsky box sizes, margins, noutput", "why_tests_cant": "Every combination of reals; grid arithmetic with integer truncation.", "anchors": ["mockfactory/make_survey.py:BoxCatalog.isometry_for_cutsky"]}
{"id": "C17", "title": "Cutsky selection drops rows and never changes or duplicates them", "statement": "cutsky_from_isometry returns the moved particles satisfying all masks, in order, one per selected particle, with Distance/RA/DEC recomputed from the moved positions, for one isometry and for a list alike.", "quantifier": "all catalogs, isometries, lists of masks", "why_tests_cant": "All catalogs of every size.", "anchors": ["mockfactory/make_survey.py:BoxCatalog.cutsky_from_isometry", "mockfactory/make_survey.py:BoxCatalog.cutsky"]}
{"id": "C18", "title": "Every sky position promised by box_to_cutsky is in the box", "statement": "For ranges returned by box_to_cutsky, every point with distance, RA and Dec in the ranges lies in the box placed as documented (far face at dmax).", "quantifier": "all box sizes, dmax, dmin, and all points of the sky region", "why_tests_cant": "Continuum of points; corners and branch conditions are not sampled by tests.", "anchors": ["mockfactory/make_survey.py:box_to_cutsky"]}
{"id": "C19", "title": "The box of cutsky_to_box covers the requested survey region", "statement": "Every point with distance in drange, RA in rarange and Dec in decrange lies in the box of size boxsize moved by the returned isometry.", "quantifier": "all drange, rarange (incl. crossing 360 and the full circle), decrange, and all points of the region", "why_tests_cant": "Continuum of points and configurations.", "anchors": ["mockfactory/make_survey.py:cutsky_to_box"]}
{"id": "C20", "title": "Redshift-space distortion displaces along the line of sight only", "statement": "rsd_position(f, los): with fixed los, the displacement of each particle is f times the component of its velocity along los; with local los, it is along the particle position, and the angular position is unchanged as long as the particle does not cross the observer; a callable f is evaluated at the particle distance and scales that particle only; zero velocity means no displacement.", "quantifier": "all catalogs of every size, all f (float or callable), all los", "why_tests_cant": "All sizes of catalog; broadcasting behaviour depends on the size.", "anchors": ["mockfactory/make_survey.py:ParticleCatalog.rsd_position"]}
{"id": "C21", "title": "Remapping preserves volume and uses an orthogonal cuboid", "statement": "For every integer lattice basis accepted by Cuboid, the edges of the remapped cuboid are pairwise orthogonal and its volume equals that of the original box; a non-unimodular basis is rejected.", "quantifier": "all integer bases, all box sizes", "why_tests_cant": "Infinitely many bases.", "anchors": ["mockfactory/remap.py:Cuboid.__init__", "mockfactory/remap.py:orthogonalize"]}
{"id": "C22", "title": "Remapping can be undone", "statement": "inverse_transform(transform(x)) = x for every position x in the box, and for every velocity with translational_invariant=True (norm preserved).", "quantifier": "all accepted lattice bases, all positions in the box, all box sizes", "why_tests_cant": "Infinitely many bases and positions.", "anchors": ["mockfactory/remap.py:Cuboid.transform", "mockfactory/remap.py:Cuboid.inverse_transform"]}
{"id": "C23", "title": "Remapped positions lie in the cuboid", "statement": "transform(x) lies in [0, L1] x [0, L2] x [0, L3] for every position x in the box and every accepted basis.", "quantifier": "all accepted lattice bases, all positions in the box", "why_tests_cant": "Infinitely many bases; boundary tiles.", "anchors": ["mockfactory/remap.py:Cuboid.transform", "mockfactory/remap.py:Cell.isin", "mockfactory/remap.py:Plane"]}
{"id": "C24", "title": "gcd and coprimality helpers", "statement": "gcd returns the non-negative greatest common divisor of its integer arguments; coprime_triples(n) yields exactly the integer triples bounded by n with gcd 1, each once.", "quantifier": "all integers, all bounds", "why_tests_cant": "All integers.", "anchors": ["mockfactory/remap.py:gcd", "mockfactory/remap.py:coprime_triples"]}
{"id": "C25", "title": "Lattice enumeration is sound and complete", "statement": "generate_lattice_vectors(maxint) lists only unimodular integer bases with entries bounded by maxint, associates each with the cuboid size it produces, respects cuboidranges and maxcomb, and misses no achievable cuboid size in the requested range.", "quantifier": "all maxint, maxcomb, ranges", "why_tests_cant": "All bounds.", "anchors": ["mockfactory/remap.py:Cuboid.generate_lattice_vectors"]}
{"id": "C26", "title": "Masks: certain rejection and certain acceptance", "statement": "Calling a mask never selects an object with selection probability 0 and always selects an object with probability 1, whatever the random numbers drawn in [0, 1).", "quantifier": "all masks, inputs, and random streams", "why_tests_cant": "All random streams; the boundary draw u = 0 has probability 2^-53.", "anchors": ["mockfactory/make_survey.py:BaseMask.__call__"]}
{"id": "C27", "title": "Uniform radial mask", "statement": "UniformRadialMask.prob is clip(nbar, 0, 1) for z inside the closed zrange and 0 outside.", "quantifier": "all zrange, nbar, z", "why_tests_cant": "Real-valued.", "anchors": ["mockfactory/make_survey.py:UniformRadialMask", "mockfactory/make_survey.py:BaseRadialMask"]}
{"id": "C28", "title": "Tabulated radial mask is a probability and follows the tabulated n(z)", "statement": "With linear interpolation, TabulatedRadialMask.prob(z) is in [0, 1], is 0 outside zrange, equals norm * nbar at the tabulated redshifts in zrange, and by default its maximum over zrange is 1 (largest possible selection).", "quantifier": "all tables, zrange, z", "why_tests_cant": "All tables of every length.", "anchors": ["mockfactory/make_survey.py:TabulatedRadialMask.__init__", "mockfactory/make_survey.py:TabulatedRadialMask.prepare", "mockfactory/make_survey.py:TabulatedRadialMask._set_interp", "mockfactory/make_survey.py:TabulatedRadialMask.prob"]}
{"id": "C29", "title": "Normalising a radial mask reaches the requested selected fraction", "statement": "After normalize(norm, z) the mean selection probability over the sample z is norm (or an error is raised when unreachable); the achieved fraction is a non-decreasing function of the normalisation so that the root is well defined.", "quantifier": "all tables, samples z, target fractions", "why_tests_cant": "All samples of every size.", "anchors": ["mockfactory/make_survey.py:TabulatedRadialMask.normalize", "mockfactory/make_survey.py:TabulatedRadialMask.integral"]}
{"id": "C30", "title": "RA ranges select the arc the user wrote", "statement": "An angular mask with rarange=(lo, hi) selects an RA iff it lies, modulo 360, on the arc from lo up to hi, for ordered ranges, ranges crossing 0 given with a negative lower limit, ranges given as (300, 40), and the whole circle.", "quantifier": "all lo, hi, all RA (in any 360 interval)", "why_tests_cant": "Every real range; conventions collide only for ranges that cross the branch cut.", "anchors": ["mockfactory/make_survey.py:BaseAngularMask.__init__", "mockfactory/make_survey.py:BaseAngularMask._mask_ranges"]}
{"id": "C31", "title": "Sampling from a mask gives each process exactly the number requested", "statement": "BaseRadialMask.sample / BaseAngularMask.sample return exactly size objects on each process, all inside the mask, the concatenation over processes being a sub-sequence of the accepted draws, whatever sizes the processes ask for and whatever is drawn.", "quantifier": "any number of processes, any per-process sizes, any stream of draws", "why_tests_cant": "Unbounded loop, all schedules of accepted counts.", "anchors": ["mockfactory/make_survey.py:BaseRadialMask.sample", "mockfactory/make_survey.py:BaseAngularMask.sample"]}
{"id": "C32", "title": "Mask collections dispatch on the chunk", "statement": "MaskCollection: each object gets the probability of the mask of its own chunk, in its place; objects of other chunks do not influence it; chunks without a mask are kept.", "quantifier": "all collections, chunk labels, inputs", "why_tests_cant": "All sizes.", "anchors": ["mockfactory/make_survey.py:MaskCollection.prob", "mockfactory/make_survey.py:MaskCollection.__call__"]}
{"id": "C33", "title": "Changing cosmology conserves the number of objects per redshift bin", "statement": "convert_to_cosmo keeps nbar times shell volume in every redshift bin; converting back restores the density; same distances leave it unchanged.", "quantifier": "all tables, all positive increasing distance functions", "why_tests_cant": "All tables and functions.", "anchors": ["mockfactory/make_survey.py:TabulatedRadialMask.convert_to_cosmo"]}
{"id": "C34", "title": "Redshift density estimate conserves the total weight", "statement": "RedshiftDensityInterpolator: the sum over bins of nbar times shell volume is the total weight of objects within the bins; the automatic (Scott) binning covers every input redshift; the result does not depend on how objects are distributed over processes.", "quantifier": "all samples, weights, bins, distributions over processes", "why_tests_cant": "All sizes and distributions.", "anchors": ["mockfactory/make_survey.py:RedshiftDensityInterpolator"]}
{"id": "C35", "title": "Random catalogs fill the requested region with the requested number", "statement": "RandomBoxCatalog: nbar gives the nearest integer to nbar * volume, every position lies in the box; RandomCutskyCatalog: RA, Dec and distance of every object lie in the requested ranges; both for all random streams.", "quantifier": "all boxes/ranges, all random streams", "why_tests_cant": "All streams of uniforms.", "anchors": ["mockfactory/make_survey.py:RandomBoxCatalog", "mockfactory/make_survey.py:RandomCutskyCatalog"]}
{"id": "C36", "title": "Redshift smearing samples follow a proper distribution", "statement": "Smearing tables: each tabulated cdf starts at 0, ends at 1 and is non-decreasing; sampling returns values within the tabulated dz interval; averaging smearings with weights gives again such a cdf between the extremes of its members.", "quantifier": "all pdf tables, weights, uniforms", "why_tests_cant": "All tables.", "anchors": ["mockfactory/make_survey.py:TabulatedPDF2DRedshiftSmearing", "mockfactory/make_survey.py:RVS2DRedshiftSmearing", "mockfactory/make_survey.py:Base2DRedshiftSmearing"]}
{"id": "C37", "title": "Mesh geometry of mocks is consistent", "statement": "Whatever two of (boxsize, nmesh, cellsize) are given, the mock ends with boxsize = nmesh * cellsize on every axis, or raises.", "quantifier": "all boxsize, nmesh, cellsize combinations", "why_tests_cant": "All reals.", "anchors": ["mockfactory/gaussian_mock.py:BaseGaussianMock.__init__"]}
{"id": "C38", "title": "Gaussian field: zero mean and phase inversion", "statement": "The generated overdensity has zero mean (zero mode removed); inverted_phase gives minus the field for the same seed; unitary_amplitude gives every mode exactly the input power; the lognormal transform keeps 1 + delta positive with mean one.", "quantifier": "all power spectra, seeds, meshes", "why_tests_cant": "All meshes and random fields.", "anchors": ["mockfactory/gaussian_mock.py:BaseGaussianMock.set_complex_delta_field", "mockfactory/gaussian_mock.py:BaseGaussianMock.set_real_delta_field"]}
{"id": "C39", "title": "Poisson sampling places each object in its own cell", "statement": "poisson_sample: the number of objects is the sum of the counts drawn per cell, and each object lies within the cell it was drawn in, so all objects are in the box.", "quantifier": "all meshes, count fields, random streams", "why_tests_cant": "All counts and streams.", "anchors": ["mockfactory/gaussian_mock.py:BaseGaussianMock.poisson_sample", "mockfactory/gaussian_mock.py:_transform_rslab"]}
{"id": "C40", "title": "Eulerian RSD kernel equals mu squared", "statement": "With local line of sight, summing the six pairs (i<=j) with their symmetry factor yields f (k.r)^2/(k^2 r^2) times the density for each plane wave; a fixed line of sight r gives the same as the local one at a point in direction r.", "quantifier": "all wave vectors, positions, f", "why_tests_cant": "Algebraic identity over all vectors.", "anchors": ["mockfactory/eulerian_mock.py:EulerianLinearMock.set_rsd"]}
{"id": "C41", "title": "Lagrangian mock: displaced positions wrap into the box; RSD along the line of sight only", "statement": "After poisson_sample and set_rsd with a fixed line of sight, positions stay in the periodic box and differ from the displaced ones only by whole box lengths; RSD changes only the line-of-sight component.", "quantifier": "all displacements, boxes", "why_tests_cant": "All reals.", "anchors": ["mockfactory/lagrangian_mock.py:LagrangianLinearMock.poisson_sample", "mockfactory/lagrangian_mock.py:LagrangianLinearMock.set_rsd"]}
{"id": "C42", "title": "Blinded cosmology stays within the prior box and is reproducible", "statement": "get_cosmo_blind draws each blinded parameter within its allowed interval; parameters not asked for keep their value; same seed and same parameters give the same cosmology independent of the order of the parameter list.", "quantifier": "all seeds, parameter sets, orders", "why_tests_cant": "All seeds and subsets.", "anchors": ["mockfactory/blinding/catalog.py:get_cosmo_blind"]}
{"id": "C43", "title": "AP blinding moves objects radially only", "statement": "CutskyCatalogBlinding.ap keeps the angular position of every object and is the identity when the blind and fiducial cosmologies agree.", "quantifier": "all catalogs, cosmologies", "why_tests_cant": "All catalogs.", "anchors": ["mockfactory/blinding/catalog.py:CutskyCatalogBlinding.ap"]}
{"id": "C44", "title": "Shuffle blinding permutes radial distances among the selected objects", "statement": "shuffle keeps every angular position, leaves non-selected objects untouched and preserves the multiset of distances; when the blind and fiducial growth rate agree, no information is changed.", "quantifier": "all catalogs, seeds, fractions", "why_tests_cant": "All catalogs.", "anchors": ["mockfactory/blinding/catalog.py:CutskyCatalogBlinding.shuffle"]}
{"id": "C45", "title": "RSD and PNG blinding vanish when there is nothing to blind", "statement": "rsd returns the input when the blind growth rate equals the fiducial one, and is linear in the growth difference; png leaves the weights unchanged when blind fnl equals fiducial fnl.", "quantifier": "all catalogs, reconstruction shifts, weights", "why_tests_cant": "All catalogs.", "anchors": ["mockfactory/blinding/catalog.py:CutskyCatalogBlinding.rsd", "mockfactory/blinding/catalog.py:CutskyCatalogBlinding.png"]}
{"id": "C46", "title": "Positions and weights survive the format round trip", "statement": "Blinding with a given position_type returns positions of the same type; converting in and out without blinding is the identity for xyz, pos and rdd.", "quantifier": "all position types and positions", "why_tests_cant": "All inputs and types.", "anchors": ["mockfactory/blinding/catalog.py:_format_positions", "mockfactory/blinding/catalog.py:_format_output_positions"]}
{"id": "C47", "title": "Fibre assignment conserves the observation budget of every target", "statement": "Through any number of passes, NUMOBS + NUMOBS_MORE of each target is constant, NUMOBS counts the passes in which OBS_PASS is set, NUMOBS_MORE never goes negative, and FIBER is set in a pass if the target was observed in it.", "quantifier": "all target catalogs, tilings, fibre assignments, numbers of passes", "why_tests_cant": "Unbounded histories of passes.", "anchors": ["mockfactory/desi/fiber_assignment.py:apply_fiber_assignment", "mockfactory/desi/fiber_assignment.py:_apply_mtl_one_tile"]}
{"id": "C48", "title": "Fibre assignment does not depend on how targets are distributed over processes", "statement": "apply_fiber_assignment gives the same per-target result for every distribution of the target catalog over MPI processes, rows stay aligned, and targets outside the tiles of the pass or without remaining observations are untouched.", "quantifier": "all catalogs, all distributions over processes", "why_tests_cant": "All distributions.", "anchors": ["mockfactory/desi/fiber_assignment.py:apply_fiber_assignment"]}
{"id": "C49", "title": "A fibre observes at most one target per pass and tile, and only good fibres observe", "statement": "In a pass, each (tile, fibre) pair observes at most one science target; no target is observed with a fibre listed as bad; observed targets are available targets.", "quantifier": "all assignments", "why_tests_cant": "All assignments returned by the external program.", "anchors": ["mockfactory/desi/fiber_assignment.py:_extract_info_assignment", "mockfactory/desi/fiber_assignment.py:_apply_mtl_one_tile"]}
{"id": "C50", "title": "Completeness weights account for every missed target", "statement": "compute_completeness_weight: weights are at least one for observed targets, undefined (NaN) exactly for never observed ones; total excess weight equals the number of unobserved-but-available targets that are attributed; no unobserved target is attributed twice.", "quantifier": "all catalogs, numbers of passes, observation histories", "why_tests_cant": "Unbounded histories.", "anchors": ["mockfactory/desi/fiber_assignment.py:compute_completeness_weight"]}
{"id": "C51", "title": "Brick quantities are returned in the caller order whatever the distribution", "statement": "get_brick_pixel_quantities returns, for each input object, the value its own brick gives at its own position, in input order, for every distribution of objects over processes.", "quantifier": "all catalogs, brick maps, distributions", "why_tests_cant": "All distributions and orders.", "anchors": ["mockfactory/desi/brick_pixel_quantities.py:get_brick_pixel_quantities"]}
{"id": "C52", "title": "Footprint selection", "statement": "is_in_desi_footprint: requiring more passes never adds objects; adding tiles never removes objects; only tiles of the requested survey/program and not after the release cut count; unknown releases raise; the tile file is looked up under the reduction directory.", "quantifier": "all tile tables, points, npasses, environment settings", "why_tests_cant": "All tables and environments.", "anchors": ["mockfactory/desi/footprint.py:is_in_desi_footprint", "mockfactory/desi/footprint.py:redux_path"]}
{"id": "C53", "title": "Interlaced selection function and readout agree on geometry", "statement": "set_analytic_selection_function evaluates nbar at the true mesh points: with interlacing n, the phase correction cancels the shift of the k-th mesh for every k < n.", "quantifier": "all n, all k, all cells", "why_tests_cant": "All n.", "anchors": ["mockfactory/gaussian_mock.py:BaseGaussianMock.set_analytic_selection_function"]}
{"id": "C54", "title": "Isometry objects are independent", "statement": "A call on one EuclideanIsometry object never changes what another object does, including objects obtained from it by copying or by 0 + isometry (sum).", "quantifier": "every program making any sequence of calls on any number of objects", "why_tests_cant": "Needs all interleavings of calls on objects that may share arrays.", "anchors": ["mockfactory/make_survey.py:EuclideanIsometry.__radd__", "mockfactory/make_survey.py:EuclideanIsometry.translation", "mockfactory/make_survey.py:EuclideanIsometry.reset_translate"]}
{"id": "C55", "title": "Functions leave their array arguments as they were", "statement": "No function on positions or angles (rotation_matrix_from_two_vectors, wrap_angle, cartesian_to_sky, sky_to_cartesian, vector_projection, EuclideanIsometry.transform, Cuboid.transform and inverse_transform, rsd_position, shuffle, cutsky_to_box) modifies the arrays it is given, nor does any sequence of calls; results are new arrays, so writing to them later changes no argument.", "quantifier": "all arrays, of integers or floats, all arguments and outcomes, all sequences of calls, some on results of others", "why_tests_cant": "A claim about every input and every history, and about the state of the caller after the call.", "anchors": ["mockfactory/make_survey.py:rotation_matrix_from_two_vectors", "mockfactory/utils.py:wrap_angle", "mockfactory/remap.py:Cuboid.transform", "mockfactory/blinding/catalog.py:CutskyCatalogBlinding.shuffle"]}
{"id": "C56", "title": "Remapping a catalog rotates periodic images", "statement": "BoxCatalog.remap with a unimodular basis keeps the box centre, the volume of a cubic box and all columns that are not vectors; there is one rotation such that every position, counted from the lower corner of its box, is the rotated periodic copy of the original, and every velocity is rotated by it; so the separation of two particles becomes the separation of two periodic images of them.", "quantifier": "all unimodular bases, all catalogs of a cubic box", "why_tests_cant": "Infinitely many bases and catalogs.", "anchors": ["mockfactory/make_survey.py:BoxCatalog.remap", "mockfactory/remap.py:Cuboid.transform"]}
{"id": "C57", "title": "Zeldovich displacements have divergence minus the density", "statement": "LagrangianLinearMock.set_real_delta_field: the displacement field has divergence minus the linear density contrast, no rotation and no mean, on every mesh.", "quantifier": "all meshes, boxes, modes", "why_tests_cant": "Identity over all modes of all meshes.", "anchors": ["mockfactory/lagrangian_mock.py:LagrangianLinearMock.set_real_delta_field"]}
{"id": "C58", "title": "Effective redshift is a weighted mean of redshifts", "statement": "get_z returns the weighted mean of the redshifts of the objects, so a value between the smallest and the largest one, from redshifts or from positions.", "quantifier": "all catalogs, non-negative weights", "why_tests_cant": "Holds for every catalog and set of weights.", "anchors": ["mockfactory/blinding/catalog.py:get_z"]}
{"id": "C59", "title": "Shot-noise factor of non-Gaussianity blinding", "statement": "With shotnoise_correction, the factor applied to the weights of png is such that the power spectrum changes at the pivot scale by the amount expected for the blinded fnl, shot noise included; there is such a factor, positive, for every positive fnl.", "quantifier": "all biases, growth rates, smoothing radii, power spectra, shot noises", "why_tests_cant": "Root of a quadratic equation with parameters of the survey.", "anchors": ["mockfactory/blinding/catalog.py:CutskyCatalogBlinding.png"]}
{"id": "C60", "title": "Redshift from distance inverts the distance function", "statement": "DistanceToRedshift(distance, zmax, nz) returns the redshift z when called with distance(z): exactly at the tabulated redshifts whatever the interpolation order; for linear interpolation, everywhere within the spacing of the table (relative to z, above 1e-8), increasing with distance, between 0 and zmax. Distances outside of [distance(0), distance(zmax)] raise instead of being extrapolated.", "quantifier": "all increasing distance functions, zmax, nz, all distances", "why_tests_cant": "Every distance function and every argument; tests use one cosmology and a few points.", "anchors": ["mockfactory/make_survey.py:DistanceToRedshift.__init__", "mockfactory/make_survey.py:DistanceToRedshift.__call__"]}
{"id": "C61", "title": "Tables of redshift errors are merged without duplicated redshifts", "statement": "TracerRedshiftSmearingRVS given several files returns redshifts in increasing order; all rows of the last file are kept, rows of earlier files are kept exactly where no later file starts below them, and each redshift keeps the parameters of its own row. Unknown tracers and unknown kinds of uncertainty are refused with a ValueError.", "quantifier": "all lists of files with distinct redshifts, in any row order, all tracers", "why_tests_cant": "Any number of tables with any overlap.", "anchors": ["mockfactory/desi/redshift_smearing.py:TracerRedshiftSmearingRVS"]}
{"id": "C62", "title": "Tracer redshift errors follow the documented mixture in redshift units", "statement": "TracerRedshiftSmearing succeeds for every non-degenerate table; at each tabulated redshift its cumulative distribution is the mixture of the non-Gaussian and Gaussian distributions with weights la and 1 - la, and the redshift errors are the velocities of the file in units of c, times 1 + z (divided by 1 + z for the statistical errors of quasars), within the truncation of the tracer at tabulated quantiles.", "quantifier": "all tables, tracers, quantiles, redshifts", "why_tests_cant": "Holds for every table of parameters.", "anchors": ["mockfactory/desi/redshift_smearing.py:TracerRedshiftSmearing", "mockfactory/desi/redshift_smearing.py:TracerRedshiftSmearingRVS", "mockfactory/make_survey.py:RVS2DRedshiftSmearing.average"]}
{"id": "C63", "title": "Compensation undoes the assignment window on every mesh", "statement": "Compensating a field for a resampler divides every Fourier mode by the window of that resampler: no mode of any mesh is divided by zero, the mean is unchanged, amplitudes never decrease, and a field smoothed by the window is recovered exactly. Resampler names are those documented, others are refused.", "quantifier": "all meshes, box sizes, resamplers and modes", "why_tests_cant": "Every mode of every mesh.", "anchors": ["mockfactory/gaussian_mock.py:_compensate_mesh"]}
{"id": "C64", "title": "Reading a mock field at positions", "statement": "readout gives, in the order of the positions, the field named at these positions: values are linear in the field, nbar*(1+delta) is nbar plus nbar*delta, translating box and positions together changes nothing, the case of the resampler does not matter and ngp means nnb; with compensate=True the field is compensated first. Unknown fields are refused.", "quantifier": "all fields, positions, resamplers, box centers", "why_tests_cant": "Every field and position; the two classes must agree.", "anchors": ["mockfactory/gaussian_mock.py:BaseGaussianMock.readout", "mockfactory/lagrangian_mock.py:LagrangianLinearMock.readout"]}
{"id": "C65", "title": "Mocks export the objects they sampled", "statement": "to_catalog after poisson_sample gives a BoxCatalog with the sampled positions (and displacements as velocities), box size and center of the mock, that all lie in the box for an Eulerian mock and a Lagrangian one before RSD; steps done out of order raise; a mock built by from_complex_delta_field behaves like one built by the constructor with the same field.", "quantifier": "all sequences of calls on a mock", "why_tests_cant": "Ranges over all histories of method calls.", "anchors": ["mockfactory/gaussian_mock.py:BaseGaussianMock.to_catalog", "mockfactory/gaussian_mock.py:BaseGaussianMock.from_complex_delta_field", "mockfactory/lagrangian_mock.py:LagrangianLinearMock.to_catalog"]}
{"id": "C66", "title": "Photometric regions do not overlap and have a center", "statement": "is_in_photometric_region without regressis: N and the southern regions have no point in common, nor DN and DS; synonyms select the same points; N+SNGC selects the points of N and of SNGC; every region that has a center can be selected and the center of a region lies in it; region names are not case sensitive; unknown regions are refused.", "quantifier": "all sky positions, all region names", "why_tests_cant": "All positions on the sky.", "anchors": ["desi/from_box_to_desi_cutsky.py:is_in_photometric_region", "desi/from_box_to_desi_cutsky.py:photometric_region_center"]}
{"id": "C67", "title": "Selection steps of the DESI cutsky script", "statement": "The steps of from_box_to_desi_cutsky.py keep a subset of the rows, with all columns, that depends on each row and its random number only: apply_rsd_and_cutsky puts objects at the sky position of their redshift-space position, apply_radial_mask keeps no object outside of the redshift range and compares the (smeared) redshift with n(z), apply_photo_desi_footprint keeps the objects of the footprint and of the region.", "quantifier": "all catalogs and tables n(z)", "why_tests_cant": "All catalogs.", "anchors": ["desi/from_box_to_desi_cutsky.py:apply_rsd_and_cutsky", "desi/from_box_to_desi_cutsky.py:apply_radial_mask", "desi/from_box_to_desi_cutsky.py:apply_photo_desi_footprint", "desi/from_box_to_desi_cutsky.py:generate_redshifts"]}
{"id": "C68", "title": "Sky targets given to fibre assignment are used with the tile they are in", "statement": "fiber_assignment_v0.apply_fiber_assignment with preloaded sky targets hands to each process the sky targets of the tiles it treats, labelled with a tile that covers them, and runs fiberassign with them.", "quantifier": "all tables of tiles in any order, all targets", "why_tests_cant": "All orders of the tile table.", "anchors": ["mockfactory/desi/fiber_assignment_v0.py:apply_fiber_assignment", "mockfactory/desi/fiber_assignment_v0.py:_run_assign_init"]}
{"id": "C69", "title": "Tiles for fibre assignment", "statement": "build_tiles_for_fa keeps exactly the tiles of the survey that were observed in the release, belong to the program whatever its case and have a pass below npasses, in the order of the survey table with all their columns, and gives to all of them the observing conditions of the program.", "quantifier": "all tables, programs and numbers of passes", "why_tests_cant": "All tables.", "anchors": ["mockfactory/desi/fiber_assignment.py:build_tiles_for_fa", "mockfactory/desi/fiber_assignment_v0.py:build_tiles_for_fa"]}
{"id": "C70", "title": "Stuck fibres on sky", "statement": "The table of stuck positioners read from fiberassign files has one entry per tile; a location is listed if it is stuck and not broken or is a sky monitor, once, in increasing order, and is good when it lies on a sky target (sky monitors take precedence). File names are made of the six-digit tile number.", "quantifier": "all files, locations, status bits", "why_tests_cant": "All bit patterns and lists of files.", "anchors": ["mockfactory/desi/fiber_assignment.py:_run_assign_full", "mockfactory/desi/fiber_assignment.py:fafns_for_tiles", "mockfactory/desi/fiber_assignment.py:read_sky_targets"]}
{"id": "C71", "title": "File names and regions of the SV3 scripts", "statement": "catalog_fn gives different names for different catalogs, so that no file is overwritten, and can be used from the script that computes covariances, which reads only files that were written; every rosette is in exactly one of the regions N and S, and groups of rosettes in different regions are refused; the edges of bins are increasing.", "quantifier": "all names, rosettes and mock numbers", "why_tests_cant": "All lists of rosettes and numbers.", "anchors": ["desi/from_box_to_desi_sv3_cutsky.py:catalog_fn", "desi/from_box_to_desi_sv3_cutsky.py:get_region", "desi/from_box_to_desi_sv3_cutsky.py:read_rosettes", "desi/covariance_from_desi_sv3_cutsky.py:get_edges"]}
{"id": "C72", "title": "Arrays become meshes", "statement": "ArrayMesh returns, for an array of any shape gathered on one process or scattered in C order, a mesh whose values are those of the array; it raises ValueError if the array is scattered or complex and no mesh size is given.", "quantifier": "all arrays, types, mesh sizes and numbers of processes", "why_tests_cant": "All shapes and distributions of the array.", "anchors": ["mockfactory/gaussian_mock.py:ArrayMesh"]}
{"id": "C73", "title": "Tabulated masks of higher order select as the table says", "statement": "TabulatedRadialMask with interp_order of 2 and more (3 by default) can be built for every table of non-negative densities, in finite time; its probability is between 0 and 1, 0 outside of the redshift range, the density times the normalization (at most 1) at tabulated redshifts, proportional to the interpolated density when nothing has to be cut, and without normalization given the largest probability over the redshift range is 1.", "quantifier": "all tables, ranges, orders and interpolators with the contract of scipy splines", "why_tests_cant": "All tables; convergence of an unbounded search.", "anchors": ["mockfactory/make_survey.py:TabulatedRadialMask.__init__", "mockfactory/make_survey.py:TabulatedRadialMask.prepare", "mockfactory/make_survey.py:TabulatedRadialMask.prob"]}
{"id": "C74", "title": "Remapping of the box for the DESI footprint", "statement": "remap_the_box returns a box with the same objects (all columns), the sides of the remapped cuboid in the order (third, first, second), every object at the remapped position with its coordinates in this order, in the new box, velocities turned the same way.", "quantifier": "all box catalogs", "why_tests_cant": "All catalogs and positions.", "anchors": ["desi/from_box_to_desi_cutsky.py:remap_the_box"]}
{"id": "C75", "title": "Same seed, same objects", "statement": "Functions that take a seed give the same result whenever they are called with the same seed and arguments, on any number of processes: masks applied to catalogs, sampling of redshifts and sky positions, smearing.", "quantifier": "all seeds, catalogs, numbers of processes and states of the unseeded generator", "why_tests_cant": "All states of the global random generator.", "anchors": ["mockfactory/make_survey.py:BaseMask.__call__", "mockfactory/make_survey.py:BaseRadialMask.sample", "mockfactory/make_survey.py:BaseAngularMask.sample", "desi/from_box_to_desi_cutsky.py:generate_redshifts"]}
{"id": "C76", "title": "The two versions of fibre assignment agree", "statement": "fiber_assignment_v0.apply_fiber_assignment, which runs fiberassign once for all the tiles of a process, gives the same targets as fiber_assignment.apply_fiber_assignment, which runs it tile by tile, when fiberassign treats each tile on its own and all fibres work.", "quantifier": "all targets, tiles, passes and distributions over processes", "why_tests_cant": "All targets, tiles and distributions.", "anchors": ["mockfactory/desi/fiber_assignment_v0.py:apply_fiber_assignment", "mockfactory/desi/fiber_assignment.py:apply_fiber_assignment"]}
{"id": "C77", "title": "Processes never wait for each other for ever", "statement": "In every function that communicates, all processes make the same sequence of collective calls whatever data they hold (including none), so that the function returns, or fails, on all of them.", "quantifier": "all numbers of processes, all distributions of the data, all random draws", "why_tests_cant": "All distributions of the data over processes, including empty ones, and all numbers of rounds of loops.", "anchors": ["mockfactory/make_survey.py:RandomBoxCatalog", "mockfactory/make_survey.py:UniformRadialMask.sample", "mockfactory/make_survey.py:TabulatedRadialMask.normalize", "mockfactory/make_survey.py:RedshiftDensityInterpolator", "mockfactory/desi/fiber_assignment.py:apply_fiber_assignment", "mockfactory/desi/fiber_assignment_v0.py:apply_fiber_assignment", "mockfactory/desi/brick_pixel_quantities.py:get_brick_pixel_quantities", "mockfactory/blinding/catalog.py:CutskyCatalogBlinding"]}
{"id": "C78", "title": "Covariance of the SV3 rosettes", "statement": "The covariance script weights the correlation function of every group of rosettes with its share of random pairs, region by region rescaled to the number of data pairs; in every bin the weights sum to one, the mean is the weighted mean, and the covariance matrix is symmetric and has no negative direction; it needs at least two mocks.", "quantifier": "all counts, numbers of groups, mocks and bins", "why_tests_cant": "All counts.", "anchors": ["desi/covariance_from_desi_sv3_cutsky.py:<module>"]}
{"id": "C79", "title": "Integers stand for the same numbers", "statement": "A function given positions, angles or vectors as integers returns what it returns for the same numbers written as floats, in particular it raises the same errors.", "quantifier": "all functions on positions and angles, all arrays", "why_tests_cant": "All arrays and all their types.", "anchors": ["mockfactory/make_survey.py:rotation_matrix_from_two_vectors", "mockfactory/utils.py:sky_to_cartesian", "mockfactory/remap.py:Cuboid.transform", "mockfactory/remap.py:Cuboid.inverse_transform"]}
{"id": "C80", "title": "Catalogs do not change behind their back", "statement": "A catalog exported from a mock, once made, is changed by nothing but calls on itself: drawing again, redshift-space distortions of the mock, moves of other catalogs and padding (of itself too) leave its positions, its displacements and its box as they are.", "quantifier": "all sequences of drawings, distortions, exports, moves and paddings", "why_tests_cant": "All histories; whether arrays are shared is invisible to a test of one call.", "anchors": ["mockfactory/lagrangian_mock.py:LagrangianLinearMock.set_rsd", "mockfactory/lagrangian_mock.py:LagrangianLinearMock.to_catalog", "mockfactory/make_survey.py:BoxCatalog.pad"]}
{"id": "C81", "title": "Guarantees that survive rounding", "statement": "In double precision too: an angle wrapped by wrap_angle is at least 0 and less than a full turn; positions wrapped to the box or drawn in it are in the box, its upper limit excluded; the distance of a position is exact within four roundings and never below one of its coordinates, so the declination of every position that is not the origin is a number.", "quantifier": "all floating-point numbers, with rounding to nearest", "why_tests_cant": "All floating-point inputs; failures hide in a few of 2^64 numbers.", "anchors": ["mockfactory/utils.py:wrap_angle", "mockfactory/utils.py:distance", "mockfactory/utils.py:cartesian_to_sky", "mockfactory/make_survey.py:RandomBoxCatalog", "mockfactory/lagrangian_mock.py:LagrangianLinearMock.poisson_sample", "mockfactory/remap.py:Cuboid.inverse_transform"]}
{"id": "C82", "title": "Sampled objects are independent and follow the documented law", "statement": "If the numbers of the generator are independent and equally likely, then, given that sampling from a mask ends, all objects it returns on all processes are independent, each distributed as a candidate given that the mask keeps it, whatever the sizes and the number of rounds; a candidate is kept with its selection probability; candidates are uniform in volume (distances), on the sphere (angles) and in the box (RandomBoxCatalog), up to the step of the generator.", "quantifier": "all masks, sizes on all processes, numbers of rounds, joint events of the objects returned, steps of the generator", "why_tests_cant": "Joint distributions of arbitrarily many objects; a test sees one draw, and rejection loops with a data-dependent end can bias what they return.", "anchors": ["mockfactory/make_survey.py:BaseRadialMask.sample", "mockfactory/make_survey.py:BaseAngularMask.sample", "mockfactory/make_survey.py:BaseMask.__call__", "mockfactory/make_survey.py:RandomBoxCatalog", "mockfactory/make_survey.py:RandomCutskyCatalog"]}
{"id": "C83", "title": "Moves stay rigid under rounding", "statement": "In floating-point arithmetic, after any sequence of translations and rotations, the isometry applied to any position is close to the exact rigid motion, with an explicit bound that grows with the number of calls and the size of the coordinates; hence distances between objects are kept within twice that bound, and moving and moving back returns close to the start.", "quantifier": "all sequences of calls, positions and roundings of relative accuracy u", "why_tests_cant": "All histories of calls and all inputs; errors of a test are below its tolerance by luck of the numbers chosen.", "anchors": ["mockfactory/make_survey.py:EuclideanIsometry.transform", "mockfactory/make_survey.py:EuclideanIsometry.dot", "mockfactory/make_survey.py:EuclideanIsometry.rotation", "mockfactory/make_survey.py:EuclideanIsometry.translation"]}
{"id": "C84", "title": "Mocks have the power spectrum asked for, on average over seeds", "statement": "If the white noise of pmesh has uncorrelated modes of unit variance, then on average over seeds: two different modes of the density field are uncorrelated and each has the variance P(k) / V given by the power spectrum asked for; if opposite modes are asked the same power, the two-point function of the field depends on the separation only and is the Fourier sum of b^2 P(k) / V; after set_rsd with a fixed line of sight each mode of an Eulerian mock, away from the Nyquist frequencies, has variance (b + f mu^2)^2 P(k) / V; and set_real_white_noise adds 1 / nbar to the power of every mode.", "quantifier": "all power spectra, meshes, boxes, biases, growth rates, lines of sight, modes, and laws of the noise", "why_tests_cant": "An average over infinitely many seeds, for every mode of every mesh: a test measures one seed, with a scatter of order one per mode.", "anchors": ["mockfactory/gaussian_mock.py:BaseGaussianMock.set_complex_delta_field", "mockfactory/gaussian_mock.py:BaseGaussianMock.set_real_delta_field", "mockfactory/gaussian_mock.py:BaseGaussianMock.set_real_white_noise", "mockfactory/eulerian_mock.py:EulerianLinearMock.set_rsd"]}
{"id": "C85", "title": "Sampled catalogs trace the density field, on average over seeds", "statement": "If the Poisson generator draws uncorrelated numbers with the mean and variance of a Poisson law, then on average over seeds the number of objects of poisson_sample in each cell is nbar (1 + delta) times the volume of the cell, different cells are uncorrelated given the field, and every mode of the counts of objects has the power of the field plus the shot noise of the catalog, 1 / nbar for a constant density and a field of mean zero.", "quantifier": "all fields, selection functions, meshes, boxes, modes, distributions over processes, laws of the generator", "why_tests_cant": "An average over infinitely many seeds for every cell and mode; a test sees one draw.", "anchors": ["mockfactory/gaussian_mock.py:BaseGaussianMock.poisson_sample"]}
{"id": "C86", "title": "The SV3 script puts the box in front of each group of rosettes and matches the number of data", "statement": "For each mock and group of rosettes, the SV3 script moves the remapped box as a whole so that its first side lies along the mean direction of the rosettes, its far face at the distance of the upper redshift and its other sides turned by the angle of the group, in the same way for data and randoms. Every object written is an object of the box with its columns, observed at its position (with redshift space distortions for data), in a tile of the group and in the redshift range. The data of a region are thinned to the number of observed data on average, objects being kept independently of each other; one file of data per group and mock is written, and one file of randoms for the first mocks.", "quantifier": "all boxes, catalogs, groups of rosettes, directions, lattice vectors, angles, distances, tiles, selection functions, numbers of mocks and random numbers", "why_tests_cant": "The script needs the survey data and hours of computing; a run shows one box and one set of random numbers.", "anchors": ["desi/from_box_to_desi_sv3_cutsky.py:__main__", "mockfactory/make_survey.py:BoxCatalog.isometry_for_cutsky", "mockfactory/make_survey.py:CutskyCatalog.isometry"]}
{"id": "C87", "title": "The blinding procedure of the documentation changes what it says, and nothing else", "statement": "Running the documented steps (blinded cosmology, png weights of randoms, rsd on data, ap on data and randoms) gives catalogs with the same number of objects in the same order and format; data weights are not changed and randoms weights change only by the non-Gaussian signal. With shifts along the line of sight no sky coordinate changes, randoms go to the redshift at which the fiducial distance is the blinded distance of their redshift, and data go there after their distance has moved by the relative change of growth rate times the shift. Zero uncertainties change nothing. Exchanging the two cosmologies undoes ap. A cosmology given by name, by name and parameters, by parameters or as an instance gives the same result.", "quantifier": "all catalogs, weights, fiducial cosmologies and ways to give them, uncertainties, random numbers, reconstructions and redshifts", "why_tests_cant": "Each step needs a reconstruction and a Boltzmann code; a run shows one catalog and one seed.", "anchors": ["mockfactory/blinding/catalog.py:get_cosmo", "mockfactory/blinding/catalog.py:get_cosmo_blind", "mockfactory/blinding/catalog.py:CutskyCatalogBlinding"]}
{"id": "C88", "title": "Each tile is run with its own date, rotation, hardware, targets and stuck fibres", "statement": "In a pass of the fibre assignment, fiberassign is run once per tile, in the order of the table. Each run gets that tile only, with its identifier, position and conditions; the date asked for, else the one of its row, else the middle of the survey; the rotation asked for, else the one of its own position at its own date; the hour angle asked for, else zero; the hardware at the date of the file of that tile; the targets, then the sky targets of that tile and of no other when they are asked for; and the stuck fibres of that tile. A missing file stops the pass.", "quantifier": "all tables of tiles, options, targets, contents of files, rotation and time functions", "why_tests_cant": "The runs need the files of the survey; a test shows one tile and one set of options.", "anchors": ["mockfactory/desi/fiber_assignment.py:_run_assign_init", "mockfactory/desi/fiber_assignment.py:_run_assign_full", "mockfactory/desi/fiber_assignment.py:read_sky_targets", "mockfactory/desi/fiber_assignment.py:_run_fiber_assignment_one_tile", "mockfactory/desi/fiber_assignment.py:_run_fiber_assignment_one_pass"]}
{"id": "C89", "title": "Lagrangian mocks trace the density with bias 1 + b_L and Kaiser distortions at first order", "statement": "To first order in the amplitude of the density field, on average over the random numbers of the sampling, each Fourier mode of a catalog of LagrangianLinearMock after poisson_sample and set_rsd with growth rate f along a fixed line of sight is b_L W + (1 + f mu^2) W' times the mode of the density field, W and W' being the effects of the position within a cell and of the interpolation of displacements; both tend to one for waves long compared with a cell, where this is (1 + b_L + f mu^2), i.e. an Eulerian bias 1 + b_L, but they are not the same: W carries the phase of half a cell and W' none. The difference is bounded by a constant times the square of the amplitude, and wrapping into the box does not matter.", "quantifier": "all density fields, boxes, meshes, Lagrangian biases, growth rates, lines of sight, modes below the Nyquist planes, interpolations and laws of the random numbers", "why_tests_cant": "An average over infinitely many seeds in the limit of a small amplitude: a test sees one noisy mode of one amplitude.", "anchors": ["mockfactory/lagrangian_mock.py:LagrangianLinearMock.set_real_delta_field", "mockfactory/lagrangian_mock.py:LagrangianLinearMock.poisson_sample", "mockfactory/lagrangian_mock.py:LagrangianLinearMock.set_rsd"]}
{"id": "C90", "title": "The archive of sky targets gives every sky target of the tiles once", "statement": "After the sky targets of the survey have been rewritten in a directory as a smaller number of files, reading that directory gives exactly the sky targets of the main and supplementary catalogs that are in the tiles, each once, with the two types of files giving the same rows, whatever the number of files and processes and the order of listings. This still holds when a run has been interrupted at any point and done again, or done again with another number of files.", "quantifier": "all source catalogs, directories, numbers of files, orders of listings, interruption points and histories of runs", "why_tests_cant": "The outcome depends on what earlier, possibly interrupted, runs left in the directory and on the order of listings; a test sees one history.", "anchors": ["mockfactory/desi/fiber_assignment_v0.py:_write_all_skytargets", "mockfactory/desi/fiber_assignment_v0.py:read_sky_targets"]}
{"id": "C91", "title": "Results do not depend on the unit of length", "statement": "Writing every length in another unit (sizes and centers of boxes, distances, positions, displacements, shifts, with power spectra and densities converted accordingly, and functions of the distance read in the new unit) changes nothing but the unit of the results: with the same random numbers, whatever methods of a mock are called and in whatever order, the same calls raise, the density contrast has the same values, the same objects are drawn, and positions and displacements are the same lengths in the new unit; sky coordinates of points, footprints of boxes, rotations of isometries, replications and remappings of boxes and the objects kept by cuts follow.", "quantifier": "all units, boxes, meshes, spectra, densities, random numbers, histories of method calls, catalogs and isometry programs", "why_tests_cant": "A constant with a hidden unit (a tolerance, an epsilon, a default) shows only at some scales; tests use one box size.", "anchors": ["mockfactory/gaussian_mock.py:BaseGaussianMock", "mockfactory/eulerian_mock.py:EulerianLinearMock", "mockfactory/lagrangian_mock.py:LagrangianLinearMock", "mockfactory/make_survey.py:EuclideanIsometry", "mockfactory/make_survey.py:box_to_cutsky", "mockfactory/make_survey.py:cutsky_to_box", "mockfactory/make_survey.py:BoxCatalog", "mockfactory/remap.py:Cuboid"]}
{"id": "C92", "title": "Results do not depend on where the box is", "statement": "Moving a box by a vector (its center and the positions in it) moves the results by that vector and changes nothing else. For mocks with a constant density and bias, growth rates that are numbers and fixed lines of sight, with the same random numbers, whatever methods are called and in whatever order (as long as poisson_sample of a Lagrangian mock does not raise): the same calls raise, fields are the same, the same objects are drawn, moved by the vector, with the same displacements, and fields read at moved positions are the same. For catalogs in a box: translations, cuts (with limits moved, or in units of the box), paddings and remappings give the moved catalog, rotations the catalog moved by the rotated vector, redshift space distortions along a fixed line of sight the moved positions; recentred catalogs and cut skies are the same catalogs, column by column.", "quantifier": "all boxes, vectors, catalogs, meshes, random numbers, sequences of calls, ranges, margins, numbers of outputs and masks", "why_tests_cant": "A box that is not centered on the origin in every combination of calls; tests use one center.", "anchors": ["mockfactory/gaussian_mock.py:BaseGaussianMock", "mockfactory/eulerian_mock.py:EulerianLinearMock", "mockfactory/lagrangian_mock.py:LagrangianLinearMock", "mockfactory/make_survey.py:BoxCatalog", "mockfactory/make_survey.py:ParticleCatalog.rsd_position"]}
{"id": "C93", "title": "Objects are treated one by one", "statement": "Rotations, translations, recentring, remapping and redshift space distortions (with a fixed line of sight or a local one) of a catalog give for each object what they give for the catalog of that object alone; selecting rows of the catalog before (any rows, in any order, any of them several times) or after gives the same catalog, also through any sequence of such calls. Cuts (sub-boxes, cut skies with masks that treat objects one by one) select the same objects whatever other objects are there, with the same columns. Cutting a catalog in pieces, treating them and putting the results together is the same as treating the catalog, so results do not depend on the number of processes nor on the order of rows.", "quantifier": "all catalogs, selections of rows, sequences of calls, isometries, ranges, masks and line of sight", "why_tests_cant": "A dependence on other rows shows for some catalogs only (one row, three rows, equal rows), and tests compare one catalog.", "anchors": ["mockfactory/make_survey.py:ParticleCatalog.rsd_position", "mockfactory/make_survey.py:CutskyCatalog.isometry", "mockfactory/make_survey.py:BoxCatalog", "mockfactory/utils.py:vector_projection"]}
{"id": "C94", "title": "Moves are undone by the opposite moves", "statement": "A history of translations and quarter turns of a box catalog followed by the opposite moves in reverse order gives the catalog back, with its box, whatever the history, and no call raises. The same holds of histories of translations, rotations and matrices of an isometry made in the frame of the origin. Redshift space distortions with a factor f, written back in the catalog, are undone by those with the factor -f, along an axis or from the observer (unless an object is put on the observer). The rescaling of distances between two cosmologies is undone by the rescaling back, for all formats of positions. Changing the cosmology of a tabulated mask back gives the same density.", "quantifier": "all catalogs, histories of moves, axes in any spelling, factors, lines of sight, cosmologies and formats of positions", "why_tests_cant": "Tests undo one move of one catalog; a box that keeps a wrong size or center shows for some histories only.", "anchors": ["mockfactory/make_survey.py:BoxCatalog.translate", "mockfactory/make_survey.py:BoxCatalog.rotate", "mockfactory/make_survey.py:EuclideanIsometry", "mockfactory/make_survey.py:ParticleCatalog.rsd_position", "mockfactory/blinding/catalog.py:CutskyCatalogBlinding.ap"]}
{"id": "C95", "title": "Cuts of boxes are consistent under rounding", "statement": "Computed in floating-point numbers of any format, with any rounding mode, subbox keeps whole rows in order, and the sub-boxes of any grid of ranges hold together exactly the rows of the sub-box spanned by the grid, each once: no object is lost or taken twice at the inner limits. Nested ranges select nested sets of rows. The limits are those of exact arithmetic up to a few rounding errors, so that objects that are not so close to a limit are selected as in exact arithmetic, and the objects kept are in the new box up to a few rounding errors. The sub-box (0, 1) keeps every object of the box, and the objects kept are in the new box.", "quantifier": "all catalogs, boxes, ranges, grids, formats of numbers and rounding modes", "why_tests_cant": "Objects on limits and sizes whose halves are rounded are rare in random catalogs, and depend on the format.", "anchors": ["mockfactory/make_survey.py:BoxCatalog.subbox"]}
{"id": "C96", "title": "No direction is special", "statement": "Turning or mirroring all positions and velocities, and the line of sight given, turns or mirrors the results and changes nothing else: distances, projections, redshift space distortions along a direction or from the observer, and the rescaling of distances of Cartesian positions. Turning positions about the polar axis by an angle adds the angle to their right ascensions (modulo a turn) and changes neither distances nor declinations. Relabelling the three axes of a box relabels the results: translations, quarter turns, recentring and cuts of catalogs, in any history; the Gaussian field, its bias, redshift space distortions of Eulerian mocks along a direction or from the observer, and displacements of Lagrangian mocks.", "quantifier": "all catalogs, orthogonal matrices, lines of sight, histories of calls, meshes (with any number of cells per axis), fields and the six ways of labelling axes", "why_tests_cant": "A formula that treats one axis in another way shows for fields and meshes that are not symmetric; tests use one axis.", "anchors": ["mockfactory/utils.py:vector_projection", "mockfactory/utils.py:cartesian_to_sky", "mockfactory/make_survey.py:ParticleCatalog.rsd_position", "mockfactory/make_survey.py:BoxCatalog", "mockfactory/gaussian_mock.py:BaseGaussianMock", "mockfactory/eulerian_mock.py:EulerianLinearMock.set_rsd", "mockfactory/lagrangian_mock.py:LagrangianLinearMock.set_real_delta_field"]}
{"id": "C97", "title": "Ranges and boxes convert back into each other", "statement": "The box that cutsky_to_box gives for distance, RA and Dec ranges, given to box_to_cutsky with the same distances, gives back the distance range and ranges of the same widths in RA and Dec. The ranges that box_to_cutsky gives for a box, given to cutsky_to_box, give a box whose sides are not larger than those of the box one started with, and the same box when it is limited by its sides.", "quantifier": "all box sizes, maximum and minimum distances, and all distance, RA (crossing 360 or not) and Dec ranges", "why_tests_cant": "The two conversions have six branches in all, on the position of the observer, on which transverse side is larger and on what limits the view; tests try a few boxes.", "anchors": ["mockfactory/make_survey.py:box_to_cutsky", "mockfactory/make_survey.py:cutsky_to_box"]}
{"id": "C98", "title": "Fields and distortions superpose", "statement": "The mock made of the noise a n1 + b n2 has, after any history of calls (complex and real density with a number as bias, redshift space distortions with any factor and line of sight, selection function, white noise, new center), the density and displacement fields a times those of the mock of noise n1 plus b times those of n2, and so for what is read at positions; the calls raise for all three or for none. A power spectrum multiplied by t^2 multiplies the fields by t. The selection function on the mesh is linear in the one given, interlaced or not. Redshift space distortions add up: factors f, then g, are one call with f + g, in any order, for fields (numbers or functions of the distance), and for objects of mocks and catalogs (numbers), along an axis or from the observer.", "quantifier": "all meshes, boxes, power spectra, noises, numbers a and b, histories of calls, positions, resamplers, factors and lines of sight", "why_tests_cant": "Superposition is a statement on all pairs of noises and all histories of calls; tests compare a few fields.", "anchors": ["mockfactory/gaussian_mock.py:BaseGaussianMock", "mockfactory/eulerian_mock.py:EulerianLinearMock.set_rsd", "mockfactory/lagrangian_mock.py:LagrangianLinearMock", "mockfactory/make_survey.py:ParticleCatalog.rsd_position"]}
{"id": "C99", "title": "Moves of boxes under rounding", "statement": "In floating-point numbers, BoxCatalog.translate moves the center and the positions with one rounding per coordinate, and leaves the size, the velocities and the other columns exactly as they are; it keeps the order of the objects along each axis. recenter puts the center exactly at the origin, and recentering again changes nothing. A translation and its opposite bring every coordinate back within two roundings, and exactly if the moved coordinate needs no rounding. After any history of translations and quarter turns, positions, other vectors, center and size are within ((1 + eps)^(4 n) - 1) (L + |v|) of where exact arithmetic puts them, for n moves of total translation L, the rounded history raises what the exact one raises, and objects of the box are in the moved box within these bounds.", "quantifier": "all catalogs, shifts, axes, numbers of quarter turns, histories of moves, roundings, orders of summation inside numpy's products, and accuracies of cosine and sine", "why_tests_cant": "Rounding errors depend on every coordinate and build up along the history; tests compare a few rows with a tolerance.", "anchors": ["mockfactory/make_survey.py:BoxCatalog.translate", "mockfactory/make_survey.py:BoxCatalog.recenter", "mockfactory/make_survey.py:BoxCatalog.rotate", "mockfactory/make_survey.py:EuclideanIsometry"]}
{"id": "C100", "title": "The DESI cut-sky script makes, region by region, data and randoms over the same footprint", "statement": "For each region in turn the DESI cut-sky script turns the same remapped box so that its first side lies along the center of the region, with its far face at the distance of the upper redshift. The file of data holds objects of the box with their columns, at the sky coordinates and (smeared) redshift of their distorted position; each is in the photometric region, in the DESI footprint and in the redshift range, and its random number is at most the probability given by n(z). Ten times as many randoms as there are data before the footprint are drawn in the limits in right ascension and declination around the same center; those in the same footprint get a redshift of the range, and are shared between ten files with none lost. Files of a region depend on no random number drawn for another region, every draw has its own seed, no file is written twice, and a run that stops has written the first files of the list. Data lie in the limits in which randoms are drawn.", "quantifier": "all boxes, catalogs, lattice vectors, distances, n(z) tables, redshift ranges, footprints, lists of regions, formats, numbers of processes and random numbers", "why_tests_cant": "The script needs a cosmology code, the survey footprint and hours of computing; a run shows one box and one set of seeds.", "anchors": ["desi/from_box_to_desi_cutsky.py:__main__", "desi/from_box_to_desi_cutsky.py:apply_rsd_and_cutsky", "mockfactory/make_survey.py:RandomCutskyCatalog"]}
{"id": "C101", "title": "Sky coordinates are precise", "statement": "Computed in floating-point numbers, distance, right ascension (modulo a turn) and declination of every position are within a few roundings of the exact ones, and converting them back gives every position within a few roundings times its distance; sky_to_cartesian gives positions within a few roundings times the distance. Every position whose squares do not underflow gets sky coordinates. In particular positions that differ by much more than a rounding have different sky coordinates.", "quantifier": "all positions, distances, right ascensions and declinations, in degrees or radians, all roundings of relative accuracy u and libraries of accuracy d", "why_tests_cant": "Random positions are rarely near the poles, where the arcsine is badly conditioned; tests compare with tolerances at some positions.", "anchors": ["mockfactory/utils.py:cartesian_to_sky", "mockfactory/utils.py:sky_to_cartesian", "mockfactory/utils.py:wrap_angle", "mockfactory/utils.py:distance"]}
{"id": "C102", "title": "Remapping with rounded numbers loses no position", "statement": "Computed in floating-point numbers, Cuboid.transform gives every position of the box an image; up to a few roundings it is the image given by exact arithmetic (the rotated copy of the position shifted by the same whole number of boxes).", "quantifier": "all cuboids, box sizes and positions in the box, all roundings of a given relative and absolute accuracy; IEEE double precision", "why_tests_cant": "Only positions within a rounding of a face of a cell are at risk; random positions in tests almost never come that near, grids of positions do.", "anchors": ["mockfactory/remap.py:Cuboid.__init__", "mockfactory/remap.py:Cuboid.transform", "mockfactory/remap.py:Cell.isin", "mockfactory/remap.py:Plane.test"]}
