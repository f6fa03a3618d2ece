{
 "claims": [
  {
   "property": "C01",
   "status": "proved",
   "theorems": [
    "C01_history_rigid"
   ],
   "note": ""
  },
  {
   "property": "C02",
   "status": "proved",
   "theorems": [
    "C02_velocity_is_difference",
    "C02_velocity_keeps_length",
    "C02_translation_irrelevant"
   ],
   "note": ""
  },
  {
   "property": "C03",
   "status": "proved",
   "theorems": [
    "C03_concatenate_applies_in_order",
    "C03_grouping_and_identity",
    "C03_extend_and_add"
   ],
   "note": ""
  },
  {
   "property": "C04",
   "status": "partial",
   "theorems": [
    "C04_two_vectors_partial",
    "C04_two_vectors_refuted"
   ],
   "note": "Proved for all non-zero vectors that do not point in opposite directions. Refuted for opposite vectors: the code returns the identity."
  },
  {
   "property": "C05",
   "status": "proved",
   "theorems": [
    "C05_axis_angle_formula",
    "C05_is_rotation_fixing_axis",
    "C05_axis_meaning",
    "C05_angles_add",
    "C05_zero_angle_identity",
    "C05_right_hand_rule"
   ],
   "note": ""
  },
  {
   "property": "C06",
   "status": "partial",
   "theorems": [
    "C06_dot_frames",
    "C06_translation_frames",
    "C06_reset_rotation_frames",
    "C06_bad_frame_partial",
    "C06_dot_atomic_refuted",
    "C06_rotation_ignores_frame",
    "C06_rotation_current_refuted",
    "C06_rotation_origin"
   ],
   "note": "dot, translation and reset_rotation follow their frame. Refuted: rotation() ignores its frame argument; dot() has already rotated when it raises on an invalid frame."
  },
  {
   "property": "C07",
   "status": "partial",
   "theorems": [
    "C07_cartesian_sky_cartesian",
    "C07_sky_cartesian_sky",
    "C07_integer_arguments_refuted"
   ],
   "note": "Both round trips proved for float coordinates. Refuted for integer arguments: the result array takes the integer type and truncates."
  },
  {
   "property": "C08",
   "status": "proved",
   "theorems": [
    "C08_wrap_angle",
    "C08_wrap_decides_direction",
    "C08_wrap_idempotent"
   ],
   "note": ""
  },
  {
   "property": "C09",
   "status": "partial",
   "theorems": [
    "C09_area_element",
    "C09_area_additive",
    "C09_area_nonnegative_partial",
    "C09_area_full_sky",
    "C09_crossing_range_refuted",
    "C09_crossing_every_range_refuted"
   ],
   "note": "Area element, additivity, full sky, and non-negativity on ordered ranges proved. Refuted for RA ranges that cross 360: C09_crossing_every_range_refuted shows the area is negative for every such range and gives the exact shortfall."
  },
  {
   "property": "C10",
   "status": "proved",
   "theorems": [
    "C10_projection_one_direction",
    "C10_projection_own_directions",
    "C10_projection_direction_only",
    "C10_projection_idempotent",
    "C10_projection_linear"
   ],
   "note": ""
  },
  {
   "property": "C11",
   "status": "proved",
   "theorems": [
    "C11_cdf_edges",
    "C11_cdf_increasing",
    "C11_ppf_in_support_and_inverse",
    "C11_cdf_then_ppf",
    "C11_pdf_is_derivative"
   ],
   "note": ""
  },
  {
   "property": "C12",
   "status": "partial",
   "theorems": [
    "C12_rotate",
    "C12_containment",
    "C12_volume_and_sides",
    "C12_turns_add",
    "C12_full_turn",
    "C12_default_axis_refuted"
   ],
   "note": "Proved for every integer number of quarter turns about x, y, z. Refuted for the documented default axis: None means the diagonal (1,1,1), and the box changes volume."
  },
  {
   "property": "C13",
   "status": "proved",
   "theorems": [
    "C13_translate",
    "C13_recenter",
    "C13_containment"
   ],
   "note": ""
  },
  {
   "property": "C14",
   "status": "proved",
   "theorems": [
    "C14_subbox_rows",
    "C14_one_range",
    "C14_wrong_number_of_ranges",
    "C14_new_box",
    "C14_grid_partition"
   ],
   "note": ""
  },
  {
   "property": "C15",
   "status": "partial",
   "theorems": [
    "C15_rows_are_images_partial",
    "C15_particle_lost_refuted",
    "C15_particle_tripled_refuted",
    "C15_factor_above_two_refuted",
    "C15_exactly",
    "C15_box_emptied_refuted"
   ],
   "note": "C15_exactly gives the exact output of pad and the exact condition for success (all factors in (0, 2]). Refuted parts: for every factor above 1 no particle strictly inside the original box is returned, a central particle is tripled for factor 1, and factors above 2 raise."
  },
  {
   "property": "C16",
   "status": "partial",
   "theorems": [
    "C16_cuts_disjoint_inside",
    "C16_particles_apart",
    "C16_single_cut",
    "C16_fits_or_error_partial",
    "C16_one_margin_refuted",
    "C16_zero_external_refuted",
    "C16_exactly"
   ],
   "note": "Whatever list is returned satisfies the property. C16_exactly gives the exact condition on the margins under which several cuts are returned rather than ValueError; refuted theorems show margins for which that differs from the English claim."
  },
  {
   "property": "C17",
   "status": "partial",
   "theorems": [
    "C17_selected_rows",
    "C17_one_isometry",
    "C17_list_of_isometries_partial",
    "C17_list_rdd_ignored_refuted"
   ],
   "note": "Proved for one isometry with arbitrary masks. For a list the column names argument is ignored (refuted theorem)."
  },
  {
   "property": "C18",
   "status": "partial",
   "theorems": [
    "C18_observer_inside_partial",
    "C18_observer_outside_partial",
    "C18_observer_outside_refuted",
    "C18_dec_range_refuted",
    "C18_outside_exactly"
   ],
   "note": "Observer inside: whole region in the box. Observer outside: C18_outside_exactly, the region is in the box exactly when one of its two angular widths is zero, so the full claim is refuted there."
  },
  {
   "property": "C19",
   "status": "partial",
   "theorems": [
    "C19_covers_symmetric_partial",
    "C19_axis_points_to_centre",
    "C19_full_circle_refuted",
    "C19_wide_range_refuted",
    "C19_off_equator_refuted",
    "C19_shell_corner_refuted",
    "C19_exactly",
    "C19_polar_cap_exactly"
   ],
   "note": "C19_exactly: for declination ranges away from the poles and RA widths below 360, the box holds the region exactly when the stated conditions hold. C19_polar_cap_exactly does the same for caps around the north pole starting at the observer. Other inputs are refuted by witnesses."
  },
  {
   "property": "C20",
   "status": "partial",
   "theorems": [
    "C20_fixed_line_of_sight",
    "C20_transverse_unchanged",
    "C20_local_line_of_sight",
    "C20_local_keeps_sky_position",
    "C20_observer_position",
    "C20_rest",
    "C20_callable_one_particle_partial",
    "C20_callable_raises_refuted",
    "C20_callable_three_particles_refuted"
   ],
   "note": "Fixed and local line of sight proved for all catalogs. Callable factor: proved for one particle, refuted otherwise (raises for any number of particles except 1 and 3; mixes factors for 3)."
  },
  {
   "property": "C21",
   "status": "partial",
   "theorems": [
    "C21_volume_exactly",
    "C21_orthogonal_edges",
    "C21_volume_partial",
    "C21_anisotropic_volume_refuted",
    "C21_tiling",
    "C21_rejected"
   ],
   "note": "Edges, directions, sizes, fundamental domain and rejection proved. Volume proved for cubic boxes, refuted for a box with unequal sides; exactly: the volume of the cuboid is never below that of the box and equals it if and only if every edge lies along axes of equal sides (C21_volume_exactly)."
  },
  {
   "property": "C22",
   "status": "proved",
   "theorems": [
    "C22_round_trip",
    "C22_velocities",
    "C22_rows"
   ],
   "note": "With real numbers. In double precision transform may refuse a position that lies within a rounding of a face of a cell: see C102."
  },
  {
   "property": "C23",
   "status": "partial",
   "theorems": [
    "C23_lands_in_cuboid_partial",
    "C23_image_exists",
    "C23_reversed_axes_refuted",
    "C23_shifted_twice_refuted"
   ],
   "note": "Proved for bases whose edges satisfy |e|^2 <= sum of positive coordinates (includes the basis of the tests). Refuted in general: reversed axes; positions shifted by two cells in turn."
  },
  {
   "property": "C24",
   "status": "partial",
   "theorems": [
    "C24_gcd",
    "C24_gcd_unique",
    "C24_single_refuted",
    "C24_no_argument",
    "C24_coprime_triples"
   ],
   "note": "Proved for two or more arguments and for coprime_triples on any range. A single negative argument is returned unchanged (refuted theorem)."
  },
  {
   "property": "C25",
   "status": "partial",
   "theorems": [
    "C25_enumeration",
    "C25_maxcomb_zero_refuted",
    "C25_repeated_refuted"
   ],
   "note": "Sound and complete for every maxint, maxcomb, box size, ranges, sort and set order. Refuted parts: maxcomb=0 keeps one basis per size, and bases are repeated."
  },
  {
   "property": "C26",
   "status": "partial",
   "theorems": [
    "C26_rows",
    "C26_certain_acceptance",
    "C26_certain_rejection_partial",
    "C26_zero_draw_refuted"
   ],
   "note": "acceptance at probability 1 and row independence proved; rejection at probability 0 proved unless the draw is exactly 0, where it is refuted"
  },
  {
   "property": "C27",
   "status": "proved",
   "theorems": [
    "C27_uniform_radial",
    "C27_default_range"
   ],
   "note": "proved"
  },
  {
   "property": "C28",
   "status": "partial",
   "theorems": [
    "C28_default_exactly",
    "C28_probability",
    "C28_follows_table",
    "C28_default_maximum_partial",
    "C28_default_maximum_refuted",
    "C28_refused"
   ],
   "note": "linear interpolation; the default normalisation reaches 1 if and only if the largest density over the range is that of a tabulated redshift of the range (C28_default_exactly; in particular for the whole table), refuted in general: the table is cut at 1 outside of the range"
  },
  {
   "property": "C29",
   "status": "partial",
   "theorems": [
    "C29_reaches_target_partial",
    "C29_monotone",
    "C29_reachable",
    "C29_refused",
    "C29_unweighted_refuted",
    "C29_zero_target_refuted"
   ],
   "note": "weighted samples proved, given the contract of brentq; unweighted samples refuted (sum, not mean, is set to the target); target 0 refuted"
  },
  {
   "property": "C30",
   "status": "partial",
   "theorems": [
    "C30_selects_arc_partial",
    "C30_default_ranges",
    "C30_crossing_refuted",
    "C30_wide_refuted",
    "C30_exactly"
   ],
   "note": "C30_exactly: the masks select the arc exactly for followed ranges (written downwards, inside one turn, or the whole circle). Refuted for the others, with witnesses."
  },
  {
   "property": "C31",
   "status": "partial",
   "theorems": [
    "C31_sizes",
    "C31_kept",
    "C31_first_kept",
    "C31_ends",
    "C31_nothing_refuted",
    "C31_empty_mask_refuted",
    "C31_radial_candidates",
    "C31_angular_candidates"
   ],
   "note": "sizes, provenance, order and end of the loop proved for all processes and draws; refuted when nothing is asked for (error) and for masks that keep nothing (no end)"
  },
  {
   "property": "C32",
   "status": "proved",
   "theorems": [
    "C32_rows",
    "C32_dispatch"
   ],
   "note": "proved"
  },
  {
   "property": "C33",
   "status": "proved",
   "theorems": [
    "C33_conserved",
    "C33_back",
    "C33_same_distances",
    "C33_succeeds"
   ],
   "note": "proved, including success of the conversion"
  },
  {
   "property": "C34",
   "status": "partial",
   "theorems": [
    "C34_bins",
    "C34_total",
    "C34_covers",
    "C34_processes",
    "C34_interpolator",
    "C34_communicator_refuted"
   ],
   "note": "weight per bin and in total, coverage of automatic bins, independence of the processes, and the interpolator proved for all samples; refuted: Scott's rule counts the objects of the current communicator, not of the one given"
  },
  {
   "property": "C35",
   "status": "partial",
   "theorems": [
    "C35_box_number",
    "C35_box_positions",
    "C35_cutsky",
    "C35_density_crossing_refuted",
    "C35_nothing_refuted",
    "C35_gap_refuted",
    "C35_cutsky_exactly"
   ],
   "note": "number, region and positions proved for all streams and processes; C35_cutsky_exactly: a catalog of one object or more is made for all streams exactly when the right ascension range is not broken (written upwards with its end, brought to one turn, not above its start). Refuted: density with a range such as (300, 40) is an error, csize = 0 is an error, ordered ranges across RA 0 are not filled"
  },
  {
   "property": "C36",
   "status": "partial",
   "theorems": [
    "C36_tabulated_cdf",
    "C36_average",
    "C36_sample_range_partial",
    "C36_quantiles",
    "C36_rvs_cdf_partial",
    "C36_upper_infinite_refuted",
    "C36_lower_infinite_refuted",
    "C36_sample_range_refuted",
    "C36_flat_refuted",
    "C36_disjoint_refuted"
   ],
   "note": "Every tabulated column runs from 0 to 1 without decreasing and equals the cumulated density (or the cdf of the distribution given), averages stay between their members, tabulated quantiles invert the table and stay in the dz range. Refuted in the code: between tabulated quantiles the cubic spline leaves the dz range; a density with a zero between its ends, or densities without common support, are refused; distributions bounded below only (with a scale), or unbounded below with different upper bounds, are always refused. Partial: the cubic splines are a hypothesis; for distributions the theorem covers the supports listed in tabulated_well."
  },
  {
   "property": "C37",
   "status": "partial",
   "theorems": [
    "C37_from_cells",
    "C37_required",
    "C37_from_box",
    "C37_sizes_differ_refuted",
    "C37_cellsize_ignored_refuted"
   ],
   "note": "From mesh and cell sizes the box is made of whole cells; from box and cell sizes the number of cells is the nearest integer; at least two of the three are required. Refuted: box and cell sizes that do not divide are not made consistent, and a cell size given along with both others is ignored."
  },
  {
   "property": "C38",
   "status": "proved",
   "theorems": [
    "C38_zero_mean",
    "C38_inverted_phase",
    "C38_unitary_amplitude",
    "C38_lognormal",
    "C38_hermitian",
    "C38_real"
   ],
   "note": "Zero mean for every noise field and linear bias, exact sign flip with inverted phase, exact power with unitary amplitude, mean one and positivity of the lognormal density, reality of the fields. Complex fields are modelled on the full mesh; pmesh's transforms are modelled by their sums."
  },
  {
   "property": "C39",
   "status": "proved",
   "theorems": [
    "C39_cells",
    "C39_number",
    "C39_processes",
    "C39_negative_density"
   ],
   "note": "Each object lies in the cell it was drawn in, their number is the sum of the numbers drawn, in the box, and the catalog does not depend on how cells are shared between processes. Sampling succeeds exactly when no cell has a negative density (the code passes negative means to the Poisson generator, which raises). pmesh's particle grid, mpsort and the generators are contracts."
  },
  {
   "property": "C40",
   "status": "partial",
   "theorems": [
    "C40_local_exactly",
    "C40_fixed",
    "C40_local_partial",
    "C40_fixed_is_local_partial",
    "C40_observer_refuted",
    "C40_odd_mesh_refuted"
   ],
   "note": "Fixed line of sight: exact for all fields. Local line of sight: exact for fields without modes on the planes taken as Nyquist planes, with no cell at the observer. Exactly (C40_local_exactly): it succeeds if and only if no node is at the observer, and then the result is the formula with the cross terms left out on those planes. Refuted: a cell at the observer gives NaN (default center, even mesh); on odd meshes the frequency (n - 1) / 2 is treated as Nyquist and cross terms are lost."
  },
  {
   "property": "C41",
   "status": "partial",
   "theorems": [
    "C41_in_box",
    "C41_rsd_fixed",
    "C41_rsd_local",
    "C41_callable_raises_refuted",
    "C41_leaves_box_refuted"
   ],
   "note": "Positions after sampling are the displaced ones modulo the box and lie in it; RSD move along the line of sight only. Refuted: set_rsd does not wrap, so that positions leave the box; a callable f raises unless there are one or three objects."
  },
  {
   "property": "C42",
   "status": "partial",
   "theorems": [
    "C42_interval_partial",
    "C42_values",
    "C42_others",
    "C42_prefix",
    "C42_growth_needs_redshift",
    "C42_order_refuted",
    "C42_density_at_redshift_refuted"
   ],
   "note": "Each parameter is drawn within its uncertainty of the fiducial value read at z; parameters not asked for are kept; adding parameters at the end changes nothing before. Refuted: the order of the dictionary matters; with a redshift (needed for f, part of the defaults) Omega_m is drawn around its value at z, not today's. clone is a contract; the interval statement is about the drawn stream in [0, 1). The value read for each name is characterised exactly (C42_values)."
  },
  {
   "property": "C43",
   "status": "proved",
   "theorems": [
    "C43_cartesian",
    "C43_angles",
    "C43_rdd",
    "C43_rdz",
    "C43_identity_cartesian",
    "C43_identity_rdd",
    "C43_identity_rdz",
    "C43_observer"
   ],
   "note": "All formats: direction kept, distance is the blinded one at the redshift, identity when distances agree (d2z exact at the points). Away from poles and observer for sky formats."
  },
  {
   "property": "C44",
   "status": "partial",
   "theorems": [
    "C44_cartesian",
    "C44_sky",
    "C44_processes",
    "C44_null_growth",
    "C44_larger_growth",
    "C44_equal_growth_refuted"
   ],
   "note": "All formats and all distributions over processes: directions and unselected objects kept, distances permuted. Refuted: when growth rates agree everything is shuffled instead of nothing."
  },
  {
   "property": "C45",
   "status": "partial",
   "theorems": [
    "C45_rsd_linear",
    "C45_rsd_identity",
    "C45_rsd_same_cosmology_refuted",
    "C45_png_nothing",
    "C45_png_linear",
    "C45_png_scale",
    "C45_png_same_fnl_refuted",
    "C45_png_shotnoise_refuted",
    "C45_png_instance_raises",
    "C45_png_barycentre"
   ],
   "note": "rsd: displacement proportional to relative growth change, identity when growth rates agree, in all formats. png: weights unchanged for fnl = 0 or bias 1, linear in fnl, equal to scale-dependent bias on a single scale, barycentre kept for positions. Refuted: a blinded cosmology without stored f is refused even if equal to the fiducial one; fiducial fnl is ignored; fnl = 0 with shot-noise correction gives NaN; recon instance with shot-noise correction raises. Reconstruction and readout are contracts."
  },
  {
   "property": "C46",
   "status": "partial",
   "theorems": [
    "C46_pos",
    "C46_xyz",
    "C46_rdd",
    "C46_rdz",
    "C46_errors",
    "C46_ap_format",
    "C46_shuffle_format",
    "C46_rsd_format",
    "C46_png_positions_refuted"
   ],
   "note": "Round trips for pos, xyz, rdd (on the sky, positive distance), rdz (exact inverse); formats of outputs of ap, shuffle, rsd; errors. Refuted for the position methods of png, which return Cartesian rows whatever the format."
  },
  {
   "property": "C47",
   "status": "partial",
   "theorems": [
    "C47_budget",
    "C47_counts",
    "C47_overlap_refuted"
   ],
   "note": "Full for tiles of a pass that do not overlap (contract own_targets); budget theorem holds for any fiberassign. False when tiles of a pass overlap (C47_overlap_refuted): an overlapped target is observed twice in a pass and NUMOBS_MORE becomes negative."
  },
  {
   "property": "C48",
   "status": "partial",
   "theorems": [
    "C48_untouched",
    "C48_distribution",
    "C48_overlap_refuted"
   ],
   "note": "Independent of the sharing of rows between processes when fiberassign only depends on, and reaches, the targets of the tile; untouched rows and order for any fiberassign. False when tiles of a pass overlap (C48_overlap_refuted)."
  },
  {
   "property": "C49",
   "status": "partial",
   "theorems": [
    "C49_available_exactly",
    "C49_fibers",
    "C49_working",
    "C49_available_partial",
    "C49_flags",
    "C49_available_refuted"
   ],
   "note": "One target per fibre, working fibres only, and flags proved. Observed targets available only if all placed fibres work (C49_available_partial); C49_available_refuted shows a target observed by a working fibre and not flagged available because the first fibre reaching it is broken; C49_available_exactly: a target is flagged if and only if the first used fibre that reaches it, in the order of the table, works."
  },
  {
   "property": "C50",
   "status": "partial",
   "theorems": [
    "C50_weight",
    "C50_defined",
    "C50_total",
    "C50_computed",
    "C50_overlap_refuted"
   ],
   "note": "Exact weight, definedness, existence and total proved for outputs of apply_fiber_assignment; false when tiles of a pass overlap (C50_overlap_refuted)."
  },
  {
   "property": "C51",
   "status": "partial",
   "theorems": [
    "C51_files",
    "C51_registered",
    "C51_callables",
    "C51_nothing",
    "C51_unknown",
    "C51_distribution",
    "C51_kind_refuted",
    "C51_missing_refuted",
    "C51_edge_refuted"
   ],
   "note": "Values in the order of objects, for files, registered names and callables that work object by object; result independent of the distribution for readable columns. Refuted: without dtype the first brick fixes the type (floats truncated), callables that leave a column out give unset values, negative pixels wrap around."
  },
  {
   "property": "C52",
   "status": "partial",
   "theorems": [
    "C52_selection",
    "C52_y5",
    "C52_unknown",
    "C52_no_file",
    "C52_passes",
    "C52_default",
    "C52_more_tiles",
    "C52_indices",
    "C52_path",
    "C52_default_path",
    "C52_path_refuted",
    "C52_surveyops_refuted",
    "C52_y5_survey_refuted"
   ],
   "note": "Selection, passes, tiles added, unknown releases proved for every table. Refuted: with DESI_SURVEYOPS only, files are looked for in the wrong directory; with DESI_SPECTRO_REDUX only, DESI_SURVEYOPS is not set; release y5 does not look at the survey."
  },
  {
   "property": "C53",
   "status": "partial",
   "theorems": [
    "C53_nodes",
    "C53_orders",
    "C53_order_two",
    "C53_order_three_refuted"
   ],
   "note": "Without interlacing the selection function is evaluated at the nodes; with order two the result is exact for every selection function that is a finite sum of resolved plane waves; for any order the result is the mean of the values at points displaced by i / order - i / 2 cells, which refutes orders three and more."
  },
  {
   "property": "C54",
   "status": "partial",
   "theorems": [
    "C54_exactly",
    "C54_independent_partial",
    "C54_radd_copy_refuted"
   ],
   "note": "Proved when no object was obtained as 0 + other. Refuted otherwise: the copy shares the translation array. C54_exactly: for all histories, a call on one object changes another if and only if it writes into the translation and both have arrays made by the same call, and then exactly how."
  },
  {
   "property": "C55",
   "status": "partial",
   "theorems": [
    "C55_calls",
    "C55_programs",
    "C55_new",
    "C55_others",
    "C55_overwritten",
    "C55_values",
    "C55_arguments_unchanged_refuted"
   ],
   "note": "Proved for every call and every sequence of calls except rotation_matrix_from_two_vectors, whose float array arguments are overwritten by unit vectors (refuted, with the exact effect); results are new arrays and have the values of the other model files."
  },
  {
   "property": "C56",
   "status": "proved",
   "theorems": [
    "C56_catalog",
    "C56_separations",
    "C56_arguments"
   ],
   "note": ""
  },
  {
   "property": "C57",
   "status": "partial",
   "theorems": [
    "C57_divergence_exactly",
    "C57_irrotational_exactly",
    "C57_divergence_partial",
    "C57_irrotational_partial",
    "C57_zero_mean",
    "C57_odd_mesh_refuted"
   ],
   "note": "Mode by mode, for all modes away from the planes the code takes as Nyquist planes; C57_divergence_exactly and C57_irrotational_exactly say exactly for which modes the divergence and the curl are right. Refuted on odd meshes, where index (n - 1) / 2 is such a plane."
  },
  {
   "property": "C58",
   "status": "proved",
   "theorems": [
    "C58_redshifts",
    "C58_cartesian"
   ],
   "note": "Weighted mean, hence between extremes, from redshifts and Cartesian positions. Positions given on one process only (mpiroot) are not modelled."
  },
  {
   "property": "C59",
   "status": "proved",
   "theorems": [
    "C59_solves",
    "C59_positive"
   ],
   "note": "The factor solves the quadratic equation of the pivot; exists and is positive for positive fnl."
  },
  {
   "property": "C60",
   "status": "partial",
   "theorems": [
    "C60_table",
    "C60_nodes",
    "C60_constructed",
    "C60_refused",
    "C60_outside",
    "C60_linear",
    "C60_increasing",
    "C60_cubic_refuted",
    "C60_single_refuted"
   ],
   "note": "Exact at tabulated redshifts for every interpolation order; linear interpolation proved accurate to the spacing, increasing, within range; outside distances raise. Refuted: cubic splines may decrease between nodes; a table of one redshift."
  },
  {
   "property": "C61",
   "status": "partial",
   "theorems": [
    "C61_merge",
    "C61_last_file",
    "C61_total",
    "C61_distributions",
    "C61_shipped",
    "C61_accepted",
    "C61_refused",
    "C61_error_refuted",
    "C61_uncertainty_refuted",
    "C61_clustering"
   ],
   "note": "Merged tables are increasing and hold exactly the rows below all later files; distributions and weights are those of the rows. Refuted: unknown tracers raise NameError or TypeError and unknown uncertainties are accepted for tracers other than quasars."
  },
  {
   "property": "C62",
   "status": "partial",
   "theorems": [
    "C62_mixture",
    "C62_succeeds",
    "C62_units",
    "C62_quantiles",
    "C62_truncation_partial",
    "C62_narrow_refuted"
   ],
   "note": "Mixture identity at every tabulated redshift and velocity, units, construction for distributions that are not too narrow, exact quantiles at nodes. Refuted: tables narrower than the velocity step are refused. Partial: truncation holds at tabulated probabilities only (cubic splines overshoot between)."
  },
  {
   "property": "C63",
   "status": "proved",
   "theorems": [
    "C63_modes",
    "C63_recovered",
    "C63_unique",
    "C63_mean",
    "C63_amplitudes",
    "C63_linear",
    "C63_names"
   ],
   "note": "Modes are divided by the window of the resampler and by nothing else; this undoes the average over cells, whatever the field, and the mean is kept; names in any case. Nothing missing."
  },
  {
   "property": "C64",
   "status": "partial",
   "theorems": [
    "C64_values",
    "C64_linear",
    "C64_density",
    "C64_translation",
    "C64_case",
    "C64_ngp",
    "C64_compensated",
    "C64_processes",
    "C64_range",
    "C64_refused",
    "C64_not_set",
    "C64_number_refuted",
    "C64_displacements",
    "C64_lagrangian_others",
    "C64_disp_names_refuted",
    "C64_compensate_refuted",
    "C64_sample_compensate_refuted"
   ],
   "note": "Values read are those of the smoothed field at the point, linear, the same on any number of processes, translated with the center. Refuted: readout('nbar') with a number as density raises, compensate is ignored by Lagrangian mocks (readout and poisson_sample), names of displacements other than the documented ones are accepted or not."
  },
  {
   "property": "C65",
   "status": "partial",
   "theorems": [
    "C65_no_field",
    "C65_no_density",
    "C65_no_sample",
    "C65_kept",
    "C65_eulerian",
    "C65_lagrangian",
    "C65_new",
    "C65_from_field",
    "C65_from_real_field",
    "C65_set_complex_refuted",
    "C65_failed_sample_refuted",
    "C65_center_refuted",
    "C65_norm",
    "C65_rsd",
    "C65_white_noise",
    "C65_nbodykit"
   ],
   "note": "Histories of calls: steps out of order raise and change nothing; what is exported after a sample, in cells and in the box; kept by other calls; same answers for the two ways of building a mock. Refuted: set_complex_delta_field on a mock built from a field, a failed sample is exported with positions as displacements, moving the center after the sample."
  },
  {
   "property": "C66",
   "status": "partial",
   "theorems": [
    "C66_regions",
    "C66_regressis",
    "C66_apart",
    "C66_disjoint",
    "C66_case",
    "C66_synonyms",
    "C66_unknown",
    "C66_des",
    "C66_center_partial",
    "C66_center_refuted",
    "C66_center_unknown_refuted",
    "C66_ngc_refuted",
    "C66_ndn_refuted",
    "C66_turn_refuted"
   ],
   "note": "Partial: masks tell the points of the region for N, DN, DS, SNGC, SSGC without regressis, and the pixels of the DR9 region with it; refuted: N+SNGC without regressis selects the south, N+DN has a center and no mask, the center of N+SNGC is not in the mask, unknown names give NameError, right ascensions are not brought to one turn."
  },
  {
   "property": "C67",
   "status": "partial",
   "theorems": [
    "C67_rsd_refuted",
    "C67_wrap_refuted",
    "C67_radial",
    "C67_range",
    "C67_density",
    "C67_gap_refuted",
    "C67_default_refuted",
    "C67_redshifts",
    "C67_footprint"
   ],
   "note": "Rows kept by the radial mask and the footprint step, redshift range, density at the middle of bins and number of drawn redshifts are proved. Refuted: apply_rsd_and_cutsky never returns (cartesian_to_sky has no argument wrap); the default zmin = 0 is refused; with gaps between bins the volume of a bin starts at the end of the previous one."
  },
  {
   "property": "C68",
   "status": "partial",
   "theorems": [
    "C68_sorted_partial",
    "C68_exactly",
    "C68_order_refuted",
    "C68_ignored",
    "C68_used_refuted",
    "C68_read",
    "C68_script_refuted"
   ],
   "note": "Proved: with tiles that have targets in identifier order (exact condition, C68_exactly), sky targets are those of the tiles, labelled with a tile that covers them. Refuted: other orders mislabel them (C68_order_refuted), fiberassign is run without them (C68_used_refuted), and the script passes a keyword that does not exist (C68_script_refuted)."
  },
  {
   "property": "C69",
   "status": "proved",
   "theorems": [
    "C69_tiles",
    "C69_case",
    "C69_capitals",
    "C69_returns"
   ],
   "note": "Full statement; the columns CASE and PROGRAM are strings, tables are lists of rows."
  },
  {
   "property": "C70",
   "status": "proved",
   "theorems": [
    "C70_number",
    "C70_files",
    "C70_names",
    "C70_table",
    "C70_tiles",
    "C70_read_error",
    "C70_one",
    "C70_no_tile"
   ],
   "note": "Full statement for tables already read; files are association lists from names to tables."
  },
  {
   "property": "C71",
   "status": "partial",
   "theorems": [
    "C71_names",
    "C71_correlation_names",
    "C71_import_refuted",
    "C71_correlation_refuted",
    "C71_files",
    "C71_no_overwrite",
    "C71_region",
    "C71_groups",
    "C71_groups_region",
    "C71_mixed",
    "C71_survey",
    "C71_edges",
    "C71_mirrored"
   ],
   "note": "Names, regions, groups, edges and files are proved; use from the covariance script is refuted (NameError on the global outdir)."
  },
  {
   "property": "C72",
   "status": "partial",
   "theorems": [
    "C72_raises_refuted",
    "C72_scattered"
   ],
   "note": "Refuted: ArrayMesh raises NameError whatever its arguments, since ParticleMesh is not imported."
  },
  {
   "property": "C73",
   "status": "partial",
   "theorems": [
    "C73_outside",
    "C73_nodes",
    "C73_uncut",
    "C73_default",
    "C73_flat",
    "C73_parabola",
    "C73_convex_refuted",
    "C73_hang_refuted",
    "C73_range_refuted",
    "C73_probability_refuted",
    "C73_linear"
   ],
   "note": "Partial: nodes, range, proportionality, default normalization of constant and concave densities; refuted in full: the search of the maximum refuses x^2, never returns for 1 + x + x^2, looks outside of the redshift range, and probabilities exceed [0, 1] between nodes. Rounding is not modelled."
  },
  {
   "property": "C74",
   "status": "partial",
   "theorems": [
    "C74_turned",
    "C74_contained",
    "C74_choice_refuted",
    "C74_inside",
    "C74_inside_refuted"
   ],
   "note": "Order of sides and coordinates, velocities, columns and containment are proved for any dictionary with a second entry, and that objects land in the box for bases starting with (1, 1, 1). Refuted: in exact arithmetic all bases asked for have one size, so there is no second entry and the choice depends on rounding; with another basis of the range, objects leave the box."
  },
  {
   "property": "C75",
   "status": "partial",
   "theorems": [
    "C75_mask",
    "C75_sample_refuted",
    "C75_certain",
    "C75_random_catalogs",
    "C75_processes_refuted"
   ],
   "note": "Masks and random catalogs: equality for equal seeds is proved. Refuted: sampling calls its mask without a seed; results change with the number of processes."
  },
  {
   "property": "C76",
   "status": "proved",
   "theorems": [
    "C76_agree"
   ],
   "note": "Full statement, under the contracts of fiberassign stated as hypotheses (local per tile, all fibres working)."
  },
  {
   "property": "C77",
   "status": "partial",
   "theorems": [
    "C77_sample",
    "C77_positions",
    "C77_weights",
    "C77_output",
    "C77_shuffle",
    "C77_shuffle_refuted",
    "C77_rsd",
    "C77_png",
    "C77_bricks",
    "C77_fiber",
    "C77_completeness",
    "C77_v0_partial",
    "C77_v0_refuted",
    "C77_bricks_refuted",
    "C77_density",
    "C77_tabulated",
    "C77_tabulated_refuted",
    "C77_normalize",
    "C77_mesh",
    "C77_get_z",
    "C77_get_z_refuted"
   ],
   "note": "Proved for sampling, blinding (positions, weights, rsd; shuffle and png when arrays are given on all processes or none; effective redshift without mpiroot or without weights), bricks with known columns, fibre assignment, completeness weights, densities, tabulated masks from readable files, normalisation and meshes. Refuted: shuffle with positions on some processes only, the effective redshift with weights gathered on one process (positions are shared, weights are not), an unknown brick column when a process has no brick, an unreadable file of a tabulated mask, and fiber_assignment_v0 as soon as a process has no tile. External packages make one collective call each."
  },
  {
   "property": "C78",
   "status": "proved",
   "theorems": [
    "C78_rescaled",
    "C78_counts",
    "C78_shares",
    "C78_shares_exist",
    "C78_mean",
    "C78_mean_same",
    "C78_cov_exists",
    "C78_cov_symmetric",
    "C78_cov_value",
    "C78_cov_positive"
   ],
   "note": "Pair counts are arguments; correlation functions are multiplied by the share of the group, as for the Landy-Szalay estimator, where all numerators are."
  },
  {
   "property": "C79",
   "status": "partial",
   "theorems": [
    "C79_same",
    "C79_remap_refuted",
    "C79_two_vectors_refuted",
    "C79_sky_refuted",
    "C79_shuffle_refuted"
   ],
   "note": "Proved for lines of sight, angles, cartesian_to_sky, projections, isometries, rsd_position, ranges of boxes and remapping without translation. Refuted for rotation_matrix_from_two_vectors and remapping (TypeError), sky_to_cartesian (truncated directions) and shuffle (ValueError)."
  },
  {
   "property": "C80",
   "status": "partial",
   "theorems": [
    "C80_copies_partial",
    "C80_set_rsd",
    "C80_shared_refuted",
    "C80_pad",
    "C80_pad_refuted"
   ],
   "note": "Proved for all histories if mpytools' Catalog copies arrays and attributes; refuted if it keeps references: set_rsd then distorts catalogs already exported, and pad the box of the original. mpytools is not in the repository."
  },
  {
   "property": "C81",
   "status": "partial",
   "theorems": [
    "C81_remainder_partial",
    "C81_exact",
    "C81_boxes_partial",
    "C81_angles_partial",
    "C81_remainder_refuted",
    "C81_angles_refuted",
    "C81_boxes_refuted",
    "C81_distance",
    "C81_precision",
    "C81_declination_partial",
    "C81_declination_refuted"
   ],
   "note": "Proved with a rounding function after every operation. For every monotone and idempotent rounding: remainders, angles, positions in boxes and positions brought back by remapping are between the limits, both included (C81_remainder_partial, C81_boxes_partial, C81_angles_partial); without rounding the remainder is that of the other files (C81_exact). In double precision (Flocq): a distance is not below any coordinate and exact within four roundings (C81_distance, C81_precision), and the sine of the declination is between -1 and 1 (C81_declination_partial) where the squares of the coordinates do not underflow. Refuted: the upper limits can be reached (C81_remainder_refuted for all sizes, C81_angles_refuted, C81_boxes_refuted), and the declination of a position other than the origin can be undefined under underflow (C81_declination_refuted). Missing: overflow."
  },
  {
   "property": "C82",
   "status": "proved",
   "theorems": [
    "C82_independent",
    "C82_failure",
    "C82_ends",
    "C82_kept",
    "C82_distances",
    "C82_angles",
    "C82_cutsky",
    "C82_box"
   ],
   "note": "C82_independent: any mask, sizes, rounds and joint quantities. C82_failure and C82_ends: the chance of not having ended vanishes. C82_kept: a candidate is kept with its probability, up to the step of the generator. C82_distances, C82_angles, C82_cutsky, C82_box: the catalogs follow the shares of volume, area and box, with explicit bounds; for right ascension ranges the masks follow (the others are refuted under C30 and C35). The numbers of the generator are taken as independent and equally likely among finitely many values."
  },
  {
   "property": "C83",
   "status": "proved",
   "theorems": [
    "C83_positions",
    "C83_distances",
    "C83_back",
    "C83_linear",
    "C83_left"
   ],
   "note": "Every operation, cosine and sine have a relative error of at most u (no overflow or underflow), sums of products may be done in any order; matrices given to dot() are within eps of a rotation, those of rotation() are proved to be within 4000 u (1 + |angle|). Shown to cover double precision (C83_double)."
  },
  {
   "property": "C84",
   "status": "proved",
   "theorems": [
    "C84_modes",
    "C84_mean",
    "C84_power",
    "C84_correlation",
    "C84_all_modes",
    "C84_kaiser",
    "C84_shot",
    "C84_total",
    "C84_even"
   ],
   "note": "Means over seeds are any linear functional with value 1 on 1; pmesh's white noise is assumed to have uncorrelated modes (or cells) of mean 0 and variance 1. The real-space theorems ask for the same power at opposite modes, which C84_even gives for all power spectra without line of sight; Kaiser's formula is for a fixed line of sight and modes away from the Nyquist frequencies (C84_all_modes says what happens there)."
  },
  {
   "property": "C85",
   "status": "proved",
   "theorems": [
    "C85_numbers",
    "C85_density",
    "C85_contrast",
    "C85_constant",
    "C85_kaiser"
   ],
   "note": "The Poisson generator is assumed to draw uncorrelated numbers with mean and variance the mean asked for. Objects are counted in the cells of the mesh (lower faces included)."
  },
  {
   "property": "C86",
   "status": "partial",
   "theorems": [
    "C86_los",
    "C86_sv3_groups",
    "C86_rigid",
    "C86_frame",
    "C86_reach",
    "C86_cone",
    "C86_front",
    "C86_too_wide",
    "C86_group",
    "C86_same_motion",
    "C86_range",
    "C86_files",
    "C86_names",
    "C86_succeeds",
    "C86_mock_fn_refuted",
    "C86_number",
    "C86_expected",
    "C86_tiles",
    "C86_directions"
   ],
   "note": "Proved for all boxes, groups, directions, tiles and random numbers: where the box is put (C86_los, C86_rigid, C86_frame, C86_reach, C86_cone, C86_front, C86_group, C86_same_motion), which rows are kept (C86_group, C86_range), which files are written (C86_files, C86_names, C86_succeeds) and the law of the number of data (C86_number, C86_expected). Partial because with the option --mock_fn nothing is written (C86_mock_fn_refuted), and a box that is too wide for its distance is refused (C86_too_wide)."
  },
  {
   "property": "C87",
   "status": "partial",
   "theorems": [
    "C87_cosmology",
    "C87_cosmology_only",
    "C87_cosmology_none",
    "C87_documented_refuted",
    "C87_objects",
    "C87_effect",
    "C87_weights",
    "C87_nothing",
    "C87_undo",
    "C87_zero_refuted"
   ],
   "note": "The documented call raises for every cosmology without a stored growth rate (C87_documented_refuted); zero uncertainties move objects when a density parameter is blinded (C87_zero_refuted). With a redshift, numbers, order and formats (C87_objects), the effect on each object for sky coordinates and redshifts (C87_effect, C87_weights), no change for zero uncertainties of other parameters (C87_nothing), undoing of ap (C87_undo) and the ways to give a cosmology (C87_cosmology) are proved."
  },
  {
   "property": "C88",
   "status": "partial",
   "theorems": [
    "C88_tile",
    "C88_pass",
    "C88_readable",
    "C88_others",
    "C88_no_date_refuted",
    "C88_date",
    "C88_tables"
   ],
   "note": "Proved for tables that have an attribute names, and for all tables when a date is asked for (C88_date); without a date, tables without that attribute, like those of astropy, raise (C88_no_date_refuted)."
  },
  {
   "property": "C89",
   "status": "proved",
   "theorems": [
    "C89_compression",
    "C89_first_order",
    "C89_large_scales",
    "C89_half_cell",
    "C89_common_window_refuted",
    "C89_linear"
   ],
   "note": "C89_first_order: every mode below the Nyquist planes, any bias, growth rate, fixed line of sight, interpolation with weights of the position in the cell, laws of the generators given by their means; for lognormal or linear fields; the remainder is at most a constant times the square of the amplitude. C89_compression: the displacement and its distortion give (1 + f mu^2). C89_large_scales: both windows are one up to the phase across a cell. C89_half_cell and C89_common_window_refuted: the density carries the phase of half a cell and the (even) interpolation none, so no common window exists. C89_linear: cloud in cell is such an interpolation. C89_case shows a reachable case with a non-zero slope."
  },
  {
   "property": "C90",
   "status": "partial",
   "theorems": [
    "C90_fits",
    "C90_bigfile",
    "C90_rerun",
    "C90_fewer",
    "C90_fewer_refuted",
    "C90_same_name_refuted",
    "C90_dot_refuted",
    "C90_errors"
   ],
   "note": "C90_fits and C90_bigfile: from any directory, after a complete run, reading gives every row of the survey once plus the rows of files the run did not write (exact). C90_rerun: after any history of runs, interrupted at any point, with no more files, a complete run gives exactly the rows of the survey for both types. Refuted: a run with fewer files leaves files behind whose rows are read twice (C90_fewer exact, C90_fewer_refuted); catalogs of one name overwrite each other (C90_same_name_refuted); with a dot in the path no file of type bigfile is found (C90_dot_refuted). C90_errors: other types raise NameError, the default communicator AttributeError."
  },
  {
   "property": "C91",
   "status": "proved",
   "theorems": [
    "C91_geometry",
    "C91_new_mock",
    "C91_history",
    "C91_readout",
    "C91_sky",
    "C91_isometries",
    "C91_box_catalogs",
    "C91_cuboids",
    "C91_rsd",
    "C91_cutsky",
    "C91_cutsky_catalogs",
    "C91_random_box",
    "C91_random_cutsky"
   ],
   "note": "For every unit, by simulation: mocks after any history of method calls (readouts, catalogs and meshes included), isometry programs, sequences of calls of box catalogs, cuboids, redshift space distortions, cut skies and random catalogs. Real arithmetic; pmesh readouts depend on positions in units of cells (hypothesis); for random catalogs on the sky, the spline of the identity is in the unit of its table (hypothesis) and a distance range is given (without one the distance is 1, in any unit)."
  },
  {
   "property": "C92",
   "status": "proved",
   "theorems": [
    "C92_new_mock",
    "C92_history",
    "C92_readout",
    "C92_box_catalogs",
    "C92_recenter",
    "C92_rsd",
    "C92_cutsky",
    "C92_constructed",
    "C92_failed_sample_refuted"
   ],
   "note": "Histories of calls on mocks by simulation, for calls that do not look at places; catalogs in a box for any sequence of calls; cut skies are equal. The condition that poisson_sample of a Lagrangian mock returns is shown to be needed (C92_failed_sample_refuted): after it raises, positions are used as displacements."
  },
  {
   "property": "C93",
   "status": "partial",
   "theorems": [
    "C93_pieces",
    "C93_one_by_one",
    "C93_rows",
    "C93_rsd",
    "C93_rsd_one_by_one",
    "C93_masks",
    "C93_cutsky",
    "C93_callable_refuted"
   ],
   "note": "Proved for catalogs made of two pieces (any sequence of translations, recentrings, rotations, cuts and remappings; redshift space distortions with a number; cut skies with row-wise masks) and for any selection of rows in any order with repetitions, errors included. With a callable as factor of the redshift space distortions the claim is false (C93_callable_refuted)."
  },
  {
   "property": "C94",
   "status": "partial",
   "theorems": [
    "C94_catalogs",
    "C94_isometries",
    "C94_rsd_fixed",
    "C94_rsd_local",
    "C94_rescaling_cartesian",
    "C94_rescaling_rdd",
    "C94_rescaling_rdz",
    "C94_masks",
    "C94_default_axis_refuted"
   ],
   "note": "C94_catalogs, C94_isometries: any history followed by the opposites in reverse order, arguments in any spelling. C94_rsd_fixed, C94_rsd_local: displacements with f and then -f (an object put on the observer makes the second call raise). C94_rescaling_cartesian/rdd/rdz: for all formats, for cosmologies whose redshift-distance relation is inverted at the points used. C94_masks: densities (C33_back). C94_default_axis_refuted: quarter turns around the default axis (1, 1, 1) change the box and are not undone."
  },
  {
   "property": "C95",
   "status": "partial",
   "theorems": [
    "C95_rows",
    "C95_arguments",
    "C95_grid",
    "C95_nested",
    "C95_limits",
    "C95_far",
    "C95_new_box",
    "C95_whole",
    "C95_whole_refuted",
    "C95_new_box_refuted"
   ],
   "note": "C95_rows, C95_grid, C95_nested: any rounding that keeps order (grids share their inner limits exactly). C95_limits, C95_far, C95_new_box: errors of at most three and two roundings. Refuted in double precision: the sub-box (0, 1) of a box of side 1024 near the origin leaves out an object of the box (C95_whole_refuted; C95_whole says which are kept); an object kept is outside of the new box (C95_new_box_refuted)."
  },
  {
   "property": "C96",
   "status": "partial",
   "theorems": [
    "C96_projections",
    "C96_rsd",
    "C96_rsd_callable_refuted",
    "C96_rescaling",
    "C96_pole",
    "C96_catalogs",
    "C96_gaussian",
    "C96_eulerian",
    "C96_displacements"
   ],
   "note": "Turns and mirrors, right ascension about the pole, relabelled axes in any history of calls on boxes (translations, recentrings, quarter turns, cuts), Gaussian fields with any bias, Eulerian distortions and Lagrangian displacements: proved. The claim fails for distortions of a catalog with a growth rate that depends on the distance: with three objects its values are multiplied by axis (C96_rsd_callable_refuted)."
  },
  {
   "property": "C97",
   "status": "partial",
   "theorems": [
    "C97_ranges",
    "C97_wide",
    "C97_wide_refuted",
    "C97_half_turn",
    "C97_half_turn_refuted",
    "C97_boxes",
    "C97_same_box",
    "C97_reversed_refuted"
   ],
   "note": "C97_ranges: distances and widths come back exactly for all RA ranges below half a turn (any start, crossing 360 or not) and Dec ranges below 180 degrees. C97_boxes, C97_same_box: the box of the ranges is never larger, and the same when its sides limit the view. C97_wide and C97_half_turn say what happens otherwise, exactly. Refuted: wider ranges come back as the rest of the turn, half a turn loses the minimum distance, and a minimum distance above the maximum one is not refused."
  },
  {
   "property": "C98",
   "status": "partial",
   "theorems": [
    "C98_new",
    "C98_noises",
    "C98_amplitude",
    "C98_from_field",
    "C98_histories",
    "C98_readout",
    "C98_selection",
    "C98_rsd_fields",
    "C98_rsd_catalogs_fixed",
    "C98_rsd_catalogs_local",
    "C98_rsd_objects",
    "C98_callable_bias_refuted",
    "C98_lognormal_refuted",
    "C98_density_refuted"
   ],
   "note": "Proved for every history of calls with linear steps, for readouts, the selection function and the composition of distortions. Refuted: lognormal transform, callable biases and nbar*(1+delta) do not superpose; distortions from the observer cannot be continued once an object is put on the observer (stated in C98_rsd_catalogs_local). Callable factors for objects raise (C20)."
  },
  {
   "property": "C99",
   "status": "proved",
   "theorems": [
    "C99_translate",
    "C99_order",
    "C99_recenter",
    "C99_back",
    "C99_back_refuted",
    "C99_moves",
    "C99_contained",
    "C99_left"
   ],
   "note": "Translations, recentering and histories of translations and turns in floating point: one rounding per coordinate, order kept, error bounds along any history, containment. Every operation, cosine and sine have a relative error of at most u in the bounds on histories (no overflow or underflow); sums of products may be done in any order. C99_back_refuted: in double precision a translation and its opposite may not bring an object back, as the statement says."
  },
  {
   "property": "C100",
   "status": "partial",
   "theorems": [
    "C100_as_written_refuted",
    "C100_files",
    "C100_names",
    "C100_distinct",
    "C100_range",
    "C100_independent",
    "C100_seeds",
    "C100_box_seed_refuted",
    "C100_gap_refuted",
    "C100_empty_refuted",
    "C100_cover_refuted",
    "C100_succeeds"
   ],
   "note": "As written the script stops before its first file (C100_as_written_refuted). As meant: C100_files, names, distinct, range, independent, seeds, and C100_succeeds says when it ends well. Refuted: gap, empty, cover and box_seed."
  },
  {
   "property": "C101",
   "status": "partial",
   "theorems": [
    "C101_distance_right_ascension",
    "C101_declination",
    "C101_declination_partial",
    "C101_positions",
    "C101_there_and_back",
    "C101_there_and_back_partial",
    "C101_defined",
    "C101_pole_refuted",
    "C101_sky_and_back_partial",
    "C101_defined_away"
   ],
   "note": "Distances, right ascensions and positions: a few roundings everywhere (C101_distance_right_ascension, C101_positions). Declinations and round trips: a few roundings over the cosine of the declination (the _partial theorems), and the square root of a few roundings everywhere (C101_declination, C101_there_and_back). Refuted near the poles in double precision (C101_pole_refuted): positions 2^-28 apart get the same sky coordinates, whatever the library."
  },
  {
   "property": "C102",
   "status": "partial",
   "theorems": [
    "C102_same_program",
    "C102_far_from_faces_partial",
    "C102_found_partial",
    "C102_copy_or_error",
    "C102_lost_refuted",
    "C102_grid_lost_refuted",
    "C102_one_lost_all_lost",
    "C102_double_rounds",
    "C102_double_precision",
    "C102_double_far_partial",
    "C102_double_copy_or_error",
    "C102_rejected",
    "C102_stored_found_partial",
    "C102_shear",
    "C102_shear_never_lost",
    "C102_opposite_faces"
   ],
   "note": "False of double precision: C102_lost_refuted and C102_grid_lost_refuted give positions of the box for which transform raises CuboidError (then the whole array fails, C102_one_lost_all_lost). Proved: positions farther than a margin of a few roundings from the faces that decide go the same way as with real numbers and land within a bound of the exact image (C102_far_from_faces_partial, C102_found_partial); everywhere, the result is near the image of some periodic copy or an error (C102_copy_or_error). Both are carried to IEEE double precision itself, barring overflow (C102_double_precision, C102_double_far_partial, C102_double_copy_or_error). Bad bases are rejected in any arithmetic (C102_rejected). The stored numbers may themselves be rounded, if within delta of the exact ones (C102_stored_found_partial), which is proved of what the constructor stores for one sheared box, so there every position 10^-13 away from the faces is found in double precision (C102_shear); that box loses no position at all, on faces or not (C102_shear_never_lost), since exactly opposite faces never both turn a position down (C102_opposite_faces). Missing: that the constructor stores numbers near the exact ones, with the same faces, for every basis."
  }
 ]
}