{
 "claims": [
  {
   "property": "C01",
   "status": "proved",
   "theorems": [
    "C01_cell_numbers_bijective",
    "C01_evolving_count",
    "C01_evolving_number_closed_form"
   ],
   "note": "All sizes and maps accepted by valid_maps."
  },
  {
   "property": "C02",
   "status": "proved",
   "theorems": [
    "C02_boundary_numbers"
   ],
   "note": "Both directions jointly."
  },
  {
   "property": "C03",
   "status": "proved",
   "theorems": [
    "C03_leg_rows",
    "C03_at_least_one_leg"
   ],
   "note": ""
  },
  {
   "property": "C04",
   "status": "proved",
   "theorems": [
    "C04_leg_weights"
   ],
   "note": "Sum to the sum of the sub-cell weights, which valid_maps puts within 1e-8 of 1."
  },
  {
   "property": "C05",
   "status": "proved",
   "theorems": [
    "C05_never_fails",
    "C05_csr_well_formed",
    "C06_boundary_row",
    "C09_interpolation_exact"
   ],
   "note": "Decoding the CSR gives the assembled rows: the row theorems C06-C09 are stated on the decoded rows."
  },
  {
   "property": "C06",
   "status": "proved",
   "theorems": [
    "C06_boundary_row"
   ],
   "note": ""
  },
  {
   "property": "C07",
   "status": "proved",
   "theorems": [
    "C07_interior_row_sum"
   ],
   "note": "Bound 4e-10 from the dropped x weights; rational arithmetic."
  },
  {
   "property": "C08",
   "status": "proved",
   "theorems": [
    "C08_interior_row_columns",
    "C08_no_duplicate_columns"
   ],
   "note": ""
  },
  {
   "property": "C09",
   "status": "proved",
   "theorems": [
    "C09_interpolation",
    "C09_interpolation_exact",
    "C09_linear_fields",
    "C09_interpolant_at_nodes"
   ],
   "note": "For non-negative mapped z (see C10 for negative)."
  },
  {
   "property": "C10",
   "status": "partial",
   "theorems": [
    "C10_z_period_partial",
    "C10_z_period_refuted"
   ],
   "note": "True for non-negative mapped z; refuted for negative z, where int() truncates towards zero."
  },
  {
   "property": "C100",
   "status": "partial",
   "theorems": [
    "C100_second_order_partial",
    "C100_axisymmetric_refuted",
    "C100_secular_refuted",
    "C100_value",
    "C100_axis",
    "C100_periodic",
    "C100_empty"
   ],
   "note": "Proved for all tables without axisymmetric modes; false with them: V_hat multiplies phi by -b and -d where a and c belong, so the change is of first order, and Sfunc can grow with every turn."
  },
  {
   "property": "C101",
   "status": "partial",
   "theorems": [
    "C101_history_partial",
    "C101_close_ranges_refuted",
    "C101_old_refuted",
    "C101_names",
    "C101_hundredths",
    "C101_saved",
    "C101_failing",
    "C101_no_points"
   ],
   "note": "Proved for all histories in an empty directory whose ranges differ after rounding to two decimals. False otherwise: the names carry two decimals only, and a file of the old kind (without the configuration in its name) answers for every configuration. The service is an oracle."
  },
  {
   "property": "C102",
   "status": "partial",
   "theorems": [
    "C102_nodes",
    "C102_affine",
    "C102_between",
    "C102_outside",
    "C102_period",
    "C102_mesh",
    "C102_refused",
    "C102_phimax_refuted",
    "C102_default_range_refuted"
   ],
   "note": "Interpolation, period and mesh proved for all sizes >= 2 along each axis. False: with phimax < 2 pi the field beyond phimax is (0, 1, 0); the default z_range ends at 35 instead of 1.35."
  },
  {
   "property": "C103",
   "status": "partial",
   "theorems": [
    "C103_sum",
    "C103_saved",
    "C103_wout_refuted",
    "C103_vmec_refuted"
   ],
   "note": "The sum is proved. False: wout_file is ignored; W7X_VMEC raises AttributeError for all arguments."
  },
  {
   "property": "C104",
   "status": "partial",
   "theorems": [
    "C104_first",
    "C104_angle_partial",
    "C104_opposite_refuted",
    "C104_range_refuted",
    "C104_zero_refuted"
   ],
   "note": "Proved for vertices with x > 0. False: arctan(y/x) confuses opposite sides of the torus; negative angles and angles beyond 93 degrees raise IndexError; for angle 0 only vertices with y = 0 exactly count."
  },
  {
   "property": "C105",
   "status": "partial",
   "theorems": [
    "C105_filled_partial",
    "C105_length",
    "C105_linear",
    "C105_complete",
    "C105_refused_refuted",
    "C105_one_dimension_refuted"
   ],
   "note": "Proved for two-dimensional arrays for which the spline (an oracle) accepts every column with a gap. One column with fewer than two known values makes the whole call fail; one-dimensional arrays raise IndexError."
  },
  {
   "property": "C106",
   "status": "partial",
   "theorems": [
    "C106_plane",
    "C106_enclosed",
    "C106_direction_refuted",
    "C106_line_refuted"
   ],
   "note": "The planes are found; the rest is false: Bxfunc returns None, so field_direction and Bmag always raise, and smooth_field_line reads attributes that are never set."
  },
  {
   "property": "C107",
   "status": "partial",
   "theorems": [
    "C107_axes",
    "C107_flux",
    "C107_poloidal",
    "C107_components",
    "C107_inside",
    "C107_flux_function",
    "C107_outside",
    "C107_convex_partial",
    "C107_limiter",
    "C107_lengths",
    "C107_below_tip_refuted",
    "C107_hole_refuted",
    "C107_no_core_refuted",
    "C107_flat_refuted"
   ],
   "note": "Proved at the points of the mesh, with what the polygon test says as inside and outside, for splines (oracles) that go through their data. False straight below corners of the core, where the polygon test is wrong in both directions; a file without a core boundary is refused, and a flat flux is not."
  },
  {
   "property": "C108",
   "status": "partial",
   "theorems": [
    "C108_on_demand",
    "C108_fusionsc",
    "C108_samples",
    "C108_turned",
    "C108_pressure",
    "C108_retry",
    "C108_configuration",
    "C108_size",
    "C108_scalar_refuted"
   ],
   "note": "Proved for positions given as arrays of one shape, radius or angle possibly scalars. False for a scalar height beside arrays, and for an array of heights beside scalars: ValueError. Services are oracles."
  },
  {
   "property": "C109",
   "status": "proved",
   "theorems": [
    "C109_nearest",
    "C109_weights",
    "C109_sum",
    "C109_check_quiet"
   ],
   "note": "Infinities, nans and overflow are not modelled; the power function is an oracle of the stated accuracy."
  },
  {
   "property": "C11",
   "status": "proved",
   "theorems": [
    "C11_no_partial_boundaries",
    "C11_untouched",
    "modify_maps_never_fails"
   ],
   "note": ""
  },
  {
   "property": "C110",
   "status": "proved",
   "theorems": [
    "C110_rows_continuous"
   ],
   "note": "Exact arithmetic; toroidal positions not negative, as remainders are."
  },
  {
   "property": "C111",
   "status": "partial",
   "theorems": [
    "C111_coordinate_near",
    "C111_index_near",
    "C111_inner_columns_partial",
    "C111_edge_column",
    "C111_edge_refuted"
   ],
   "note": "Proved: the index is right within 12 M rounding units (M the number of points, or the distance from the axis in steps if larger), so the inner columns are safe. False for the first and last column of the domain: with 16 points, size 1, centre 0 and two guard cells column 2 has the index 2 - 4.4e-16 and all of its lines count as leaving the domain."
  },
  {
   "property": "C112",
   "status": "partial",
   "theorems": [
    "C112_range",
    "C112_exact",
    "C112_near",
    "C112_table_covers",
    "C112_below_refuted"
   ],
   "note": "Proved with the period included: small negative angles give the period itself. The table of W7X_vacuum includes it too."
  },
  {
   "property": "C113",
   "status": "proved",
   "theorems": [
    "C113_floor",
    "C113_int",
    "C113_window"
   ],
   "note": ""
  },
  {
   "property": "C114",
   "status": "partial",
   "theorems": [
    "C114_vertices_partial",
    "C114_rounded_down",
    "C114_vertices_refuted"
   ],
   "note": "Proved for the vertices whose angle k*dtheta was not rounded down. For the others the fraction is that of a whole segment, and the index that of the vertex or the one before; the last vertex of a hexagon comes out on the other side."
  },
  {
   "property": "C115",
   "status": "proved",
   "theorems": [
    "C115_converges",
    "C115_accuracy"
   ],
   "note": "The derivative bound and the quadratic remainder of the splines near the start are hypotheses (`regular`); exact arithmetic."
  },
  {
   "property": "C116",
   "status": "partial",
   "theorems": [
    "C116_even",
    "C116_even_single",
    "C116_scripts",
    "C116_scripts_refuted",
    "C116_mms"
   ],
   "note": "Proved for zoidberg/examples. False for the two scripts in examples/ that take both ends of the period as slices: the last slice of a period and the first of the next one are at the same place, the map between them has length zero and dy adds up to more than the period. False for two grids of test/mms, of length 5 with slices over 2 pi / 5."
  },
  {
   "property": "C117",
   "status": "proved",
   "theorems": [
    "C117_solves_rule",
    "C117_accuracy"
   ],
   "note": "exact arithmetic; the direction is globally Lipschitz and the third derivative of the field lines bounded everywhere. Termination is proved: the residual falls by 5/8 in every iteration"
  },
  {
   "property": "C118",
   "status": "partial",
   "theorems": [
    "C118_round_trip",
    "C118_exact_refuted"
   ],
   "note": "Proved up to the tolerance. The start itself is not found again on a field that is not affine."
  },
  {
   "property": "C119",
   "status": "proved",
   "theorems": [
    "C119_smooth_fields",
    "C119_true_ends",
    "C119_next_to_boundaries",
    "C119_cubics_refuted"
   ],
   "note": "Exact arithmetic; toroidal positions not negative, as remainders are. The last theorem shows that the order cannot be better than three."
  },
  {
   "property": "C12",
   "status": "partial",
   "theorems": [
    "C12_partial_boundaries_partial",
    "C12_centre_without_subsample_refuted"
   ],
   "note": "Boundary number implies marked centre, and unmarked cells keep their map; the converse is refuted when the centre hits while no sub-sample does."
  },
  {
   "property": "C120",
   "status": "proved",
   "theorems": [
    "C120_rows",
    "C120_derivative"
   ],
   "note": "Exact arithmetic; one parallel slice, no boundary object; cells whose lines end at least one column away from the first and last column of the domain and above the first toroidal point. The distance of the slices is the same in both directions."
  },
  {
   "property": "C121",
   "status": "partial",
   "theorems": [
    "C121_symmetric",
    "C121_dissipates",
    "C121_maximum",
    "C121_unique",
    "C121_second_order",
    "C121_minimum_refuted",
    "C121_dissipates_refuted"
   ],
   "note": "Proved on rectangular grids. False on twisted structured grids: a field can be made negative where it is zero and smallest, the sum of its squares can grow, and the operator is not symmetric. Exact arithmetic."
  },
  {
   "property": "C122",
   "status": "partial",
   "theorems": [
    "C122_c2",
    "C122_c2_periodic",
    "C122_c4",
    "C122_c4_periodic",
    "C122_c2_ends_refuted"
   ],
   "note": "Proved with explicit constants, but for the two ends of non-periodic c2, which are first order only."
  },
  {
   "property": "C123",
   "status": "proved",
   "theorems": [
    "C123_arc_length",
    "C123_converges",
    "C123_refine_zero",
    "C123_second_order",
    "C123_refined"
   ],
   "note": "Exact real arithmetic; CubicSpline is an oracle whose curve has second derivatives (cubic splines do)."
  },
  {
   "property": "C124",
   "status": "partial",
   "theorems": [
    "C124_means",
    "C124_inside",
    "C124_rectangular_partial",
    "C124_seam_refuted"
   ],
   "note": "Proved but for the height of the first column of rectangular grids, which is in the middle of the grid. Nothing calls toCent. Exact arithmetic."
  },
  {
   "property": "C13",
   "status": "proved",
   "theorems": [
    "C13_names_unique",
    "C13_library_fields_clash_free",
    "C13_names_exist",
    "C13_offset_zero_rejected",
    "C13_arbitrary_fields_refuted"
   ],
   "note": "For the field names the library uses (and any clash-free set); for arbitrary field names uniqueness fails (extra theorem)."
  },
  {
   "property": "C14",
   "status": "proved",
   "theorems": [
    "C14_constructor",
    "C14_periodic_lookup",
    "C14_nonperiodic_lookup",
    "C14_recursion_depth"
   ],
   "note": ""
  },
  {
   "property": "C15",
   "status": "proved",
   "theorems": [
    "C15_bracketing"
   ],
   "note": ""
  },
  {
   "property": "C16",
   "status": "partial",
   "theorems": [
    "C16_fraction_partial",
    "C16_midpoint",
    "C16_quarter_refuted",
    "C16_tolerance_refuted"
   ],
   "note": "The code weights with 1-f instead of f: right only at f = 1/2, the only fraction the library uses; indices a rounding error below an integer are also wrong."
  },
  {
   "property": "C17",
   "status": "partial",
   "theorems": [
    "C17_dy_interior_partial",
    "C17_dy_uniform_partial",
    "C17_dy_uneven_refuted"
   ],
   "note": "np.gradient is applied after cutting out the middle period, so the first and last slice are one-sided; right for even spacing only."
  },
  {
   "property": "C18",
   "status": "partial",
   "theorems": [
    "C18_never_fails",
    "C18_plain_entries",
    "C18_end_points_partial",
    "C18_outermost_slice",
    "C18_y_independent_boundary",
    "C18_half_positions",
    "C18_half_dropped",
    "C18_own_y_boundary_refuted"
   ],
   "note": "Full for the outermost slices (so for nslice = 1) and for y-independent boundaries; for nslice >= 2 the boundary test of inner slices is made at the outermost slice's y (refuted by a witness)."
  },
  {
   "property": "C19",
   "status": "partial",
   "theorems": [
    "C19_outermost_subsamples_partial",
    "C19_inner_slices_refuted"
   ],
   "note": "Filled for the outermost slice of each direction only; for nslice >= 2 the inner slices' arrays are always all zero."
  },
  {
   "property": "C20",
   "status": "partial",
   "theorems": [
    "C20_weights",
    "C20_interpolation",
    "C19_outermost_subsamples_partial",
    "C20_starts_refuted",
    "C20_no_z_sampling_refuted"
   ],
   "note": "Weights proved; the start points are wrong: the second node shifts Z along x and nothing is shifted along z."
  },
  {
   "property": "C21",
   "status": "proved",
   "theorems": [
    "C21_chunk_independence",
    "C21_other_entries",
    "C21_zero_chunks"
   ],
   "note": ""
  },
  {
   "property": "C22",
   "status": "proved",
   "theorems": [
    "C22_integrals",
    "C22_windows",
    "C22_spacing",
    "C22_uniform_J"
   ],
   "note": ""
  },
  {
   "property": "C23",
   "status": "partial",
   "theorems": [
    "C23_cylindrical_partial",
    "C23_cartesian_calls_accumulate",
    "C23_cartesian_refuted"
   ],
   "note": "Exact for cylindrical fields for every call history; for Cartesian fields each get_metric call multiplies the cached metric again, so only the first call after a cache reset is right."
  },
  {
   "property": "C24",
   "status": "proved",
   "theorems": [
    "C24_rectangular_metric",
    "C24_structured_accepted",
    "C24_structured_metric"
   ],
   "note": ""
  },
  {
   "property": "C25",
   "status": "proved",
   "theorems": [
    "C25_only_finite_arrays",
    "C25_finite_accepted",
    "C25_stops_at_nonfinite"
   ],
   "note": "Every sequence of write_dict, add_grid, add_field, add_maps, open and close calls, each allowed to raise. add_dagp stores its operators without a finiteness check and is modelled separately (C27)."
  },
  {
   "property": "C26",
   "status": "proved",
   "theorems": [
    "C26_maps_read_back",
    "C26_nothing_else",
    "C26_make_maps_keys"
   ],
   "note": ""
  },
  {
   "property": "C27",
   "status": "proved",
   "theorems": [
    "C27_resumable",
    "C27_only_missing_slices",
    "C27_run_content",
    "C27_changed_grid_refuted"
   ],
   "note": "For one and the same grid; a finished file is kept as it is when the grid changes (C27_changed_grid_refuted)."
  },
  {
   "property": "C28",
   "status": "proved",
   "theorems": [
    "C28_update_keeps_values",
    "C28_histories"
   ],
   "note": ""
  },
  {
   "property": "C29",
   "status": "partial",
   "theorems": [
    "C29_periodic_positions_partial",
    "C29_uniform_accepted",
    "C29_nonperiodic_refuted",
    "C29_uneven_rejected"
   ],
   "note": "Proved for periodic grids that pass the assertions; false for non-periodic grids, whose coordinates are rotated but not unwrapped, and unevenly spaced periodic grids may be rejected."
  },
  {
   "property": "C30",
   "status": "proved",
   "theorems": [
    "C30_inverse",
    "C30_affine",
    "C30_cells_tile_box",
    "C30_outside"
   ],
   "note": ""
  },
  {
   "property": "C31",
   "status": "partial",
   "theorems": [
    "C31_derivatives_partial",
    "C31_second_order_refuted",
    "C31_negative"
   ],
   "note": "First derivatives of a linear dependence are reproduced; second derivatives requested through dx=2 or dz=2 are scaled like first ones."
  },
  {
   "property": "C32",
   "status": "proved",
   "theorems": [
    "C32_result",
    "C32_terminates_in_range",
    "C32_empty",
    "C32_singular_boundary_fails",
    "C32_newton",
    "C32_masked",
    "C32_relaxation",
    "C32_arithmetic",
    "C32_affine_exact"
   ],
   "note": "The splines are oracles; also proved: an empty input and a singular boundary row make the call fail."
  },
  {
   "property": "C33",
   "status": "proved",
   "theorems": [
    "C33_annulus",
    "C33_accepts",
    "C33_area"
   ],
   "note": ""
  },
  {
   "property": "C34",
   "status": "partial",
   "theorems": [
    "C34_boundary_and_guards",
    "C34_refused",
    "C34_last_step_partial",
    "C34_fixed_point_partial",
    "C34_documented_equation_refuted"
   ],
   "note": "Boundary rows, size and guards proved. A state left unchanged solves the equation with the factor dz_relax (10/3 by default) on the poloidal derivatives, which is the documented equation only for dz_relax = 1."
  },
  {
   "property": "C35",
   "status": "proved",
   "theorems": [
    "C35_recursion_terminates",
    "C35_sizes",
    "C35_only_convergence_fails",
    "C35_factor_one_refuted",
    "C35_thin_grid_refuted"
   ],
   "note": "Also proved: a factor of 1 never ends and three radial points with more than 20 poloidal ones never give a grid."
  },
  {
   "property": "C36",
   "status": "proved",
   "theorems": [
    "C36_orientation",
    "C36_lengths",
    "C36_as_given"
   ],
   "note": ""
  },
  {
   "property": "C37",
   "status": "partial",
   "theorems": [
    "C37_position_partial",
    "C37_vertices",
    "C37_fraction_refuted",
    "C37_segment_refuted",
    "C37_negative_refuted"
   ],
   "note": "Vertices are reproduced for angles >= 0; between them the fraction is not divided by the angular spacing, and negative angles use the wrong segment."
  },
  {
   "property": "C38",
   "status": "proved",
   "theorems": [
    "C38_polygon_distance",
    "C38_weights",
    "C38_spline_distance"
   ],
   "note": "sqrt is an oracle with non-negative values; splines are oracles."
  },
  {
   "property": "C39",
   "status": "partial",
   "theorems": [
    "C39_greedy_partial",
    "C39_failures",
    "C39_convex_refuted"
   ],
   "note": "Everything stated holds for a returned line, and all failures are characterised; points of a convex polygon are rejected when one greedy path encloses no area."
  },
  {
   "property": "C40",
   "status": "partial",
   "theorems": [
    "C40_result",
    "C40_optimal",
    "C40_terminates",
    "C40_three_points_refuted",
    "C40_negative_threshold_refuted"
   ],
   "note": "Full for at least four points and a threshold >= 0; with up to three points the loop never ends."
  },
  {
   "property": "C41",
   "status": "partial",
   "theorems": [
    "C41_all_points",
    "C41_insertion_partial",
    "C41_nearest_refuted"
   ],
   "note": "All points are kept; the segment used is the one closestPoint's angle belongs to, which is not always the nearest."
  },
  {
   "property": "C42",
   "status": "proved",
   "theorems": [
    "C42_runs",
    "C42_defined",
    "C42_no_outliers",
    "C42_errors"
   ],
   "note": ""
  },
  {
   "property": "C43",
   "status": "proved",
   "theorems": [
    "C43_window"
   ],
   "note": ""
  },
  {
   "property": "C44",
   "status": "partial",
   "theorems": [
    "C44_search",
    "C44_in_range_partial",
    "C44_replaced",
    "C44_not_replaced",
    "C44_bounds_find",
    "C44_outcomes",
    "C44_terminates",
    "C44_no_corners",
    "C44_straight",
    "C44_outliers",
    "C44_half_angle",
    "C44_cosine_refuted",
    "C44_hairpin",
    "C44_last_point",
    "C44_index_error_refuted",
    "C44_short_line_refuted",
    "C44_no_fit"
   ],
   "note": "Holds when no run contains the last point; false otherwise. The least squares fit is an oracle."
  },
  {
   "property": "C45",
   "status": "partial",
   "theorems": [
    "C45_own_trace",
    "C45_chunks",
    "C45_refused",
    "C45_extra_dimensions_refuted"
   ],
   "note": "proved for x and z of equal shape or one of them a single number without extra dimensions, for every chunk limit, given that odeint integrates the points of a chunk independently (an adaptive step couples them; C45_chunks states what holds without that); a single number with more dimensions than a one-dimensional x is refused"
  },
  {
   "property": "C46",
   "status": "partial",
   "theorems": [
    "C46_arrays_after",
    "C46_copied_partial",
    "C46_overwritten_refuted",
    "C46_same_array_refuted",
    "C46_refused"
   ],
   "note": "FieldTracerReversible overwrites the caller's arrays with the final positions (for every field); with the same array as x and z it can run forever. Positions that are not arrays are copied. FieldTracer only reads its arrays: its model has no store"
  },
  {
   "property": "C47",
   "status": "proved",
   "theorems": [
    "C47_reversed",
    "C47_solves_rule",
    "C47_round_trip",
    "C47_slab",
    "C47_singular_step_refuted"
   ],
   "note": "the symmetry of the rule for every field; that the code solves the rule exactly, and that a round trip returns every row, for every field affine in x and z without singular steps; for other fields see C117 and C118. A singular step is never left"
  },
  {
   "property": "C48",
   "status": "partial",
   "theorems": [
    "C48_samples",
    "C48_given_slices",
    "C48_even_slices",
    "C48_increasing",
    "C48_single_sample_refuted",
    "C48_refused"
   ],
   "note": "a single revolution with a single slice is refused with ValueError"
  },
  {
   "property": "C49",
   "status": "partial",
   "theorems": [
    "C49_retries",
    "C49_own_trace",
    "C49_no_pool_refuted",
    "C49_follow",
    "C49_refused",
    "C49_no_points",
    "C49_no_retry_refuted"
   ],
   "note": "proved with the worker pool; without it a single failure raises whatever the retry count"
  },
  {
   "property": "C50",
   "status": "partial",
   "theorems": [
    "C50_histories_partial",
    "C50_field_tracer_partial",
    "C50_collision_refuted",
    "C50_shared_file_refuted",
    "C50_scalar_refuted"
   ],
   "note": "holds when equal file names imply equal results; file names of different start points can coincide, the tracer and its options are not part of the name, and a single x with several z never works"
  },
  {
   "property": "C51",
   "status": "proved",
   "theorems": [
    "C51_ends",
    "C51_in_range",
    "C51_single_angle_refuted",
    "C51_cell_tolerance",
    "C51_newton_step",
    "C51_iterations",
    "C51_parallelogram",
    "C51_cell_edges",
    "C51_one_period",
    "C51_crossing_ignored",
    "C51_crossing_refuted",
    "C51_scalar_refuted"
   ],
   "note": "for a period of positive length; the lookup angle is right, but follow_field_lines ignores the mapping between the ends of the period when it places the line"
  },
  {
   "property": "C52",
   "status": "proved",
   "theorems": [
    "C52_rectangle",
    "C52_arrays",
    "C52_no_boundary"
   ],
   "note": ""
  },
  {
   "property": "C53",
   "status": "partial",
   "theorems": [
    "C53_even_odd_partial",
    "C53_convex_partial",
    "C53_everywhere",
    "C53_right",
    "C53_interior",
    "C53_exterior",
    "C53_defined",
    "C53_empty",
    "C53_vertex_refuted",
    "C53_below_tip_refuted",
    "C53_narrow_refuted"
   ],
   "note": "Holds for any polygon at positions not vertically below or above a vertex (even-odd rule; convex polygons: half planes), with sides exactly vertical or at least 1e-6 wide. Refuted below vertices and for narrower sides. C53_everywhere gives the answer at all positions; in the interior of a convex polygon it is wrong exactly vertically below a vertex."
  },
  {
   "property": "C54",
   "status": "partial",
   "theorems": [
    "C54_quadratic_partial",
    "C54_periodic",
    "C54_short",
    "C54_ends_refuted"
   ],
   "note": "Exact in the interior; the two ends have the derivative of the neighbouring point and are exact for linear data only."
  },
  {
   "property": "C55",
   "status": "partial",
   "theorems": [
    "C55_quartic_partial",
    "C55_ends_refuted",
    "C55_periodic",
    "C55_short"
   ],
   "note": "Exact in the interior; at the ends up to the rounding of the decimal coefficients, which is bounded."
  },
  {
   "property": "C56",
   "status": "proved",
   "theorems": [
    "C56_flux_form",
    "C56_conservative",
    "C56_constants"
   ],
   "note": "For arbitrary coefficients and fields, per poloidal plane."
  },
  {
   "property": "C57",
   "status": "proved",
   "theorems": [
    "C57_linear",
    "C57_toroidal",
    "C57_rectangular"
   ],
   "note": "Linear functions on any structured geometry whose sampled cell faces have no zero-length piece (a zero-length piece makes the code produce NaN); in toroidal geometry Z is annihilated and R gives the cell area; on rectangular grids the operator is the five-point Laplacian. About the square root only extensionality and positivity are used."
  },
  {
   "property": "C58",
   "status": "partial",
   "theorems": [
    "C58_polygon",
    "C58_rectangular",
    "C58_toroidal_refuted",
    "C58_edge_rows_refuted"
   ],
   "note": "Slab volumes are polygon areas, positive for right-handed cells, dR*dZ (times R) on rectangular grids. In toroidal geometry a thin right-handed cell can get a negative volume, and the first and last radial rows are uninitialised memory."
  },
  {
   "property": "C59",
   "status": "proved",
   "theorems": [
    "C59_roundtrip"
   ],
   "note": ""
  },
  {
   "property": "C60",
   "status": "proved",
   "theorems": [
    "C60_direction",
    "C60_refuses",
    "C60_flatten",
    "C60_interleave",
    "C60_odd",
    "C60_odd_arrays",
    "C60_slab"
   ],
   "note": ""
  },
  {
   "property": "C61",
   "status": "proved",
   "theorems": [
    "C61_flux_function",
    "C61_divergence_free",
    "C61_frozen",
    "C61_rotating_ellipse",
    "C61_rotating_ellipse_refuted"
   ],
   "note": "Over the real numbers (axioms of Coq's Reals). A is conserved with the coils held in place; with turning coils see C73. RotatingEllipse uses the same field in cylindrical coordinates, where it is not divergence free."
  },
  {
   "property": "C62",
   "status": "partial",
   "theorems": [
    "C62_cfunct",
    "C62_sfunct",
    "C62_refused",
    "C62_positions",
    "C62_derivatives",
    "C62_tangent",
    "C62_asymmetric_refuted",
    "C62_asymmetric_slope_refuted"
   ],
   "note": "Sums, derivatives and tangency for all symmetric equilibria; in the asymmetric branch the code adds rmnc instead of rmns and has wrong signs."
  },
  {
   "property": "C63",
   "status": "partial",
   "theorems": [
    "C63_not_geqdsk",
    "C63_own_dict",
    "C63_no_gfile",
    "C63_all_fields_refuted",
    "C63_history_refuted"
   ],
   "note": "The class-level dictionary is shared, a GEQDSK field writes its psi into it."
  },
  {
   "property": "C64",
   "status": "proved",
   "theorems": [
    "C64_range",
    "C64_inner",
    "C64_outer",
    "C64_between"
   ],
   "note": "for nested boxes"
  },
  {
   "property": "C65",
   "status": "proved",
   "theorems": [
    "C65_whole",
    "C65_two_digits",
    "C65_read_back",
    "C65_rounding",
    "C65_ties",
    "C65_sixty_seconds_refuted"
   ],
   "note": "For whole seconds as stated. For other times the text reads as the time rounded to the nearest second, and the seconds can be 60."
  },
  {
   "property": "C66",
   "status": "proved",
   "theorems": [
    "C66_metric_gathers_slices",
    "C66_mixed_J_rejected"
   ],
   "note": ""
  },
  {
   "property": "C67",
   "status": "proved",
   "theorems": [
    "C67_rectangular_grid"
   ],
   "note": ""
  },
  {
   "property": "C68",
   "status": "proved",
   "theorems": [
    "C68_whole_turns",
    "C68_terminates",
    "C68_result",
    "C68_two_points_refuted"
   ],
   "note": "Without maxfac_inner. Two poloidal points never terminate."
  },
  {
   "property": "C69",
   "status": "proved",
   "theorems": [
    "C69_equal_spacing"
   ],
   "note": "interp1d is modelled after scipy's linear interpolation."
  },
  {
   "property": "C70",
   "status": "partial",
   "theorems": [
    "C70_closest_partial",
    "C70_range",
    "C70_closest_refuted"
   ],
   "note": "Holds when the nearest vertex is not one of the first two (the search then stays at non-negative angles); false otherwise."
  },
  {
   "property": "C71",
   "status": "proved",
   "theorems": [
    "C71_bar",
    "C71_percent",
    "C71_monotone",
    "C71_checked",
    "C71_clamped",
    "C71_zoidberg",
    "C71_claws",
    "C71_remaining"
   ],
   "note": ""
  },
  {
   "property": "C72",
   "status": "proved",
   "theorems": [
    "C72_refuses",
    "C72_few_points",
    "C72_same_values"
   ],
   "note": "With one or two poloidal points and positive Lz the radial system is singular and numpy raises LinAlgError."
  },
  {
   "property": "C73",
   "status": "proved",
   "theorems": [
    "C73_helical_surfaces",
    "C73_quarter"
   ],
   "note": ""
  },
  {
   "property": "C74",
   "status": "proved",
   "theorems": [
    "C74_flux_surfaces",
    "C74_divergence_free",
    "C74_components",
    "C74_toroidal"
   ],
   "note": "The splines are arbitrary functions with the stated derivatives."
  },
  {
   "property": "C75",
   "status": "partial",
   "theorems": [
    "C75_circles",
    "C75_ratio",
    "C75_flux_function_refuted",
    "C75_divergence"
   ],
   "note": "Lines are circles on which A is constant, but A is not the flux function (factor r/2) and the divergence is Bx/R."
  },
  {
   "property": "C76",
   "status": "partial",
   "theorems": [
    "C76_inner",
    "C76_ends_refuted",
    "C76_short"
   ],
   "note": "Exact in the inner columns, wrong in the two first and two last ones."
  },
  {
   "property": "C77",
   "status": "proved",
   "theorems": [
    "C77_dirichlet",
    "C77_neumann",
    "C77_neumann_below",
    "C77_superposition",
    "C77_curl_free",
    "C77_divergence_free",
    "C77_axis",
    "C77_periodic",
    "C77_axisymmetric",
    "C77_empty"
   ],
   "note": "Exact real arithmetic; sympy expressions as a syntax tree with its rules for derivative and substitution."
  },
  {
   "property": "C78",
   "status": "proved",
   "theorems": [
    "C78_coils",
    "C78_numbers",
    "C78_windings",
    "C78_unknown",
    "C78_retry"
   ],
   "note": ""
  },
  {
   "property": "C79",
   "status": "proved",
   "theorems": [
    "C79_strength",
    "C79_inverse"
   ],
   "note": ""
  },
  {
   "property": "C80",
   "status": "proved",
   "theorems": [
    "C80_circle",
    "C80_circle_fails",
    "C80_circle_radius",
    "C80_shaped",
    "C80_triangular",
    "C80_indented",
    "C80_shaped_circle",
    "C80_symmetric",
    "C80_extents"
   ],
   "note": "Exact real arithmetic."
  },
  {
   "property": "C81",
   "status": "partial",
   "theorems": [
    "C81_exists",
    "C81_coefficients",
    "C81_recovers_partial",
    "C81_passes",
    "C81_angle_refuted",
    "C81_distances_refuted"
   ],
   "note": "The coefficients are the discrete Fourier coefficients of the points put at the angles -pi + 2 pi k/n, as _err overwrites its angles: the curve is recovered half a turn away, Rvalue(theta) being its point at theta + pi, and the distances along the line are not used."
  },
  {
   "property": "C82",
   "status": "partial",
   "theorems": [
    "C82_on_curve_partial",
    "C82_line_partial",
    "C82_repeats_refuted"
   ],
   "note": "The points are on the curve at equally spaced angles from 0 to 2 pi with both ends, so the last one is the first one again."
  },
  {
   "property": "C83",
   "status": "proved",
   "theorems": [
    "C83_polygon",
    "C83_chord",
    "C83_defined",
    "C83_helix",
    "C83_helix_accuracy",
    "C83_invariant"
   ],
   "note": "Exact real arithmetic; CubicSpline is an oracle with the properties named in each theorem."
  },
  {
   "property": "C84",
   "status": "partial",
   "theorems": [
    "C84_trace",
    "C84_cylindrical",
    "C84_single",
    "C84_rtol_refuted"
   ],
   "note": "rtol is put into a copy of the keyword arguments that is not used."
  },
  {
   "property": "C85",
   "status": "proved",
   "theorems": [
    "C85_convex",
    "C85_around",
    "C85_order",
    "C85_defined",
    "C85_straight"
   ],
   "note": "Exact real arithmetic; argsort is any function that sorts, in whatever order for equal angles."
  },
  {
   "property": "C86",
   "status": "partial",
   "theorems": [
    "C86_slices_partial",
    "C86_fraction",
    "C86_kept",
    "C86_straight",
    "C86_shape",
    "C86_linear_refuted",
    "C86_shape_refuted",
    "C86_quiet_refuted"
   ],
   "note": "The fraction along the field line is 3t^2-2t^3 instead of t (cubic spline through two values); fields of another shape with the same size are reordered. Exact real arithmetic; map_coordinates on three axes and griddata are oracles."
  },
  {
   "property": "C87",
   "status": "proved",
   "theorems": [
    "C87_tracer",
    "C87_run",
    "C87_maps",
    "C87_compose",
    "C87_back",
    "C87_By",
    "C87_J"
   ],
   "note": "Exact rationals; the tracer is the exact solution (C87_tracer), NoBoundary."
  },
  {
   "property": "C88",
   "status": "partial",
   "theorems": [
    "C88_accuracy_partial",
    "C88_half_refuted",
    "C88_short",
    "C88_positive"
   ],
   "note": "Exact real arithmetic; transforms from 1/99 to 9/2 and no maximum exactly midway between two samples; there the maximum is missed and iota is halved (refuted). The sense of rotation is lost."
  },
  {
   "property": "C89",
   "status": "partial",
   "theorems": [
    "C89_curl_partial",
    "C89_slanted",
    "C89_toroidal_refuted",
    "C89_arguments_refuted"
   ],
   "note": "Curl of the covector the code builds, with the derivative an oracle. The covector is not the field's: wrong arguments of the field functions and g_yy instead of its root (refuted)."
  },
  {
   "property": "C90",
   "status": "partial",
   "theorems": [
    "C90_window",
    "C90_default",
    "C90_written_partial",
    "C90_refused",
    "C90_numpy_refuted",
    "C90_curvature_refuted",
    "C90_inverse_refuted"
   ],
   "note": "savgol_filter is an oracle. The smoothed curvature is not written, the metrics do not stay inverse, and np.int does not exist in the required numpy."
  },
  {
   "property": "C91",
   "status": "partial",
   "theorems": [
    "C91_aligned_partial",
    "C91_outer_refuted",
    "C91_grid_used",
    "C91_no_grid",
    "C91_returns_refuted",
    "C91_switches_refuted",
    "C91_main_fails"
   ],
   "note": "Without an aligned inner boundary the traced outer one is not used; nothing is returned; four command line switches turn off what they name."
  },
  {
   "property": "C92",
   "status": "partial",
   "theorems": [
    "C92_start",
    "C92_conditions",
    "C92_speed",
    "C92_curvature",
    "C92_close_partial",
    "C92_exact_refuted",
    "C92_direction_refuted"
   ],
   "note": "The optimum of least_squares never meets the conditions exactly, as length and curvature are part of the sum; the bound is for any coefficients no worse than a curve that stops at both ends. Forwards and backwards are not told apart. Exact real arithmetic."
  },
  {
   "property": "C93",
   "status": "partial",
   "theorems": [
    "C93_inside",
    "C93_nearest",
    "C93_far",
    "C93_first_row_partial",
    "C93_wrong_cell_refuted",
    "C93_last_refuted",
    "C93_degenerate"
   ],
   "note": "Outside of the meshes the number of the corner is used as the number of a cell: right in the first row only, AssertionError at the last corners. find_cell of eudist is an oracle that does not depend on the hint."
  },
  {
   "property": "C94",
   "status": "partial",
   "theorems": [
    "C94_never_fails",
    "C94_interpolation",
    "C94_ends",
    "C94_slab_partial",
    "C94_slab_derivative",
    "C94_two_slices_refuted",
    "C94_modify_refuted",
    "C94_corner_refuted"
   ],
   "note": "False for nslice > 1: the sub-samples are made for the outermost slices only, weights.py reads those of the first. The slab theorems are for nslice = 1, cells away from the edges in x and z, nodes not within 1e-4 of the centre unless at it, and an exact tracer."
  },
  {
   "property": "C95",
   "status": "partial",
   "theorems": [
    "C95_fields_partial",
    "C95_spacing_refuted",
    "C95_maps_refuted",
    "C95_written_refuted",
    "C95_not_installed",
    "C95_incomplete"
   ],
   "note": "The points are nx/(nx-1)*dx apart in x; a file without bx, in particular every file of write_maps, raises AttributeError before the maps are looked at."
  },
  {
   "property": "C96",
   "status": "partial",
   "theorems": [
    "C96_shows",
    "C96_make_maps_partial",
    "C96_outer_refuted",
    "C96_no_slice",
    "C96_no_row",
    "C96_unavailable_refuted"
   ],
   "note": "Lines that end outside of the field's boundary are marked as inner boundary whichever side they are on, because make_maps stores -1 for them. matplotlib itself is not modelled: the series handed to it are."
  },
  {
   "property": "C97",
   "status": "partial",
   "theorems": [
    "C97_poincare_partial",
    "C97_many_refuted",
    "C97_grid_refuted",
    "C97_click",
    "C97_clicks",
    "C97_only_right",
    "C97_3d_partial",
    "C97_3d_array_refuted",
    "C97_unavailable_refuted"
   ],
   "note": "More than six slices raise TypeError; plot_3d_field_line takes one starting point only; without matplotlib AttributeError instead of a warning."
  },
  {
   "property": "C98",
   "status": "partial",
   "theorems": [
    "C98_surfaces_partial",
    "C98_succeeds",
    "C98_single_refuted",
    "C98_range",
    "C98_outside_refuted",
    "C98_written",
    "C98_not_installed",
    "C98_grid_refuted"
   ],
   "note": "False for objects of class Grid, which have none of the attributes: AttributeError. Proved for objects that have them. One surface raises ZeroDivisionError; the outermost surface starts outside of the grid if the centre is beyond half of the largest x. griddata is an oracle."
  },
  {
   "property": "C99",
   "status": "partial",
   "theorems": [
    "C99_streams_partial",
    "C99_grid_refuted",
    "C99_unavailable_refuted",
    "C99_no_slice",
    "C99_animated",
    "C99_no_frames",
    "C99_no_matplotlib"
   ],
   "note": "plot_streamlines is false for objects of class Grid (AttributeError); proved for objects with the attributes it reads. Square roots are an oracle."
  }
 ]
}