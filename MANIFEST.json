{
 "claims": [
  {
   "property": "C01",
   "status": "partial",
   "theorems": [
    "C01_invert_correct",
    "C01_invert_accepts_nonsingular",
    "C01_singular_rejected_partial",
    "C01_singular_rejected_refuted",
    "C01_real_build_agrees"
   ],
   "note": "Correctness and acceptance proved in full. REFUTED in one part: a singular diagonal tensor is not rejected with a fatal error, the diagonal branch divides by zero."
  },
  {
   "property": "C02",
   "status": "proved",
   "theorems": [
    "C02_positive_definite_exact",
    "C02_real_build_agrees"
   ],
   "note": "Exact arithmetic."
  },
  {
   "property": "C03",
   "status": "proved",
   "theorems": [
    "C03_rotation_matrix",
    "C03_rotate_is_congruence",
    "C03_rotate_roundtrip",
    "C03_rotate_definite"
   ],
   "note": "Exact arithmetic."
  },
  {
   "property": "C04",
   "status": "partial",
   "theorems": [
    "C04_smoothing_positive_definite_partial",
    "C04_analytic_average_positive_definite",
    "C04_check_sound",
    "C04_smoothing_refuted"
   ],
   "note": "Proved for all mesh sizes >= 1 in exact arithmetic. REFUTED for mesh sizes below one (documented as treated as one): the mesh loops use the raw sizes."
  },
  {
   "property": "C05",
   "status": "proved",
   "theorems": [
    "C05_uniform_voxel",
    "C05_uniform_kottke",
    "C05_uniform_analytic",
    "C05_isotropic_kottke",
    "C05_isotropic_analytic"
   ],
   "note": "Exact arithmetic."
  },
  {
   "property": "C06",
   "status": "proved",
   "theorems": [
    "C06_exact_to_degree_11",
    "C06_odd_moments_vanish",
    "C06_tables",
    "C06_sort_permutes",
    "C06_normal_along_gradient"
   ],
   "note": "Exact arithmetic on the closed forms of the 50-point table; the printing of the table as decimals is not modelled. In 1-D and 2-D grids the mesh only probes the first 1 or 2 Cartesian directions, as stated in C06_normal_along_gradient."
  },
  {
   "property": "C07",
   "status": "proved",
   "theorems": [
    "C07_basis"
   ],
   "note": "Whole table, every slab."
  },
  {
   "property": "C08",
   "status": "proved",
   "theorems": [
    "C08_bijection",
    "C08_inverse",
    "C08_even_window",
    "C08_slabs"
   ],
   "note": ""
  },
  {
   "property": "C09",
   "status": "proved",
   "theorems": [
    "C09_complex",
    "C09_complex_mpi",
    "C09_real",
    "C09_real_mpi"
   ],
   "note": ""
  },
  {
   "property": "C10",
   "status": "proved",
   "theorems": [
    "C10_symmetric",
    "C10_fixes",
    "C10_idempotent",
    "C10_selfadjoint",
    "C10_z_complementary",
    "C10_y_complementary",
    "C10_commute"
   ],
   "note": ""
  },
  {
   "property": "C11",
   "status": "partial",
   "theorems": [
    "C11_z_symmetric",
    "C11_y_symmetric",
    "C11_z_partial",
    "C11_y_partial",
    "C11_bound_refuted"
   ],
   "note": "Projected bands report exactly +1/-1 (proved in full). REFUTED: the general bound; the norm counts only one of each mirrored pair, so a normalized band can report 4/3. Bound proved for bands with equal intensity in mirrored plane waves."
  },
  {
   "property": "C12",
   "status": "proved",
   "theorems": [
    "C12_reduced",
    "C12_accepts"
   ],
   "note": ""
  },
  {
   "property": "C13",
   "status": "proved",
   "theorems": [
    "C13_setup",
    "C13_total",
    "C13_hermitian",
    "C13_weak_form",
    "C13_weak_form_mu",
    "C13_nonnegative",
    "C13_eigenvalues"
   ],
   "note": ""
  },
  {
   "property": "C14",
   "status": "proved",
   "theorems": [
    "C14_operator",
    "C14_permeability",
    "C14_once"
   ],
   "note": ""
  },
  {
   "property": "C15",
   "status": "proved",
   "theorems": [
    "C15_resize",
    "C15_resize_square",
    "C15_refused"
   ],
   "note": "In-place moves proved for all shapes by a general lemma on overlapping moves."
  },
  {
   "property": "C16",
   "status": "proved",
   "theorems": [
    "C16_copy_slice",
    "C16_refused"
   ],
   "note": "All three code paths; source and destination distinct arrays."
  },
  {
   "property": "C17",
   "status": "partial",
   "theorems": [
    "C17_block_size",
    "C17_blocks_cover",
    "C17_no_bands_refuted"
   ],
   "note": "Proved in full for at least one band. REFUTED for num-bands 0 with a negative block size (the default): division by zero."
  },
  {
   "property": "C18",
   "status": "proved",
   "theorems": [
    "C18_zero_k"
   ],
   "note": "Whole pipeline of solve_kpoint (shift, blocks, shift back, constant states) for an arbitrary solver; work matrices, eigenvalues and the targeted solver are not modelled here."
  },
  {
   "property": "C19",
   "status": "proved",
   "theorems": [
    "C19_compatible",
    "C19_count",
    "C19_states",
    "C19_removed"
   ],
   "note": ""
  },
  {
   "property": "C20",
   "status": "proved",
   "theorems": [
    "C20_orthogonal",
    "C20_unchanged",
    "C20_idempotent",
    "C20_guard_needed"
   ],
   "note": "Array-level model of both gemm calls and of the sum over processes."
  },
  {
   "property": "C21",
   "status": "proved",
   "theorems": [
    "C21_success"
   ],
   "note": "Exact arithmetic; oracle objective, both directions of search."
  },
  {
   "property": "C22",
   "status": "proved",
   "theorems": [
    "C22_bounds",
    "C22_best",
    "C22_interval"
   ],
   "note": "Exact arithmetic, every objective."
  },
  {
   "property": "C23",
   "status": "partial",
   "theorems": [
    "C23_interpolates",
    "C23_between",
    "C23_centre",
    "C23_continuous",
    "C23_mirror_below",
    "C23_file",
    "C23_file_periodic",
    "C23_mirror_above_refuted",
    "C23_overrun_refuted",
    "C23_file_continuity_refuted"
   ],
   "note": "Proved on the unit cell and for the mirror below it. REFUTED above 1: reflected the wrong way, and read outside the array further out; and the file function, periodic, jumps at the cell boundary."
  },
  {
   "property": "C24",
   "status": "proved",
   "theorems": [
    "C24_complex",
    "C24_real",
    "C24_mpi",
    "C24_between",
    "C24_grid_point",
    "C24_periodic",
    "C24_bloch"
   ],
   "note": ""
  },
  {
   "property": "C25",
   "status": "partial",
   "theorems": [
    "C25_cover",
    "C25_sum",
    "C25_epsilon",
    "C25_integral_partial",
    "C25_integral_refuted",
    "C25_field_integral_partial",
    "C25_field_integral_refuted",
    "C25_addgradient_refuted"
   ],
   "note": "Whole and half-stored grids, serial and divided among processes, all ranks: stored points and their mirror images are all points once, weighted sums and get_epsilon's statistics are those of the whole grid. REFUTED for integrate_fieldL of complex scalar fields (mirrored value not conjugated), compute_field_integral and material_grids_addgradient in inversion-symmetric builds (test reads an unassigned variable); proved for the other fields and builds."
  },
  {
   "property": "C26",
   "status": "partial",
   "theorems": [
    "C26_run_ranges",
    "C26_run_gaps",
    "C26_all_freqs",
    "C26_run_total",
    "C26_retrieve_gap",
    "C26_retrieve_gap_refuses",
    "C26_stale_gaps_refuted"
   ],
   "note": "Proved for every run with num-bands > 0 and frequencies below 1e20 (the front end's infinity). REFUTED for num-bands = 0: gap-list keeps the gaps of an earlier run."
  },
  {
   "property": "C27",
   "status": "proved",
   "theorems": [
    "C27_chunks_concat",
    "C27_chunk_start",
    "C27_chunk_sizes",
    "C27_chunk_out_of_range"
   ],
   "note": ""
  },
  {
   "property": "C28",
   "status": "proved",
   "theorems": [
    "C28_next_factor",
    "C28_nonpositive_diverges"
   ],
   "note": "Also shown: sizes <= 0 never return."
  },
  {
   "property": "C29",
   "status": "partial",
   "theorems": [
    "C29_reduction",
    "C29_first_bz_refuted"
   ],
   "note": "Termination, equivalence, non-increase and non-improvability proved for every nondegenerate lattice. REFUTED as to membership of the first Brillouin zone for a skewed lattice."
  },
  {
   "property": "C30",
   "status": "partial",
   "theorems": [
    "C30_ends_in_h5",
    "C30_same_file_partial",
    "C30_kept_iff",
    "C30_suffix_twice_refuted"
   ],
   "note": "Ending in .h5 and at most one added suffix proved for all names. REFUTED: a name ending in .h5 that also contains .h5 earlier (run.h5.old.h5) gets a second suffix; the exact set of names left alone is characterised."
  },
  {
   "property": "C31",
   "status": "proved",
   "theorems": [
    "C31_roundtrip"
   ],
   "note": "All shapes, any pair of consecutive partitions (idle processes included), any order of writes, any previous content of the file."
  },
  {
   "property": "C32",
   "status": "proved",
   "theorems": [
    "C32_strided",
    "C32_component"
   ],
   "note": "Any rank, block and stride."
  },
  {
   "property": "C33",
   "status": "partial",
   "theorems": [
    "C33_group_numbers",
    "C33_no_empty_group",
    "C33_balanced",
    "C33_invalid_refused",
    "C33_serial_refuted"
   ],
   "note": "Proved in full for MPI builds. REFUTED for builds without MPI: one group is refused, any other number accepted."
  },
  {
   "property": "C34",
   "status": "partial",
   "theorems": [
    "C34_one_at_a_time_partial",
    "C34_no_deadlock",
    "C34_all_get_through",
    "C34_exclusion_across_sections_refuted"
   ],
   "note": "Mutual exclusion and rank order per section, absence of deadlock and completion proved for all process and section counts, tags and schedules, with buffered and with synchronous sends. REFUTED across sections: process 0 can be in section 1 while process 1 is in section 0."
  },
  {
   "property": "C35",
   "status": "partial",
   "theorems": [
    "C35_no_double_free",
    "C35_group_restored_partial",
    "C35_global_is_world",
    "C35_nested_refuted",
    "C35_divide_in_global_refuted"
   ],
   "note": "Single freeing proved for all sequences; restoration proved for unnested global phases. REFUTED for nested global phases and for dividing inside one."
  },
  {
   "property": "C36",
   "status": "partial",
   "theorems": [
    "C36_counters",
    "C36_free_live",
    "C36_double_free_partial",
    "C36_bad_pointer_partial",
    "C36_undetected_refuted",
    "C36_leaks"
   ],
   "note": "Counters, absence of false alarms, overwrite detection and leak report proved for all histories. REFUTED: a second free after the address was handed out again, and a free of memory that happens to hold the magic number, go unreported."
  },
  {
   "property": "C37",
   "status": "proved",
   "theorems": [
    "C37_count",
    "C37_set_get",
    "C37_get_set",
    "C37_set"
   ],
   "note": ""
  },
  {
   "property": "C38",
   "status": "proved",
   "theorems": [
    "C38_value",
    "C38_range"
   ],
   "note": ""
  },
  {
   "property": "C39",
   "status": "partial",
   "theorems": [
    "C39_weights",
    "C39_mean",
    "C39_product_partial",
    "C39_minimum",
    "C39_product_zero_refuted"
   ],
   "note": "REFUTED for the product rule at a zero grid value (0/0). Proved otherwise; for the minimum where one grid is smallest."
  },
  {
   "property": "C40",
   "status": "partial",
   "theorems": [
    "C40_objective",
    "C40_constraint",
    "C40_reported",
    "C40_feasible",
    "C40_difference_error",
    "C40_difference_refuted",
    "C40_single_refuted",
    "C40_band_refuted"
   ],
   "note": "Gap objective, constraints and reported gap proved. REFUTED for the TE/TM difference: two entries of the work array are never cleared, one parameter gives a negative memset size, band 0 is not refused."
  },
  {
   "property": "C41",
   "status": "partial",
   "theorems": [
    "C41_consistent_partial",
    "C41_request",
    "C41_efield_refuted",
    "C41_load_refuted",
    "C41_band0_refuted",
    "C41_dot_refuted",
    "C41_square_refuted",
    "C41_mu_object_refuted"
   ],
   "note": "Proved for every command sequence without field objects of the user and eigenvector products, squaring only vector fields. REFUTED: a refused get-efield converts another band's D field; field-load keeps an old band number (eigenvectors of the wrong band changed, out-of-range accesses for band 0); dot-eigenvectors with mu overwrites the current field; compute-field-squared continues after its error."
  },
  {
   "property": "C42",
   "status": "partial",
   "theorems": [
    "C42_nonnegative",
    "C42_range",
    "C42_whole",
    "C42_partition_partial",
    "C42_partition_refuted",
    "C42_components_diagonal",
    "C42_components_refuted",
    "C42_object_value",
    "C42_object_range",
    "C42_object_disjoint",
    "C42_object_real_refuted"
   ],
   "note": "Each fraction lies in [0,1]; ranges add up when no point's dielectric constant is an inner limit; objects proved for complex fields. REFUTED: both limits of a range belong to it, so points on a common limit are counted twice; component fractions can be negative in anisotropic media; with real fields the weight of a point in the energy of objects is decided by a variable that is never set."
  },
  {
   "property": "C43",
   "status": "partial",
   "theorems": [
    "C43_unit",
    "C43_maximal",
    "C43_sign",
    "C43_canonical_partial",
    "C43_idempotent_partial",
    "C43_canonical_refuted",
    "C43_parallel_refuted",
    "C43_parallel_partial",
    "C43_parallel_index_partial",
    "C43_real_partial",
    "C43_real_refuted"
   ],
   "note": "Unit factor, same factor for eigenvector, maximality proved for every field; canonical whenever the sum of squares is not zero. REFUTED: when it is zero (circularly polarized fields) the result depends on the initial phase; over several processes the sign depends on the distribution (index offset counts points, not components); real builds leave fields with equal real and imaginary parts alone."
  },
  {
   "property": "C44",
   "status": "partial",
   "theorems": [
    "C44_vector",
    "C44_cscalar_partial",
    "C44_cscalar_refuted"
   ],
   "note": "Vector fields: every grid size, k, component choice and division among processes. REFUTED for complex scalar fields with k not zero (phases of other points); k = 0 proved."
  },
  {
   "property": "C45",
   "status": "partial",
   "theorems": [
    "C45_complex",
    "C45_real",
    "C45_vector",
    "C45_identity",
    "C45_copies_partial",
    "C45_real_copies_partial",
    "C45_transpose_partial",
    "C45_safe",
    "C45_setting",
    "C45_copies_refuted",
    "C45_flat_copies_refuted",
    "C45_transpose_refuted",
    "C45_attributes_refuted"
   ],
   "note": "All sizes, lattices, wave vectors and options: output is the interpolation of the Bloch-continued data at the same place in space; identity without options; accesses in range. REFUTED: an even number of copies of an odd size interpolates between cells; -m on two-dimensional data uses the missing direction; -T cuts one-dimensional data to one number; a file without attributes reads a variable without a value."
  },
  {
   "property": "C46",
   "status": "partial",
   "theorems": [
    "C46_rectangular_partial",
    "C46_default",
    "C46_refuted",
    "C46_direction_refuted"
   ],
   "note": "Every lattice without a direction; with one, every direction off the plane through the ends of the lattice vectors. REFUTED: division by zero for directions in that plane; the first axis may point opposite to the direction asked for."
  },
  {
   "property": "C47",
   "status": "proved",
   "theorems": [
    "C47_split_at_first_colon",
    "C47_no_colon",
    "C47_rejoin"
   ],
   "note": ""
  },
  {
   "property": "C48",
   "status": "partial",
   "theorems": [
    "C48_divergence_partial",
    "C48_band_partial",
    "C48_exact",
    "C48_refuted",
    "C48_real_refuted"
   ],
   "note": "REFUTED: the z component of the reconstructed vector is wrong unless its y or z component is zero, so divergence-free bands get a divergence; in real builds the table of wave vectors is read past its end. Proved where the reconstructed vectors are right."
  },
  {
   "property": "C49",
   "status": "partial",
   "theorems": [
    "C49_scale",
    "C49_norm",
    "C49_band_refused",
    "C49_real_partial",
    "C49_real_refuted"
   ],
   "note": "Complex builds proved. REFUTED for real builds: purely imaginary scale factors pass the test and erase the band."
  },
  {
   "property": "C50",
   "status": "partial",
   "theorems": [
    "C50_linear_partial",
    "C50_aliased",
    "C50_aliased_refuted"
   ],
   "note": "REFUTED for equal arguments, which the comment allows: a X + b X gives a(1+b) X. Proved for distinct matrices."
  },
  {
   "property": "C51",
   "status": "partial",
   "theorems": [
    "C51_range",
    "C51_wraps",
    "C51_reflects_below_partial",
    "C51_reflection_refuted"
   ],
   "note": "Termination and range proved. REFUTED: values above 1 wrap instead of reflecting."
  },
  {
   "property": "C52",
   "status": "partial",
   "theorems": [
    "C52_fits",
    "C52_no_leak",
    "C52_reuse",
    "C52_callers",
    "C52_placed_refuted"
   ],
   "note": "Direction, layout, capacity, reuse and destruction proved for every sequence; the in-place status for every sequence of calls the program makes. REFUTED for arbitrary callers: the lookup ignores whether input and output coincide."
  },
  {
   "property": "C53",
   "status": "partial",
   "theorems": [
    "C53_vector",
    "C53_scalar",
    "C53_otherhalf",
    "C53_idle2_refuted",
    "C53_idle3_refuted"
   ],
   "note": "Every grid size, rank, k, serial or divided among processes that all have a share: each grid point written once with its value. REFUTED when a process of a half-stored parallel run has no share."
  },
  {
   "property": "C54",
   "status": "proved",
   "theorems": [
    "C54_value",
    "C54_identity",
    "C54_bound",
    "C54_isotropic",
    "C54_b_bound",
    "C54_eigenvalue",
    "C54_inverse",
    "C54_rejects",
    "C54_asymmetric_medium_refuted"
   ],
   "note": "Every grid, field, medium, lattice and operation taking grid points to grid points (fractional translations between grid points, where the value is interpolated, are outside the bound). Without a medium kept by the operation the bound fails (C54_asymmetric_medium_refuted)."
  },
  {
   "property": "C55",
   "status": "partial",
   "theorems": [
    "C55_settled",
    "C55_settled_davidson",
    "C55_davidson",
    "C55_converges_partial",
    "C55_negative_refuted"
   ],
   "note": "Proved for the Davidson solver and for limits that are not negative. REFUTED for the main solver with negative traces: it never stops."
  },
  {
   "property": "C56",
   "status": "proved",
   "theorems": [
    "C56_mesh_count",
    "C56_mesh_in_voxel",
    "C56_mesh_centred",
    "C56_mesh_uniform"
   ],
   "note": ""
  },
  {
   "property": "C57",
   "status": "partial",
   "theorems": [
    "C57_slice_product_partial",
    "C57_offset_unchecked_refuted"
   ],
   "note": "Proved when the offset fits. REFUTED: the column offset is not checked and writes go past the end of the result."
  },
  {
   "property": "C58",
   "status": "partial",
   "theorems": [
    "C58_dominant",
    "C58_band_checked",
    "C58_one_group",
    "C58_groups_refuted",
    "C58_empty_refuted"
   ],
   "note": "Proved for one process and for one group. REFUTED with processor groups: a global rank is used as the broadcast root within the group; and a process without plane waves reads past its table."
  },
  {
   "property": "C59",
   "status": "partial",
   "theorems": [
    "C59_pairs",
    "C59_odd_refuted"
   ],
   "note": "REFUTED for every odd size from 3 on. Proved exactly where the pairs are mirror images: everywhere but at the outermost frequencies (one for even sizes, two for odd ones)."
  },
  {
   "property": "C60",
   "status": "partial",
   "theorems": [
    "C60_planewave_partial",
    "C60_order_refuted",
    "C60_orders",
    "C60_axis"
   ],
   "note": "Proved for orders in the frequency set. REFUTED: orders outside it are aliased silently instead of refused."
  },
  {
   "property": "C61",
   "status": "partial",
   "theorems": [
    "C61_default_grid_refuted"
   ],
   "note": "REFUTED: parameters beyond the middle of a direction have no effect anywhere in the cell."
  },
  {
   "property": "C62",
   "status": "proved",
   "theorems": [
    "C62_fresh"
   ],
   "note": ""
  },
  {
   "property": "C63",
   "status": "partial",
   "theorems": [
    "C63_minimum",
    "C63_taken_back",
    "C63_start",
    "C63_downhill_refuted",
    "C63_increase_refuted"
   ],
   "note": "REFUTED: the trial step of the approximate line minimization is uphill, and is kept when that method is forced. The rest is proved."
  },
  {
   "property": "C64",
   "status": "partial",
   "theorems": [
    "C64_velocity",
    "C64_velocity_mu_partial",
    "C64_single",
    "C64_single_range",
    "C64_single_block",
    "C64_scratch_overrun",
    "C64_unchanged_refuted",
    "C64_scratch_refuted"
   ],
   "note": "Proved without permeability, and with it for blocks of at most 20 bands. REFUTED: with permeability a single block overwrites the stored eigenvectors, and blocks of more than 20 bands overflow the transform array."
  },
  {
   "property": "C65",
   "status": "proved",
   "theorems": [
    "C65_eigenvalue",
    "C65_simple_preconditioner",
    "C65_curl_preconditioner"
   ],
   "note": ""
  },
  {
   "property": "C66",
   "status": "proved",
   "theorems": [
    "C66_curl_hermitian",
    "C66_curl_nonnegative",
    "C66_simple"
   ],
   "note": ""
  },
  {
   "property": "C67",
   "status": "proved",
   "theorems": [
    "C67_bfield",
    "C67_dfield",
    "C67_efield",
    "C67_band_checked",
    "C67_density",
    "C67_b_energy",
    "C67_d_energy",
    "C67_unit"
   ],
   "note": "Complex fields, one process; exact arithmetic."
  },
  {
   "property": "C68",
   "status": "partial",
   "theorems": [
    "C68_decrease_partial",
    "C68_any_slope_partial",
    "C68_refuted",
    "C68_best_refuted"
   ],
   "note": "Proved for lower bound zero, as the eigensolver calls it. REFUTED for a positive lower bound: the exit at the lower bound can be above the start; and the exit at the upper bound returns the last point, not the best one."
  },
  {
   "property": "C69",
   "status": "partial",
   "theorems": [
    "C69_any_partial",
    "C69_smooth_partial",
    "C69_zero_refuted",
    "C69_order_refuted"
   ],
   "note": "Proved for any values when f_tol <= df_tol and the lower bound is positive, and for differentiable functions whose slope at the upper bound is that at zero from a nonzero guess. REFUTED: a first guess of zero (accepted) loops for ever; f_tol > df_tol can stay at the upper bound for ever. Steps that become infinite or not-a-number count as an end in the model."
  },
  {
   "property": "C70",
   "status": "proved",
   "theorems": [
    "C70_trace",
    "C70_slope",
    "C70_gradient"
   ],
   "note": "All sizes, Hermitian operators, fields, directions and angles at which the fields are independent. LAPACK factorizations and the operators are assumed correct in exact arithmetic (potr_ok, heev_ok, applies)."
  },
  {
   "property": "C71",
   "status": "partial",
   "theorems": [
    "C71_falling",
    "C71_decrease",
    "C71_safe",
    "C71_exact_start",
    "C71_finite_refuted"
   ],
   "note": "Every run of the exact line minimization without Lagrange operator; for runs that also use the approximate one see C81. REFUTED: with exact fields at the start and no preconditioner the direction is zero and is divided by its norm: not a number."
  },
  {
   "property": "C72",
   "status": "proved",
   "theorems": [
    "C72_result",
    "C72_exact",
    "C72_above"
   ],
   "note": "Every run that ends with convergence; exact arithmetic."
  },
  {
   "property": "C73",
   "status": "partial",
   "theorems": [
    "C73_iterations",
    "C73_line_partial",
    "C73_ends_partial"
   ],
   "note": "Bound on the iterations for every run. The line minimizations end if the fields stay independent along every line followed (the trace has a pole otherwise); that hypothesis is missing from the full statement."
  },
  {
   "property": "C74",
   "status": "proved",
   "theorems": [
    "C74_ritz",
    "C74_falling",
    "C74_result",
    "C74_above",
    "C74_safe",
    "C74_exact_start",
    "C74_small"
   ],
   "note": "Exact arithmetic, one process; contracts of LAPACK and of the operators as hypotheses. Findings: started with exact modes, or for fewer than 2p modes, the solver always stops with an error."
  },
  {
   "property": "C75",
   "status": "partial",
   "theorems": [
    "C75_nearest_partial",
    "C75_nearest_refuted"
   ],
   "note": "REFUTED for p+1 equal values: the window stops at a tie. Proved for spaces without p+1 equal values."
  },
  {
   "property": "C76",
   "status": "partial",
   "theorems": [
    "C76_search",
    "C76_exact",
    "C76_roots",
    "C76_split_refuted"
   ],
   "note": "Proved for runs on the first chunk of the k points. REFUTED when k-split-index > 0: the single k point of find-k is in chunk 0, so nothing is calculated. find-root-deriv (libctl, not in the repository) is arbitrary."
  },
  {
   "property": "C77",
   "status": "partial",
   "theorems": [
    "C77_dots",
    "C77_entry",
    "C77_range",
    "C77_phases",
    "C77_scratch_overrun",
    "C77_scratch_refuted"
   ],
   "note": "REFUTED for media with permeability and blocks of more than max_fft_bands = 20 bands: the transform array is overrun. Proved for blocks that fit."
  },
  {
   "property": "C78",
   "status": "partial",
   "theorems": [
    "C78_bands",
    "C78_above",
    "C78_exact",
    "C78_safe",
    "C78_cg",
    "C78_davidson",
    "C78_alloc",
    "C78_nwork",
    "C78_nwork_refuted",
    "C78_stale_refuted",
    "C78_zero_k_mu_refuted"
   ],
   "note": "REFUTED where a structure with permeability follows one without (muinvH is kept as it was), for 10 work arrays with permeability, and at k = 0 with a permeability that couples the constant fields. Proved otherwise; solve_kpoint with a target frequency is not modelled."
  },
  {
   "property": "C79",
   "status": "partial",
   "theorems": [
    "C79_cg",
    "C79_davidson",
    "C79_no_nan",
    "C79_uniform"
   ],
   "note": "Proved when the permeability goes with the constraints (none; uniform; k not 0 and no parity; k not 0 and mirror symmetric with one point across the plane of each parity), complex fields, one process. Missing: position dependent permeability at k = 0 (see C78_zero_k_mu_refuted) or with a parity and more than one point across its plane, and that the solvers converge to the lowest modes, which is not a property of the code in exact arithmetic (C71, C74)."
  },
  {
   "property": "C80",
   "status": "partial",
   "theorems": [
    "C80_mirror",
    "C80_decoupled",
    "C80_flat",
    "C80_refuted"
   ],
   "note": "REFUTED in general: the outermost frequencies of a dimension with more than one point have no opposite in the table. Proved for fields without them (any number of points, no permeability), and for all fields with one point across the plane, also with permeability. Missing: position dependent permeability with more than one point across the plane."
  },
  {
   "property": "C81",
   "status": "partial",
   "theorems": [
    "C81_exact",
    "C81_result",
    "C81_above",
    "C81_safe",
    "C81_checks",
    "C81_step",
    "C81_switch",
    "C81_falling_refuted",
    "C81_slope_refuted"
   ],
   "note": "REFUTED: with the approximate line minimization forced the trace can rise and a run can end above its start; after giving up an approximate line minimization the exact one is given a wrong slope (U is that of the shifted fields), though the trace still does not rise. Everything else in the statement is proved for all runs without Lagrange operator, complex fields, exact arithmetic; a restart with random fields ends the run of the model."
  },
  {
   "property": "C82",
   "status": "partial",
   "theorems": [
    "C82_operator",
    "C82_bands",
    "C82_nearest",
    "C82_sides",
    "C82_modes",
    "C82_mu",
    "C82_cg",
    "C82_davidson",
    "C82_preconditioner",
    "C82_closest_refuted",
    "C82_order_refuted",
    "C82_mixed_refuted"
   ],
   "note": "REFUTED: closeness is measured in the squared frequency, so that a mode above the target can be left out though its frequency is closer than that of a band below; with several blocks the frequencies are not in ascending order; when two modes are equally far from the squared target a mixture of them with a frequency of no mode can be returned. The rest is proved: orthonormality, constraints, diagonal blocks and memory safety for all runs of both eigensolvers with the Maxwell operator; nearest in the squared frequency, and in the frequency unless the band is below and the mode above the target, if the eigensolver finds lowest modes; exact modes if there is no tie."
  },
  {
   "property": "C83",
   "status": "partial",
   "theorems": [
    "C83_make",
    "C83_set",
    "C83_set_refused",
    "C83_copy",
    "C83_safe",
    "C83_start",
    "C83_frame",
    "C83_restore",
    "C83_map",
    "C83_poynting",
    "C83_flux",
    "C83_tot_pwr",
    "C83_mu_refused",
    "C83_mu_refuted",
    "C83_nonbloch_refuted",
    "C83_band_refuted"
   ],
   "note": "REFUTED: after get-mu the symbol cur-field is refused by every field object command; cvector-field-nonbloch! accepts a scalar field, which then is taken for a vector field when loaded; get-poynting of a band that does not exist gives conj(F) x F of the field that was loaded. The rest is proved for every sequence of commands; the band number of a restored field is not restored, and conj(E) x H is not divided by the energy."
  },
  {
   "property": "C84",
   "status": "proved",
   "theorems": [
    "C84_above",
    "C84_monotone",
    "C84_light_line",
    "C84_light_line_cg",
    "C84_light_line_davidson",
    "C84_between",
    "C84_index",
    "C84_length",
    "C84_length_exists"
   ],
   "note": "Exact arithmetic, on the grid as the code has it. The modes compared with are given (all_modes): they exist for every structure (C85). The scaling laws say that the same fields are a result for the scaled structure, not that the iteration takes the same steps."
  },
  {
   "property": "C85",
   "status": "proved",
   "theorems": [
    "C85_exist",
    "C85_monotone",
    "C85_unique",
    "C85_count",
    "C85_sign",
    "C85_stable",
    "C85_found",
    "C85_found_cg",
    "C85_found_davidson",
    "C85_lapack"
   ],
   "note": "Exact arithmetic, on the grid as the code has it. Stability is for structures without permeability. C85_lapack uses the indefinite description axiom of the standard library (Coq.Logic.IndefiniteDescription) to choose the routines."
  },
  {
   "property": "C86",
   "status": "partial",
   "theorems": [
    "C86_field",
    "C86_operator",
    "C86_bands_partial",
    "C86_above_partial",
    "C86_refuted"
   ],
   "note": "REFUTED: the frequencies of the grid are not symmetric about 0 (for n points -n/2 is present and n/2 is not, and for odd n also), so the exact bands at k and -k differ, in vacuum already (C86_refuted). Proved: conjugate fields, conjugate matrix elements and equal frequencies for all bands with nothing at the outermost frequencies, and that the exact bands at -k are not above such bands found at k. Missing: permeability, parities, and how large the difference is."
  },
  {
   "property": "C87",
   "status": "partial",
   "theorems": [
    "C87_object",
    "C87_grid",
    "C87_background",
    "C87_file",
    "C87_inverse",
    "C87_periodic",
    "C87_no_mu_partial",
    "C87_no_mu_refuted",
    "C87_function_nothing_refuted"
   ],
   "note": "REFUTED in two respects: a material function may return nothing according to the manual, and the program then stops (C87_function_nothing_refuted); has_mu does not see the permeability of what a material function returns, so that mu is taken to be 1 (C87_no_mu_refuted). Proved otherwise; libctl's search enters by the specification searches."
  },
  {
   "property": "C88",
   "status": "partial",
   "theorems": [
    "C88_average",
    "C88_center",
    "C88_safe",
    "C88_positive_definite",
    "C88_file_refuted",
    "C88_fraction_refuted"
   ],
   "note": "REFUTED in two respects: with an input file an object made of the default material makes the routine forget that part of the pixel belongs to the file (C88_file_refuted); an object lying over the interface and made of the lower material is not subtracted, so the weight is not the part of the pixel with that material (C88_fraction_refuted). Proved: the rest, with libctl's search, normals and overlaps as functions."
  },
  {
   "property": "C89",
   "status": "proved",
   "theorems": [
    "C89_component"
   ],
   "note": "For the build with Hermitian epsilon."
  },
  {
   "property": "C90",
   "status": "proved",
   "theorems": [
    "C90_operator",
    "C90_mu",
    "C90_exists",
    "C90_shape",
    "C90_stays_real",
    "C90_infers",
    "C90_needs_symmetry"
   ],
   "note": "Serial build. The real transforms are FFTW's documented definition; what c2r does with arrays that are not conjugate-symmetric enters only C90_needs_symmetry through the complex build and no other theorem. The symmetry is needed (C90_needs_symmetry) and the check for it is compiled out."
  },
  {
   "property": "C91",
   "status": "proved",
   "theorems": [
    "C91_bands",
    "C91_exist",
    "C91_unique"
   ],
   "note": "Serial builds, exact arithmetic; the real transforms as in C90. About the exact bands of the two operators, not about a run of the solver with real scalars."
  },
  {
   "property": "C92",
   "status": "proved",
   "theorems": [
    "C92_operator",
    "C92_mu",
    "C92_ucross",
    "C92_precond",
    "C92_any_number",
    "C92_shape",
    "C92_exists"
   ],
   "note": "Complex scalars and FFTW3; FFTW's distributed transform by its documented definition (transposed output); exact arithmetic; processes advance together between collective calls. The real-scalar parallel build is not modelled."
  },
  {
   "property": "C93",
   "status": "proved",
   "theorems": [
    "C93_solver",
    "C93_products",
    "C93_maxwell",
    "C93_any_number",
    "C93_exists"
   ],
   "note": "Exact arithmetic, so the order of the sums over processes does not matter; the values all processes compute alike from the results of allreduce are written once; the simple preconditioner and the deflation constraint are covered by C93_solver's hypotheses only. C93_maxwell asks that a process without planes does not report that it starts at plane 0 when k is 0: maxwell_zero_k_constraint would write into the spare room of its block."
  },
  {
   "property": "C94",
   "status": "partial",
   "theorems": [
    "C94_value",
    "C94_gradient",
    "C94_gradient_half_partial",
    "C94_gradient_half_refuted"
   ],
   "note": "REFUTED for half-stored grids (mpbi): the opposite point's share of the gradient uses the difference at the point itself, and the result can have the wrong sign. The value is right in all builds, the gradient in builds with complex fields, and in the others when the file's values at opposite cells agree. The dielectric constant of a pixel is that of its grid point (one mesh point per pixel); where several grids overlap, the conditions of C39 for the product and minimum rules."
  },
  {
   "property": "C95",
   "status": "proved",
   "theorems": [
    "C95_frequency",
    "C95_band_checked"
   ],
   "note": "Complex fields, one process, no permeability, one mesh point per pixel, exact eigenfields of positive frequency; the eigenfields along the direction are any that depend continuously on the step at the start (for a degenerate band the derivative depends on the branch and so does the hypothesis). Band 0, meaning the current field, is not modelled. Where grids overlap, the conditions of C39 for the product and minimum rules."
  },
  {
   "property": "C96",
   "status": "partial",
   "theorems": [
    "C96_calls",
    "C96_due",
    "C96_fields",
    "C96_split",
    "C96_epsilon",
    "C96_randomized_refuted",
    "C96_thunk_in_objects_refuted"
   ],
   "note": "REFUTED: with randomize-fields? set, run puts randomize-fields in front of the band functions, so they find random fields instead of the solver's; and a procedure of no arguments inside output-dpwr-in-objects is called only if band 1 has the energy. Proved without randomize-fields and with the rule 'thunks belong to band 1'. External procedures (init-params, solve-kpoint, the user's) are arbitrary functions on the memory; band functions that call run or solve-kpoint themselves, and procedures of two or more arguments, are not represented."
  },
  {
   "property": "C97",
   "status": "partial",
   "theorems": [
    "C97_component",
    "C97_vector",
    "C97_reciprocal",
    "C97_all_bands",
    "C97_lattice",
    "C97_lattice_total",
    "C97_band_checked",
    "C97_unsolved_refuted"
   ],
   "note": "REFUTED: the last sentence fails. Before init-params or before a k point is solved, compute_1_group_velocity_component prints an error and returns an uninitialised variable. The derivatives are proved without permeability and for frequencies above zero; libctl's vector and matrix functions are modelled after their documentation."
  },
  {
   "property": "C98",
   "status": "proved",
   "theorems": [
    "C98_load",
    "C98_range",
    "C98_round_trip",
    "C98_saved",
    "C98_tiles",
    "C98_refused"
   ],
   "note": "Over real numbers. HDF5 is taken to return the array written; a failure to create the file is not modelled."
  },
  {
   "property": "C99",
   "status": "partial",
   "theorems": [
    "C99_ref_set",
    "C99_mult",
    "C99_assoc",
    "C99_diagm",
    "C99_get",
    "C99_set_eigenvectors",
    "C99_restore",
    "C99_other_grid_refuted"
   ],
   "note": "REFUTED: the last clause fails. Only the number of plane waves is compared, so eigenvectors of a 4 x 2 grid are accepted by a 2 x 4 grid and get other plane waves. Everything else is proved, in complex builds on one process."
  },
  {
   "property": "C100",
   "status": "partial",
   "theorems": [
    "C100_tensor",
    "C100_bounds",
    "C100_grid_point",
    "C100_periodic",
    "C100_epsilon",
    "C100_epsilon_uniform",
    "C100_cscalar",
    "C100_stored",
    "C100_stored_refuted"
   ],
   "note": "REFUTED: the last clause fails. cvector-field-get-point multiplies with the phase of the k point solved last, as the field object does not keep its own. The rest is proved, for builds with complex fields on one process."
  }
 ]
}
