{"claims": [
  {"property": "C01", "status": "proved", "theorems": ["C01_fractional_absolute", "C01_absolute_fractional", "C01_absolute_affine", "C01_lattice_vectors", "C01_constructed_boxes"], "note": "Exact-real model of Box.h makeAbsolute/makeFractional and the lattice vectors; nonsingular is established by the Python constructor (C01_constructed_boxes)."},
  {"property": "C02", "status": "proved", "theorems": ["C02_wrap_lattice_shift", "C02_wrap_in_cell", "C02_wrap_aperiodic_axes", "C02_wrap_aperiodic_identity"], "note": "All periodicity settings, tilts, 2D and 3D."},
  {"property": "C03", "status": "proved", "theorems": ["C03_wrap_canonical", "C03_wrap_idempotent", "C03_wrap_fixes_cell"], "note": ""},
  {"property": "C04", "status": "proved", "theorems": ["C04_unwrap_wrap_iff", "C04_unwrap_shift", "C04_unwrap_wrap_face_refuted"], "note": "Exact characterisation (iff); the unrestricted round trip is refuted."},
  {"property": "C05", "status": "proved", "theorems": ["C05_contains_open_cell", "C05_wrap_not_contained_refuted", "C05_wrap_contained"], "note": "Exact characterisation (open cell); documented closed cell refuted."},
  {"property": "C06", "status": "proved", "theorems": ["C06_min_image", "C06_distance"], "note": ""},
  {"property": "C07", "status": "proved", "theorems": ["C07_plane_distance_bound", "C07_plane_distance_attained", "C07_plane_distance_attained_2d", "C07_no_two_images_in_ball"], "note": "Bound for all boxes, tightness in 3D for all tilts and in 2D when the (meaningless) xz, yz are 0."},
  {"property": "C08", "status": "proved", "theorems": ["C08_distance_lattice_invariant", "C08_compute_distances", "C08_compute_all_distances", "C08_distance_symmetric_off_faces", "C08_distance_symmetric_orthorhombic", "C08_distance_symmetric_refuted"], "note": "Symmetry proved where it holds, refuted in general."},
  {"property": "C09", "status": "proved", "theorems": ["C09_matrix_roundtrip_3d", "C09_matrix_roundtrip_2d", "C09_matrix_columns", "C09_lengths_angles_roundtrip", "C09_from_box_roundtrip", "C09_from_box_dimension_conflict", "C09_box_from_cpp", "C09_scale", "C09_from_box_drops_periodic_refuted"], "note": "Round trips proved; loss of periodic flags refuted."},
  {"property": "C10", "status": "proved", "theorems": ["C10_setters_fresh", "C10_set_L_fresh", "C10_set_2d_no_tilt", "C10_set_2d_tilted_refuted", "C10_set_3d_zeroes_length_refuted", "C10_reported_parameters", "C10_constructor_parameters"], "note": "All histories without the dimensions setter; counterexamples for the dimensions setter."},
  {"property": "C11", "status": "proved", "theorems": ["C11_center_of_mass_in_cell", "C11_center_of_mass_images", "C11_center_of_mass_permutation", "C11_center_of_mass_mass_scale", "C11_center_of_mass_coincident", "C11_center_of_mass_translation", "C11_center_positions", "C11_center_at_origin", "C11_aperiodic_single_point_refuted"], "note": "atan2 is the exact argument; phases in exact reals."},
  {"property": "C12", "status": "proved", "theorems": ["C12_index_row_major", "C12_index_order", "C12_multi_index_inverse", "C12_multi_index_overflow_refuted", "C12_rejects", "C12_out_of_range_refuted", "C12_access"], "note": "Bijection, order, inverse below 2^31 elements, exact rejection condition; the two documented behaviours that fail are the _refuted theorems."},
  {"property": "C13", "status": "proved", "theorems": ["C13_in_range", "C13_out_of_range", "C13_edges", "C13_cells"], "note": "Exact reals; binary32 behaviour is C65."},
  {"property": "C14", "status": "proved", "theorems": ["C14_counts", "C14_weights_in", "C14_total", "C14_wrong_arity", "C14_number_types"], "note": "Generic in the number type; instances R and counters modulo 2^32."},
  {"property": "C15", "status": "proved", "theorems": ["C15_schedule_independent", "C15_each_index_once"], "note": "TBB is modelled by arbitrary splitting, thread assignment and interleaving (ParModel.v)."},
  {"property": "C16", "status": "proved", "theorems": ["C16_reduce_into", "C16_reduce_into_zeroed", "C16_overwrites_refuted"], "note": "Exact result for every previous content; documented overwrite refuted."},
  {"property": "C17", "status": "proved", "theorems": ["C17_history", "C17_only_frames_since_reset", "C17_frames_since"], "note": "BondHistogramCompute state machine with the lazy reduction flag, any history."},
  {"property": "C18", "status": "proved", "theorems": ["C18_from_arrays"], "note": "from_arrays modelled with its loops; success iff lengths agree, query indices are sorted and indices are in range."},
  {"property": "C19", "status": "proved", "theorems": ["C19_reachable_valid", "C19_counts_segments", "C19_find_first_index", "C19_segments_prefix_sum_refuted"], "note": "Over the inductive set of reachable lists (constructor, filter, filter_r, sort, copy, reads). Prefix-sum reading of segments refuted."},
  {"property": "C20", "status": "proved", "theorems": ["C20_filter", "C20_filter_r", "C20_filter_r_rejects", "C20_commute", "C20_idempotent", "C20_mask_length_checked_refuted"], "note": "Exact contents for matching masks and valid radii; missing mask-length check refuted."},
  {"property": "C21", "status": "proved", "theorems": ["C21_machine", "C21_all_pairs", "C21_size"], "note": "Under every schedule of the parallel loop; size formula included; C21_machine: exact list or exception in 32-bit arithmetic."},
  {"property": "C22", "status": "proved", "theorems": ["C22_query_list", "C22_kept_by_filters", "C22_all_pairs_opposite", "C22_all_pairs_refuted", "C22_rad_refuted", "C22_nearest_query", "C22_ball_query", "C22_linkcell_any_radius"], "note": "C22_ball_query and C22_nearest_query cover query results of every backend, C22_query_list the list built from them, C22_kept_by_filters the later operations. Opposite direction of all_pairs proved in general and refuted against the documentation, likewise RAD."},
  {"property": "C23", "status": "proved", "theorems": ["C23_sort", "C23_sort_segments", "C23_documented_order_refuted"], "note": "Sort modelled as any result meeting std::sort's contract; documented tie order refuted."},
  {"property": "C24", "status": "proved", "theorems": ["C24_iterator", "C24_loop_iterator", "C24_loop_bonds", "C24_query_equals_list"], "note": "Iterator protocol modelled step by step; any schedule."},
  {"property": "C25", "status": "proved", "theorems": ["C25_query_list_reusable", "C25_kept", "C25_filter_accepted", "C25_filters_covered", "C25_filter_reuse_refuted"], "note": "Refuted for filter results with an exact characterisation of when they are accepted."},
  {"property": "C26", "status": "proved", "theorems": ["C26_accepted_aabb", "C26_accepted_linkcell", "C26_accepted_cellquery", "C26_ball_values", "C26_nearest_values", "C26_idempotent", "C26_sentinel_refuted"], "note": "Python argument encoding, mode inference and all four validation functions are modelled; float(1.1) is the real 1.1."},
  {"property": "C27", "status": "proved", "theorems": ["C27_image_list", "C27_image_vectors_distinct", "C27_radius_check", "C27_images_complete", "C27_wrapped_in_cell"], "note": "Image list, radius check and completeness for all boxes and periodicities; exact reals."},
  {"property": "C28", "status": "proved", "theorems": ["C28_tree", "C28_traversal"], "note": "Full buildNode/updateSkip/query algorithm on the node array, any number of (possibly coincident) points."},
  {"property": "C29", "status": "proved", "theorems": ["C29_ball_near_images", "C29_ball_brute_force", "C29_ball_defined", "C29_unwrapped_refuted", "C29_negative_r_min_refuted"], "note": "Complete iterator (image, node and leaf loops resumed across next() calls); exact reals."},
  {"property": "C30", "status": "proved", "theorems": ["C30_constructor_defined", "C30_cell_list", "C30_ball_wrapped", "C30_ball_brute_force", "C30_large_radius_refuted", "C30_negative_width_refuted", "C30_index_roundtrip_refuted"], "note": "Real-number model of LinkCell construction and ball iterator (LinkCellModel.v); iterator run as an inductive drained relation so non-termination is expressible. Query point assumed inside the box (wrapped): for negative fractional coordinates the C++ float-to-unsigned conversion is undefined."},
  {"property": "C31", "status": "proved", "theorems": ["C31_single", "C31_ball", "C31_flags_ignored", "C31_interleaved_refuted", "C31_unwrapped_refuted"], "note": "Grid construction, ghost images, counting-sort placement, cell iteration and distance test are modelled over exact reals; the shared grid that interleaved lazy iterations overwrite is modelled in the _refuted theorem."},
  {"property": "C32", "status": "proved", "theorems": ["C32_ball", "C32_agree", "C32_neighbor_lists"], "note": "Stated end to end from the Python keyword arguments; at most 2^31 points (CellQuery ghost tags)."},
  {"property": "C33", "status": "proved", "theorems": ["C33_cube", "C33_order"], "note": "IteratorCellShell modelled as a state machine (increment/nextZ/reset), all ranges, 2D and 3D."},
  {"property": "C34", "status": "proved", "theorems": ["C34_aabb", "C34_true_nearest", "C34_defined", "C34_linkcell", "C34_linkcell_true_nearest", "C34_linkcell_defined", "C34_agree", "C34_query", "C34_stops_before_r_max_refuted", "C34_large_guess_refuted", "C34_linkcell_elongated_refuted"], "note": "Model KnnModel.v, specification KnnSpec.v. C34_aabb and C34_linkcell state what is returned for all inputs, C34_true_nearest and C34_linkcell_true_nearest when it is the k nearest over all images, the _defined theorems that a result exists, C34_query the whole Python call with default guess. The three _refuted theorems show the limits are needed."},
  {"property": "C35", "status": "proved", "theorems": ["C35_rejected", "C35_raises", "C35_unchecked_refuted"], "note": "The check is proved for the two classes that make it; C35_unchecked_refuted shows the two that do not."},
  {"property": "C36", "status": "proved", "theorems": ["C36_raises", "C36_argument", "C36_buffer_box", "C36_distance", "C36_images", "C36_images_home", "C36_orthorhombic", "C36_tilted_distance_refuted", "C36_aperiodic_refuted", "C36_outside_point_refuted"], "note": "Model PBufferModel.v (PeriodicBuffer.cc:20-123), specification PBufferSpec.v. C36_distance and C36_images characterise the result for all boxes, points and buffers in 2D and 3D; C36_images also counts it."},
  {"property": "C37", "status": "proved", "theorems": ["C37_sann_shell", "C37_sann_raises", "C37_sann_defined", "C37_sann_empty_refuted"], "note": "All schedules and sort ties; empty input is undefined behaviour (refuted)."},
  {"property": "C38", "status": "proved", "theorems": ["C38_rad_open", "C38_rad_closed", "C38_rad_raises", "C38_closed_subset_open", "C38_equal_radii_ties", "C38_strictly_nearer_refuted"], "note": "Geometric criterion proved equivalent to the code's inequality for lists with wrapped non-zero distances; tie claim refuted for unequal radii."},
  {"property": "C39", "status": "proved", "theorems": ["C39_components", "C39_result", "C39_answer"], "note": "Interleaving model of the merge loop on the lock-free union-find (sequentially consistent atomics, weak CAS may fail spuriously), total correctness: no infinite execution, every completed merge leads to a result. Any distribution of the bonds over threads."},
  {"property": "C40", "status": "proved", "theorems": ["C40_numbering", "C40_keys", "C40_unique", "C40_schedule_independent"], "note": "Labelling, sorting (any result of std::sort meeting its contract) and key lists; uniqueness of the canonical numbering and schedule independence."},
  {"property": "C41", "status": "proved", "theorems": ["C41_always", "C41_finished", "C41_queries", "C41_ranks", "C41_cluster_ranks", "C41_packed", "C41_terminates", "C41_cluster_terminates", "C41_session"], "note": "Rely-guarantee proof over all interleavings; the rank bound uses a ghost record of which root each element was first linked to; termination by a potential that every successful compare-exchange lowers."},
  {"property": "C42", "status": "proved", "theorems": ["C42_sizes", "C42_centers", "C42_gyrations", "C42_inertia", "C42_radius", "C42_com_no_masses", "C42_com_equal_masses", "C42_com_sorted", "C42_masses_refuted", "C42_short_masses_refuted"], "note": "Exact reals; the centre of mass is Box::centerOfMass (C11). The general own-mass claim is false in the code: C42_masses_refuted, C42_short_masses_refuted."},
  {"property": "C43", "status": "proved", "theorems": ["C43_partition", "C43_clusters"], "note": "EnvDisjointSet::merge/find/findSet/getAvgEnv/getIndividualEnv, isSimilar, buildEnv, EnvironmentCluster::compute and populateEnv modelled function by function; the registration search is a parameter assumed to return an orthonormal matrix and existing indices."},
  {"property": "C44", "status": "proved", "theorems": ["C44_sound", "C44_complete_separated", "C44_clusters_exact", "C44_greedy_refuted", "C44_motif", "C44_motif_local"], "note": "Soundness, completeness under separation, and the greedy counterexample (C44_greedy_refuted) which shows the unconditional completeness claim is false."},
  {"property": "C45", "status": "proved", "theorems": ["C45_recompute", "C45_recompute_refuted", "C45_motif_refuted"], "note": "C45_recompute gives the exact result after any history; C45_recompute_refuted and C45_motif_refuted show point_environments keeps earlier systems."},
  {"property": "C46", "status": "proved", "theorems": ["C46_least_angle", "C46_symmetric", "C46_neighbor", "C46_neighbor_actual", "C46_neighbor_refuted", "C46_default_refuted", "C46_global"], "note": "C46_least_angle and C46_symmetric for every symmetry group (angles via rotation-matrix trace); C46_neighbor for points querying themselves and every chunking; C46_neighbor_actual states what is computed in general; C46_neighbor_refuted (wrong value, left 0, out-of-bounds read) and C46_default_refuted give the documented deviations. Real arithmetic; acos is Coq's."},
  {"property": "C47", "status": "proved", "theorems": ["C47_rows", "C47_every_bond", "C47_rotation_invariant", "C47_tensor_turns", "C47_every_bond_refuted"], "note": "C47_rows for all modes, caps and executions; spherical harmonics evaluator (fsph) and the 3x3 eigensolver are parameters (the latter assumed to return orthonormal rows). C47_every_bond when query points <= points; C47_rotation_invariant, C47_tensor_turns; C47_every_bond_refuted otherwise. The 32-bit offset sphCount is taken as exact."},
  {"property": "C48", "status": "proved", "theorems": ["C48_reject", "C48_direction", "C48_down_refuted", "C48_modes", "C48_bond_order"], "note": "C48_areas (Coquelicot integral), C48_reject, C48_direction, C48_modes, C48_bond_order over every history of compute/reset/read and every execution; C48_down_refuted for -z bonds. Number of bins bounded by the 32-bit sizes (bo_valid). Real arithmetic."},
  {"property": "C49", "status": "proved", "theorems": ["C49_reject", "C49_values", "C49_cumulative", "C49_mode_refuted", "C49_frames_refuted"], "note": "C49_reject, C49_values, C49_cumulative over every history; C49_mode_refuted and C49_frames_refuted for the deviations. Fewer than 2^32 bonds in range (32-bit counters, otherwise modulo). Real arithmetic. bins^3 floats are allocated for the 3D volumes although only bins are used; not modelled."},
  {"property": "C50", "status": "proved", "theorems": ["C50_reject", "C50_sizes", "C50_mean", "C50_default_query_values_refuted"], "note": "Reals for double; bond loops and both reductions run under any execution. C50_default_query_values_refuted shows the out-of-bounds read with omitted query_values."},
  {"property": "C51", "status": "proved", "theorems": ["C51_reject", "C51_fraction", "C51_values", "C51_default", "C51_far_refuted"], "note": "Over exact reals. C51_default composes with C32 (every NeighborQuery backend returns exactly the ball). C51_far_refuted: a bond longer than r_max + D/2 gives a negative contribution."},
  {"property": "C52", "status": "proved", "theorems": ["C52_reject", "C52_marks", "C52_exact", "C52_dimension", "C52_complete_refuted", "C52_tilted_refuted"], "note": "Over exact reals; ManagedArray indices and the unsigned wrap-around of (k + width) modelled. C52_complete_refuted and C52_tilted_refuted give the failing inputs."},
  {"property": "C53", "status": "proved", "theorems": ["C53_reject", "C53_values", "C53_density", "C53_exact", "C53_dimension", "C53_complete_refuted", "C53_once_refuted"], "note": "Over exact reals. C53_complete_refuted: voxel at 0.6 with r_max 0.9 gets 0. C53_once_refuted: window of 3 bins on a grid of 2 adds a particle twice."},
  {"property": "C54", "status": "proved", "theorems": ["C54_reject", "C54_zero_extent_refuted", "C54_values", "C54_accept", "C54_equivalents", "C54_coordinates", "C54_rotation_2d", "C54_rotation_3d", "C54_exchange", "C54_pmft", "C54_failed_call_refuted", "C54_bounds_refuted", "C54_shift_refuted"], "note": "Exact reals, 32-bit counters (value stated below 2^32 points per bin). Quaternion-to-angle conversion of the Python layer (rowan) not modelled. C54_*_refuted give the failing cases."},
  {"property": "C55", "status": "proved", "theorems": ["C55_window", "C55_autocorrelation", "C55_values", "C55_split", "C55_read", "C55_sign", "C55_unwrapped", "C55_rejected_refuted", "C55_images_refuted", "C55_lengths_refuted"], "note": "Exact reals; the FFT libraries are modelled by the discrete Fourier sum they document, rounding (pyfftw uses complex64) not modelled."},
  {"property": "C56", "status": "proved", "theorems": ["C56_reject", "C56_tensor", "C56_symmetric", "C56_traceless", "C56_form", "C56_order", "C56_lines", "C56_permutation", "C56_rotation", "C56_rotation_order"], "note": "Exact reals, NaN as None. Eigen's SelfAdjointEigenSolver is a parameter; C56_order assumes for the tensor at hand that it returns ascending eigenvalues with an orthonormal eigenbasis (util/diagonalize.cc relies on that)."},
  {"property": "C57", "status": "proved", "theorems": ["C57_value", "C57_reject", "C57_bound", "C57_permutation", "C57_scale", "C57_rotation", "C57_ideal", "C57_negative_weights_refuted"], "note": "Exact reals; the zero bond vector counts as direction 1 (atan2(0,0)=0)."},
  {"property": "C58", "status": "proved", "theorems": ["C58_constructor", "C58_threshold", "C58_accept", "C58_qij", "C58_connections", "C58_links", "C58_harmonics", "C58_clusters", "C58_alone", "C58_largest", "C58_sizes", "C58_bound", "C58_symmetric", "C58_angles", "C58_rotation", "C58_more_than_refuted", "C58_nlist_refuted", "C58_largest_refuted", "C58_result"], "note": "Spherical harmonics are a parameter with contract fsph_ok. Three documented claims refuted."},
  {"property": "C59", "status": "proved", "theorems": ["C59_isometry", "C59_group", "C59_matrix", "C59_from_matrix", "C59_round_trip", "C59_axis_angle", "C59_plane", "C59_improper"], "note": "All of VectorMath.h's quaternion/rotation-matrix functions in real arithmetic: C59_isometry, C59_group, C59_matrix, C59_from_matrix, C59_round_trip, C59_axis_angle, C59_plane, C59_improper."},
  {"property": "C60", "status": "proved", "theorems": ["C60_guard", "C60_plot", "C60_hasattr", "C60_results", "C60_failed_call_keeps", "C60_every_class", "C60_failed_call_erases_refuted", "C60_msd_refuted", "C60_msd_rule", "C60_unbound_refuted", "C60_diffraction_grid"], "note": "The table of classes is transcribed from freud/*.py; a call that raises is assumed to do so before or right after erasing, not inside the C++ loops. Refuted: failing calls erase, MSD, unbound calls."},
  {"property": "C61", "status": "proved", "theorems": ["C61_constructor", "C61_zero_replicates", "C61_norm", "C61_values", "C61_bounds", "C61_mean_particle_order", "C61_perfect", "C61_rotation", "C61_cube_symmetry", "C61_order_of_particles", "C61_seed_free", "C61_same_cutting", "C61_single_replicate", "C61_more_replicates", "C61_start_within_one_radian", "C61_not_optimal_refuted", "C61_cutting_refuted", "C61_annealing"], "note": "Exact reals; the generator seeded with (seed, first index of the chunk) is an arbitrary stream of numbers. C61_cutting_refuted and C61_not_optimal_refuted are the deviations named in the statement."},
  {"property": "C62", "status": "proved", "theorems": ["C62_constructor", "C62_accept", "C62_harmonics", "C62_ql", "C62_order", "C62_wl", "C62_angles", "C62_bound", "C62_aligned", "C62_rotation", "C62_rotation_results", "C62_permutation", "C62_weights", "C62_plain_ql_refuted", "C62_nan_only_refuted", "C62_coincident_refuted", "C62_negative_weights_refuted"], "note": "Spherical harmonics are those of the fsph library, taken as a parameter that meets the textbook formula (the submodule is empty in the repository). The addition theorem is proved for every l. Exact reals; NaN is None."},
  {"property": "C63", "status": "proved", "theorems": ["C63_set", "C63_set_rejected", "C63_rejected_value_reported_refuted", "C63_with_restores", "C63_with_rejected_refuted", "C63_with_construction", "C63_prebuilt_manager_refuted", "C63_agreement", "C63_nested"], "note": "Python's with statement, nanobind's integer conversion and oneTBB's global_control rule are trusted as written in ThreadsModel.v. Refuted: restoring at entry for stored managers; rejected numbers are still reported."},
  {"property": "C64", "status": "proved", "theorems": ["C64_accept", "C64_box", "C64_count", "C64_points", "C64_tiling", "C64_aligned", "C64_tilted_refuted"], "note": "Gaussian noise is an arbitrary displacement per point (in the plane for 2D). Exact reals. Alignment with the grid refuted for tilted cells with replica counts of mixed parity."},
  {"property": "C65", "status": "proved", "theorems": ["C65_bin", "C65_bin_infinite", "C65_bin_monotone", "C65_bin_first", "C65_bin_accurate", "C65_histogram", "C65_nan_refuted", "C65_tiny_axis_refuted", "C65_huge_axis_refuted", "C65_many_bins_refuted", "C65_edges_refuted", "C65_fmod", "C65_modulus", "C65_modulus_overflow_refuted", "C65_angle", "C65_wrap", "C65_wrap_inside_refuted", "C65_wrap_idempotent_refuted"], "note": "Flocq binary32 with round to nearest even after every operation (no FMA, no excess precision, one NaN). Tilted boxes are not treated in single precision (C01-C06 treat them over the reals). Negative results: NaN values pass the range check and give an out-of-range index; axes that are tiny, huge or have more than 2^22 bins can fail; reported edges differ from the ones used; wrapping can move a point strictly inside by a box length and is not idempotent; the modulus overflows for b > 2^126."},
  {"property": "C66", "status": "proved", "theorems": ["C66_debye_j0", "C66_sinc_average", "C66_debye_constructor", "C66_debye_one_value_refuted", "C66_debye_k_values", "C66_debye", "C66_debye_min_valid_k", "C66_debye_bound", "C66_debye_images", "C66_direct_constructor", "C66_direct", "C66_direct_min_valid_k", "C66_kpoints", "C66_kpoints_orthorhombic", "C66_tilted_kpoints_missing_refuted", "C66_undefined_cast_refuted", "C66_total", "C66_cross_factors", "C66_partials_sum", "C66_faber_ziman_refuted", "C66_lattice_images", "C66_translation", "C66_order", "C66_all_directions_refuted"], "note": "Exact reals; the outcome of pruning is arbitrary, the cast of NaN a parameter, J_0 a parameter (Bessel's integral as contract). Zero total number of points and calls that raise are outside. Refuted: all directions, tilted boxes, NaN cast, Faber-Ziman, Debye with one value."},
  {"property": "C67", "status": "proved", "theorems": ["C67_domain", "C67_table", "C67_symbol_symmetric", "C67_table_symmetric", "C67_odd_zero", "C67_error", "C67_compute", "C67_values", "C67_odd_order"], "note": "Whole table transcribed into WignerTable.v as exact decimals and compared with Racah's formula by integer arithmetic (relative squared error, signs), symmetries by exact comparison; rounding of the literals to double/float is not modelled."},
  {"property": "C68", "status": "proved", "theorems": ["C68_real", "C68_rotation", "C68_bound", "C68_results"], "note": "Invariance, reality, bound and reported values. Exact reals; harmonics as in C62; the table literals as exact decimals."},
  {"property": "C69", "status": "proved", "theorems": ["C69_accept", "C69_positive_refuted", "C69_reject", "C69_in_range", "C69_value", "C69_bounds", "C69_symmetric", "C69_overflow_refuted"], "note": "Holds for l <= 8; the overflow for l >= 10 is C69_overflow_refuted. Exact reals apart from the unsigned integers."},
  {"property": "C70", "status": "proved", "theorems": ["C70_total", "C70_bonds", "C70_vectors", "C70_per_point", "C70_symmetric", "C70_polytopes", "C70_history", "C70_shared_list", "C70_flags", "C70_nonperiodic_refuted", "C70_snapshot_refuted"], "note": "All statements hold for every tessellation meeting the stated contract of voro++ (VoronoiSpec.voro_ok), which is trusted. Non-periodic boxes and the sharing of nlist are refuted."},
  {"property": "C71", "status": "proved", "theorems": ["C71_rows", "C71_value", "C71_isolated", "C71_single", "C71_power_bounds", "C71_log_bounds", "C71_exp_bounds", "C71_documented_power_refuted", "C71_order", "C71_scale", "C71_system", "C71_arguments"], "note": "From the system to the numbers; ext models the IEEE special values of division, pow, log and exp. The documented power formula is refuted."},
  {"property": "C72", "status": "proved", "theorems": ["C72_list", "C72_ball", "C72_total", "C72_same", "C72_exchange", "C72_self", "C72_monotone", "C72_default_refuted", "C72_unchecked_refuted"], "note": "Ball queries and neighbour lists; the two deviations are refuted. numpy.unique modelled as sorting and removing duplicates."},
  {"property": "C73", "status": "proved", "theorems": ["C73_rows", "C73_bounds", "C73_equivalent", "C73_rotation", "C73_scale", "C73_lists", "C73_default", "C73_raises", "C73_unchecked_refuted", "C73_single_refuted"], "note": "Exact reals. The neighbour list is the one given or built from query arguments (C32)."},
  {"property": "C74", "status": "proved", "theorems": ["C74_inputs", "C74_results", "C74_segments", "C74_accumulated", "C74_snapshots", "C74_accumulate_refuted", "C74_nlist", "C74_sort_refuted", "C74_copy", "C74_points", "C74_given_list_refuted", "C74_points_view_refuted", "C74_current"], "note": "A heap of arrays with read-only exports; ownership invariant over all programs. What the arrays contain is a parameter (the other files compute it). DiffractionPattern, MSD and Interface, which keep numpy arrays, are not modelled here."},
  {"property": "C75", "status": "proved", "theorems": ["C75_kabsch", "C75_matching", "C75_greedy_refuted", "C75_fit", "C75_least", "C75_copy", "C75_enough", "C75_degenerate_refuted", "C75_empty_refuted", "C75_proper", "C75_motif", "C75_minimizer", "C75_minimize"], "note": "Registration.h modelled from the triple enumeration to the map; SVD, sort and draws are arbitrary under their contracts; greedy matching, collinear draws and empty neighbourhoods refuted."},
  {"property": "C76", "status": "proved", "theorems": ["C76_accept", "C76_cube", "C76_reject", "C76_centre", "C76_bounds", "C76_order", "C76_depth", "C76_periodic", "C76_translation", "C76_axes", "C76_pixels", "C76_aligned", "C76_scale", "C76_average", "C76_k", "C76_transposed_refuted", "C76_k_vectors_refuted", "C76_weights_refuted", "C76_erased_refuted", "C76_k_alias_refuted", "C76_cubic_refuted", "C76_width_refuted", "C76_view_refuted"], "note": "Model of DiffractionPattern with the numpy and scipy functions written out. Deviations from the documentation are the _refuted theorems."},
  {"property": "C77", "status": "proved", "theorems": ["C77_counts", "C77_count_bits", "C77_wrap_refuted", "C77_floats", "C77_runs", "C77_exact", "C77_counter_refuted", "C77_particles", "C77_nematic_refuted", "C77_nematic", "C77_entries", "C77_tensor"], "note": "Any schedule, any thread-local arrays left over, any order of reduction; counts mod 2^32, IEEE sums of any format (Flocq) with the classical error bound; addends of an iteration are a function of its index (Nematic's are written out in binary32). Refuted with witnesses: wrap-around, bits of nematic_tensor, unit contributions beyond 2^24."},
  {"property": "C78", "status": "proved", "theorems": ["C78_ball", "C78_defined", "C78_inside", "C78_outside", "C78_order", "C78_symmetric", "C78_symmetric_refuted", "C78_nan_refuted", "C78_refused"], "note": "Binary32 with SSE min/max semantics, no fused operations; accuracy for untilted boxes; symmetry through periodic boundaries and NaN tolerance are refuted by concrete bit patterns."},
  {"property": "C79", "status": "proved", "theorems": ["C79_cells", "C79_defined", "C79_once", "C79_inside", "C79_outside", "C79_agree", "C79_tilted_refuted", "C79_lost_refuted"], "note": "Untilted boxes: every point of the box has a cell near its exact position, construction and queries are defined, pairs within range by the stated error are found once and accurately, nothing clearly outside is found, agreement with AABBQuery. Tilted boxes: a wrapped point without a cell and a lost neighbour are refutations."},
  {"property": "C80", "status": "proved", "theorems": ["C80_reads", "C80_served", "C80_withheld", "C80_writes", "C80_unbound_refuted"], "note": "Lookup and guard proved for any tables; the tables of freud's 53 python classes and 47 exported classes are checked completely in the two extreme states and transferred to all programs. Bodies are lists of accesses (all branches). Five broken attributes refuted."},
  {"property": "C81", "status": "proved", "theorems": ["C81_matrix", "C81_rows", "C81_accurate", "C81_self", "C81_symmetric", "C81_symmetric_open", "C81_symmetric_refuted", "C81_flat_refuted", "C81_linkcell", "C81_aabb", "C81_same_bits_refuted"], "note": "Distances of Box in binary32 for every untilted box, periodicity and point of ordinary size: accuracy against the exact nearest image, symmetry up to the error, exact zero for a point and itself (tilted boxes included), array contents for every schedule, identity with LinkCell bonds and closeness to AABBQuery bonds. Bitwise symmetry under periodic boundaries, equality of bits with AABBQuery and the uniform treatment of z in flat boxes are refuted by concrete values."},
  {"property": "C82", "status": "proved", "theorems": ["C82_bonds", "C82_closest", "C82_short", "C82_ends", "C82_once", "C82_accurate", "C82_query", "C82_twice_refuted", "C82_stuck_refuted", "C82_nan_scale_refuted"], "note": "k-nearest queries of AABBQuery in binary32: contents, order and completeness against the computed distances for every box; termination for every visible guess and growing scale; accuracy, repeated points and default arguments for untilted boxes. Uniqueness of points, termination for subnormal guesses and rejection of a NaN scale are refuted by concrete calls."},
  {"property": "C83", "status": "proved", "theorems": ["C83_described", "C83_agree", "C83_matrix", "C83_left_handed_refuted", "C83_rotated_refuted", "C83_mda", "C83_dimensions_refuted", "C83_points", "C83_reject", "C83_dimensions"], "note": "Python objects of other libraries are modelled by the attributes the code reads; float32 rounding of the inputs is left out. That MDAnalysis stores the cell vectors as rows is that library's documentation, not /repo's. Four documented expectations refuted (MDAnalysis tilted boxes, rotated cells, left-handed matrices, the dimensions argument)."},
  {"property": "C84", "status": "proved", "theorems": ["C84_search", "C84_local", "C84_undefined", "C84_refused", "C84_inside", "C84_outside", "C84_once", "C84_agree", "C84_lost_refuted", "C84_flat_refuted", "C84_periodic_refuted", "C84_machine", "C84_overflow_refuted"], "note": "CellQuery ball queries in binary32 with the 32-bit integers of the code (C84_machine: same outcome for at most 2^31 cells); exact outcome for any numbers, locality, exact refusals; accuracy, completeness and uniqueness in untilted boxes. Refuted: that pairs within r_max are never lost, that queries are flattened in 2D, that non-periodic directions are respected, that any accepted radius is safe (cell numbers overflow)."},
  {"property": "C85", "status": "proved", "theorems": ["C85_counts", "C85_bits", "C85_defined", "C85_rdf", "C85_n_r", "C85_system", "C85_edge_refuted", "C85_nan_refuted", "C85_memory_refuted", "C85_arguments"], "note": "Binary32 with binary64 products by M_PI. Counts: exact for frames whose pairs are clear of the edges by six roundings and the slack of the distance; mod 2^32. Values: under handy_box, handy_axis and products inside 2^-110..2^110. Refuted parts: pairs on an edge, r_max NaN, memory."},
  {"property": "C86", "status": "proved", "theorems": ["C86_structure", "C86_system", "C86_coordination", "C86_density", "C86_query", "C86_rectangular", "C86_oblique", "C86_random"], "note": "Exact reals. from_cif is not modelled. The documentation of rectangular names [0.5, 0.5, 0.5] for the centred point; the code uses [0.5, 0.5, 0]."},
  {"property": "C87", "status": "proved", "theorems": ["C87_width", "C87_accepts", "C87_few_refuted", "C87_cube", "C87_occupancy", "C87_units", "C87_square", "C87_square_units_refuted", "C87_square_cells_refuted", "C87_query"], "note": "Exact reals, any tilt, 2D and 3D. The documented default fails for all 3D systems below 80 points and depends on the unit of length in 2D: stated as refuted theorems. The limit cases (equality) can differ in float32."},
  {"property": "C88", "status": "proved", "theorems": ["C88_same", "C88_safe", "C88_refused", "C88_endless_refuted", "C88_raises_refuted"], "note": "Ball queries in boxes without tilt (any box for the general statement); nearest neighbour queries and the automatic cell width are not covered."},
  {"property": "C89", "status": "proved", "theorems": ["C89_setting", "C89_bonds", "C89_wrapped", "C89_rdf", "C89_frames", "C89_local_density", "C89_cluster", "C89_hexatic"], "note": "Relates two runs of the whole pipeline on two descriptions of one system (translation, images, unit of length, inversion, renumbering). Exact reals; the queries are ball queries in fully periodic boxes. C89_case, C89_plane_case and C89_rdf_case meet the hypotheses."},
  {"property": "C90", "status": "proved", "theorems": ["C90_setting", "C90_bonds", "C90_rdf", "C90_frames", "C90_local_density", "C90_cluster", "C90_hexatic", "C90_generate", "C90_crystal"], "note": "Relates runs on a system and on a block of copies of it, and generate_system with one and with n replicas. Exact reals; ball queries in fully periodic boxes; Cluster: projection and number of clusters from below. C90_case and C90_plane_case meet the hypotheses of C90_crystal and C90_hexatic, and through C90_generate those of the others."},
  {"property": "C91", "status": "proved", "theorems": ["C91_arguments", "C91_defined", "C91_number", "C91_density", "C91_count", "C91_negative_refuted", "C91_zero_diameter_refuted", "C91_nan_refuted"], "note": "Model of LocalDensity in binary32 with the queries of C78; bounds on num_neighbors and density for all systems, exact counts where nothing is cut, outcome of every query; negative values, NaN for diameter 0 and NaN arguments refuted."},
  {"property": "C92", "status": "proved", "theorems": ["C92_setting", "C92_bonds", "C92_self", "C92_rdf", "C92_frames", "C92_correlation", "C92_local_density", "C92_pmft", "C92_single", "C92_single_refuted", "C92_nearest_refuted"], "note": "Bonds, RDF, correlation function, PMFTR12 and sums of LocalDensity from both sides; counts of the RDF in single precision away from bin edges. C92_nearest_refuted and C92_single_refuted state where it fails."},
  {"property": "C93", "status": "proved", "theorems": ["C93_pmftr12_rdf", "C93_xyt_xy", "C93_correlation_counts", "C93_correlation_ones", "C93_local_density_rdf", "C93_voxels_density", "C93_interface_cluster"], "note": "Exact real arithmetic. PMFTR12/RDF: plane, r_min 0, normalization_mode exact, fewer than 2^32 counted bonds. LocalDensity: positive diameter and bonds no longer than r_max + diameter/2 (what its default query finds). GaussianDensity/SphereVoxelization: untilted box, window neither too narrow nor overlapping itself; outside of that C52 and C53 refute each class's own claim. Interface/Cluster: no bond of a particle with itself."},
  {"property": "C94", "status": "proved", "theorems": ["C94_filter_r", "C94_exclude_ii", "C94_nearest_ball", "C94_rdf_range"], "note": "Exact real arithmetic, the setting of C32 (fully periodic box, points in the cell, radius below half of every plane distance). k nearest: AABBQuery or raw points, no r_max and no r_guess given, scale at most 2 (default 1.1)."},
  {"property": "C95", "status": "proved", "theorems": ["C95_more_bonds", "C95_one_bond", "C95_points", "C95_queries", "C95_gaussian", "C95_voxels", "C95_partial_rdfs", "C95_exclude_refuted"], "note": "Additional bonds merge clusters (exactly one cluster less per joining bond); neighbours, Gaussian densities, voxels and partial RDFs of parts add up, in any box and schedule; refuted for exclude_ii."},
  {"property": "C96", "status": "proved", "theorems": ["C96_rdf", "C96_rdf_range", "C96_bins", "C96_correlation", "C96_counts", "C96_float", "C96_float_near", "C96_float_refuted", "C96_pmft", "C96_pmft_mean", "C96_bond_order"], "note": "Real arithmetic, counts below 2^32 (the counters are 32 bit), same frames and normalisation mode in both calculations; C96_float in binary32 away from fine edges, C96_float_refuted shows the failure at an edge."}
]}
