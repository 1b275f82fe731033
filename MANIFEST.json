{
 "claims": [
  {
   "property": "C01",
   "status": "proved",
   "theorems": [
    "C01_decomposition_tiles_the_grid",
    "C01_double_quotient_exact"
   ],
   "note": "Hypothesis: the number of blocks is below 2^32."
  },
  {
   "property": "C02",
   "status": "partial",
   "theorems": [
    "C02_free_decomposition_1d",
    "C02_free_decomposition_2d",
    "C02_free_decomposition_3d_partial",
    "C02_requests_are_met_2d",
    "C02_requests_are_met_3d",
    "C02_free_decomposition_3d_refuted",
    "C02_product_wrap_refuted"
   ],
   "note": "Fails in 3D when ncells2*ncells3 is 0 mod 2^32; explicit decomposition check wraps."
  },
  {
   "property": "C03",
   "status": "proved",
   "theorems": [
    "C03_numbering_is_a_bijection",
    "C03_neighbours_are_symmetric"
   ],
   "note": ""
  },
  {
   "property": "C04",
   "status": "proved",
   "theorems": [
    "C04_field_condition_of_a_face",
    "C04_particle_condition_of_a_face"
   ],
   "note": ""
  },
  {
   "property": "C05",
   "status": "proved",
   "theorems": [
    "C05_every_send_has_its_receive",
    "C05_message_extents_agree",
    "C05_no_exchange_can_hang"
   ],
   "note": "Includes deadlock freedom under arbitrary MPI buffering."
  },
  {
   "property": "C06",
   "status": "partial",
   "theorems": [
    "C06_no_wrap_through_a_face_partial",
    "C06_corner_refuted"
   ],
   "note": "Holds for faces; refuted at corners and edges."
  },
  {
   "property": "C07",
   "status": "proved",
   "theorems": [
    "C07_ghost_cells_hold_the_periodic_grid",
    "C07_independent_of_the_decomposition",
    "C07_exchange_with_any_boundary_conditions",
    "C07_every_state_is_a_grid",
    "C07_exchange_can_complete"
   ],
   "note": "Hypothesis: every block is at least as wide as the ghost zone (the automatic decomposition does not guarantee this for shape orders 9-11)."
  },
  {
   "property": "C08",
   "status": "proved",
   "theorems": [
    "C08_active_cells_collect_every_contribution",
    "C08_total_is_conserved"
   ],
   "note": "Periodic grid, exact reals."
  },
  {
   "property": "C09",
   "status": "proved",
   "theorems": [
    "C09_direction_table_is_complete",
    "C09_unique_table_is_half",
    "C09_tags_are_invertible",
    "C09_tag_is_direction_of_departure"
   ],
   "note": ""
  },
  {
   "property": "C10",
   "status": "partial",
   "theorems": [
    "C10_accessors_on_axis_aligned_partial",
    "C10_get_sign_rejects_others",
    "C10_get_dim_refuted",
    "C10_hash_is_injective"
   ],
   "note": "get_sign full; get_dim accepts diagonals (refuted)."
  },
  {
   "property": "C11",
   "status": "proved",
   "theorems": [
    "C11_remove_dead_keeps_live_particles",
    "C11_remove_dead_fails_only_on_send_tags"
   ],
   "note": "Every particle content and every thread order; tags other than dead/alive are shown to be an error."
  },
  {
   "property": "C12",
   "status": "proved",
   "theorems": [
    "C12_sort_permutes_and_groups_by_cell",
    "C12_pass_keeps_live_particles",
    "C12_sorted_after_pass_refuted"
   ],
   "note": "Every content, thread order and mesh below 2^31-1 cells with live particles inside; also the whole per-step pass over species. Refuted: that a species sorted in a pass is still ordered at its end (a later clearing reorders it)."
  },
  {
   "property": "C13",
   "status": "proved",
   "theorems": [
    "C13_rank_receives_exactly_what_is_sent",
    "C13_exchange_conserves_particles",
    "C13_only_particles_without_partner_are_lost",
    "C13_arrives_in_an_active_cell",
    "C13_overflow_is_an_error",
    "C13_without_partner_refuted"
   ],
   "note": "Per rank and globally, for any decomposition, tags and thread orders, np + received < maxp, otherwise an error. Only particles tagged for a direction without partner are lost (C13_only_particles_without_partner_are_lost). Matching of messages is C05."
  },
  {
   "property": "C14",
   "status": "partial",
   "theorems": [
    "C14_cartesian_push_exact",
    "C14_offset_stays_in_the_cell_partial",
    "C14_single_precision_error_partial",
    "C14_offset_below_one_refuted",
    "C14_curvilinear_position",
    "C14_curvilinear_far_outside_refuted"
   ],
   "note": "Exact arithmetic, Cartesian: full statement proved. In single precision the offset can become exactly 1 (proved, refutes [0,1)); the closed interval, the index bound and an error bound of 2^-24 cells are proved instead. Other coordinates: proved for coordinates >= -1, refuted below."
  },
  {
   "property": "C15",
   "status": "proved",
   "theorems": [
    "C15_inside_untouched",
    "C15_absorbing_boundaries",
    "C15_periodic_boundaries",
    "C15_reflecting_boundaries",
    "C15_only_normal_velocity_flips",
    "C15_curvilinear_flip",
    "C15_where_the_velocity_is_flipped",
    "C15_tagged_for_an_existing_neighbour"
   ],
   "note": "Every position, velocity and combination of conditions, any dimension; also the link to the exchange (C13). The mirrored offset can be exactly 1; without a custom update the velocity is converted at a quarter instead of half of the way in curvilinear coordinates (proved)."
  },
  {
   "property": "C16",
   "status": "partial",
   "theorems": [
    "C16_zigzag_continuity_partial",
    "C16_zigzag_3d_defect",
    "C16_zigzag_3d_refuted"
   ],
   "note": "1D and 2D proved for every set of particles and order of atomic additions (C16_zigzag_continuity_partial); in 3D the code lacks the displacement-product corrector: the exact defect is proved (C16_zigzag_3d_defect) and the statement refuted (C16_zigzag_3d_refuted)."
  },
  {
   "property": "C17",
   "status": "proved",
   "theorems": [
    "C17_esirkepov_continuity",
    "C17_esirkepov_any_third",
    "C17_third_literal_refuted",
    "C17_deposit_order_independent"
   ],
   "note": "Orders 1..11, 1D-3D, exact arithmetic, THIRD = 1/3. With the decimal literal of numeric.h the identity holds up to the factor 3*THIRD (C17_esirkepov_any_third, C17_third_literal_refuted)."
  },
  {
   "property": "C18",
   "status": "proved",
   "theorems": [
    "C18_weights_are_splines",
    "C18_orders",
    "C18_weights_nonnegative",
    "C18_weights_sum_to_one",
    "C18_weights_centred",
    "C18_shape_functions",
    "C18_interpolate_constant",
    "C18_interpolate_affine",
    "C18_interpolate_between"
   ],
   "note": "All orders, both staggerings; also the interpolation is exact on affine fields."
  },
  {
   "property": "C19",
   "status": "partial",
   "theorems": [
    "C19_deposit_in_bounds_partial",
    "C19_even_order_refuted",
    "C19_interpolation_in_bounds"
   ],
   "note": "Holds for odd orders and the zig-zag build; for even orders it needs the upper half of the cell above the box to be excluded, where the code writes out of bounds (C19_even_order_refuted)."
  },
  {
   "property": "C20",
   "status": "partial",
   "theorems": [
    "C20_faraday_preserves_divB",
    "C20_tuned_faraday_preserves_extended_divB",
    "C20_extended_divergence_is_plain",
    "C20_tuned_faraday_divB_refuted",
    "C20_faraday_curvilinear",
    "C20_faraday_gr"
   ],
   "note": "Default Cartesian stencil, curvilinear and GR solvers proved; tuned (beta/delta) stencil preserves the extended divergence only, ordinary divergence refuted."
  },
  {
   "property": "C21",
   "status": "partial",
   "theorems": [
    "C21_divergence_follows_the_charge_partial",
    "C21_gauss_law_is_kept_partial",
    "C21_a_run_completes"
   ],
   "note": "Proved over whole runs on periodic Cartesian grids, for every decomposition, schedule, number of filter passes and shape order (zig-zag in 1D and 2D only, since C16 fails in 3D). Assumes particles are handed over unchanged between steps, which C11-C13 and C15 establish separately; curvilinear grids, walls and injection are not covered."
  },
  {
   "property": "C22",
   "status": "partial",
   "theorems": [
    "C22_ampere_preserves_divE",
    "C22_currents_change_divE_by_divJ",
    "C22_ampere_curvilinear",
    "C22_ampere_lower_axis",
    "C22_ampere_upper_axis",
    "C22_ampere_gr_off_axis_partial",
    "C22_ampere_gr_axis_refuted"
   ],
   "note": "Proved everywhere except the GR solver on the axis, where it is refuted."
  },
  {
   "property": "C23",
   "status": "partial",
   "theorems": [
    "C23_passes_filter_the_whole_grid",
    "C23_product_of_1d_filters_partial",
    "C23_product_in_3d_refuted",
    "C23_total_current_is_conserved",
    "C23_continuity_is_inherited",
    "C23_values_stay_within_bounds"
   ],
   "note": "Every pass equals one fixed periodic stencil of the whole grid for every periodic decomposition; total, continuity and bounds preserved for any number of passes. The stencil is the product of 1D filters in 1D and 2D; in 3D the code misplaces taps and the product form is refuted. Conductor and axis edges are not covered."
  },
  {
   "property": "C24",
   "status": "partial",
   "theorems": [
    "C24_all_walls_partial",
    "C24_lower_walls",
    "C24_untagged",
    "C24_upper_last_ghost_refuted"
   ],
   "note": "walls on any set of faces, all dimensions, ghost widths and orders, corners included; the last ghost layer of an upper wall is never set for normal E and tangential B (refuted). The kernel runs on Cartesian grids only; MATCH, AXIS, ATMOSPHERE and FIXED boundaries are not part of this claim."
  },
  {
   "property": "C25",
   "status": "proved",
   "theorems": [
    "C25_boris_preserves_the_magnitude",
    "C25_boris_is_reversible",
    "C25_boris_solves_its_equation"
   ],
   "note": "Exact arithmetic."
  },
  {
   "property": "C26",
   "status": "proved",
   "theorems": [
    "C26_vay_preserves_the_magnitude",
    "C26_vay_is_the_unique_solution",
    "C26_vay_keeps_a_force_free_particle",
    "C26_boris_force_free_refuted",
    "C26_vay_is_reversible"
   ],
   "note": "Exact arithmetic; the update is characterised as the unique solution of the implicit equation."
  },
  {
   "property": "C27",
   "status": "partial",
   "theorems": [
    "C27_identifiers_unique_partial",
    "C27_counter_wrap_refuted"
   ],
   "note": "Unique over every history (creation under any schedule, removal, sort, push, exchange, restart) while no subdomain creates more than 2^32 particles; the 32-bit counter wrap refutes the unbounded claim. MPI builds (two payload columns). The pusher is any map that keeps identifiers of living particles."
  },
  {
   "property": "C28",
   "status": "partial",
   "theorems": [
    "C28_next_free_slots",
    "C28_next_free_slots_pair",
    "C28_rejected_before_writing_refuted",
    "C28_rejected_before_writing_pair_refuted",
    "C28_same_species_refuted"
   ],
   "note": "Exact placement within capacity for every schedule is proved; rejection before writing is refuted: over capacity the kernel writes out of bounds for every schedule. Injecting a pair into one and the same species loses particles."
  },
  {
   "property": "C29",
   "status": "partial",
   "theorems": [
    "C29_exactly_one_owner",
    "C29_placed_once_partial",
    "C29_weights_ignored_refuted",
    "C29_weights_refuted"
   ],
   "note": "Ownership, position and velocity proved for every list and decomposition with exact arithmetic and conversions that are increasing and exact at cell edges; the listed weights are refuted (they are never read)."
  },
  {
   "property": "C30",
   "status": "proved",
   "theorems": [
    "C30_regions_tile_the_array",
    "C30_fields_are_restored",
    "C30_layout_is_restored"
   ],
   "note": "Block layout, checkpoint regions and round trip of all needed field arrays for any rank order; file contents modelled as arrays with ADIOS selections."
  },
  {
   "property": "C31",
   "status": "proved",
   "theorems": [
    "C31_particles_are_restored",
    "C31_other_memory_layout_refuted"
   ],
   "note": "Round trip of every species for any distribution over ranks; refuted when resuming with another memory layout (payload arrays)."
  },
  {
   "property": "C32",
   "status": "partial",
   "theorems": [
    "C32_newest_are_kept",
    "C32_negative_keeps_all",
    "C32_zero_writes_nothing",
    "C32_external_deletion_refuted"
   ],
   "note": "Rotation proved for all sequences of saves of a run and all keep values; refuted under external deletion of the oldest file (rotation stops)."
  },
  {
   "property": "C33",
   "status": "partial",
   "theorems": [
    "C33_last_completed_survives",
    "C33_restart_uses_newest_partial",
    "C33_crash_while_writing_refuted"
   ],
   "note": "Existence of a complete checkpoint proved at every crash point; restart from the newest complete one proved unless the crash happens while a checkpoint is written, refuted in that case."
  },
  {
   "property": "C34",
   "status": "partial",
   "theorems": [
    "C34_step_is_restored",
    "C34_large_step_refuted",
    "C34_time_error_partial",
    "C34_exact_time_refuted"
   ],
   "note": "Step recovered below 2^31 (refuted above); time recovered with an explicit error bound, exactness refuted."
  },
  {
   "property": "C35",
   "status": "partial",
   "theorems": [
    "C35_first_restart_partial",
    "C35_unchanged_inputs_partial",
    "C35_second_restart_refuted"
   ],
   "note": "Proved for the first restart and for unchanged inputs; refuted from the second restart on (exact characterisation)."
  },
  {
   "property": "C36",
   "status": "partial",
   "theorems": [
    "C36_step_interval",
    "C36_time_interval",
    "C36_wall_time_fires_once",
    "C36_wall_time_checkpoint_partial",
    "C36_wall_time_checkpoint_refuted",
    "C36_zero_interval_refuted"
   ],
   "note": "Step, time and wall-time schedules proved; the wall-time checkpoint is lost when the limit passes in the first two steps (refuted)."
  },
  {
   "property": "C37",
   "status": "proved",
   "theorems": [
    "C37_file_is_strided",
    "C37_written_once",
    "C37_declared_shape",
    "C37_coordinates_partial",
    "C37_last_edge_missing_refuted",
    "C37_last_edge_short_refuted",
    "C37_ghosts_refuted",
    "C37_short_factor_list_refuted"
   ],
   "note": "The statement, for one factor per dimension, with the layout computed in double precision as in the code. The other theorems record what surrounds it: a factor list shorter than the dimension and output.debug.ghosts are undefined behaviour; the last cell edge (a coordinate, not a field) is wrong."
  },
  {
   "property": "C38",
   "status": "partial",
   "theorems": [
    "C38_storage_total_partial",
    "C38_in_bounds",
    "C38_cell_values",
    "C38_periodic_total",
    "C38_periodic_cells",
    "C38_axis_loss",
    "C38_axis_refuted",
    "C38_mirror_refuted"
   ],
   "note": "Proved: total over the array for every coordinate system, per-cell values and totals on every decomposition of a periodic Cartesian grid, and the exact loss at the upper axis. The statement fails at the upper axis (refuted). Exact reals; velocities in curvilinear bases are a parameter."
  },
  {
   "property": "C39",
   "status": "partial",
   "theorems": [
    "C39_fields_move_by_the_shift_partial",
    "C39_periodic_fields_move_partial",
    "C39_shift_is_defined",
    "C39_other_shifts_are_undefined",
    "C39_larger_shifts_leave_stale_cells",
    "C39_particles_move_by_the_shift_partial",
    "C39_single_subdomain_keeps_tag_refuted",
    "C39_places_are_kept"
   ],
   "note": "Shifts from 0 to the ghost width (fields) or the narrowest subdomain (particles), every decomposition, boundary, thread order and exchange interleaving, one subdomain per rank, MPI build. Larger shifts leave stale cells (C39_larger_shifts_leave_stale_cells); negative ones are undefined; with a single subdomain along an open direction the particles that leave keep a send tag (refuted). Previous cell indices are not shifted."
  },
  {
   "property": "C40",
   "status": "partial",
   "theorems": [
    "C40_intersection_partial",
    "C40_intersects_partial",
    "C40_open_above_refuted",
    "C40_range_covers_exactly_the_cells",
    "C40_no_cells_outside",
    "C40_ranges_with_ghosts",
    "C40_interior_end_with_ghosts_refuted",
    "C40_cartesian_conversion"
   ],
   "note": "Intersection/Intersects/ExtentToRange on exact reals. Cell ranges proved for all boxes; Intersection and Intersects proved for boxes that are not open above only; the remaining case is refuted, as are ghost cells with an interior end. Conversions are arbitrary increasing maps of the extent onto [0, n]."
  },
  {
   "property": "C41",
   "status": "proved",
   "theorems": [
    "C41_read_returns_last_set",
    "C41_wrong_type_is_an_error",
    "C41_missing_parameter",
    "C41_promises_checked",
    "C41_promised_parameters_readable",
    "C41_promised_means_promised",
    "C41_printing_partial",
    "C41_printing_empty_inner_refuted"
   ],
   "note": "All histories of set/promise calls; values of any type. Also printing of values (all but empty inner vectors, refuted)."
  },
  {
   "property": "C42",
   "status": "partial",
   "theorems": [
    "C42_minkowski",
    "C42_minkowski_extent",
    "C42_minkowski_spherical",
    "C42_spherical",
    "C42_spherical_cartesian",
    "C42_quasi_spherical_partial",
    "C42_negative_stretching_refuted"
   ],
   "note": "Minkowski, spherical and quasi-spherical coordinates, all directions of conversion, exact real arithmetic; quasi-spherical only for stretching parameters that are not negative (negative ones are refuted: the constructor yields NaN)."
  },
  {
   "property": "C43",
   "status": "proved",
   "theorems": [
    "C43_kerr_schild",
    "C43_four_vectors",
    "C43_minkowski",
    "C43_spherical",
    "C43_quasi_spherical",
    "C43_available",
    "C43_cartesian",
    "C43_cartesian_norm",
    "C43_velocity",
    "C43_physical_velocity",
    "C43_minkowski_velocity",
    "C43_volume"
   ],
   "note": "All basis changes of the three SR metrics at every point off the axis, exact real arithmetic; transform, transform_xyz, component transform; the contravariant components are shown to be the velocity of a point."
  },
  {
   "property": "C44",
   "status": "proved",
   "theorems": [
    "C44_distributed_run_is_the_reference_solution",
    "C44_independent_of_the_decomposition",
    "C44_runs_can_complete"
   ],
   "note": "Periodic boxes; currents are given. Includes thread order and message interleaving."
  },
  {
   "property": "C45",
   "status": "proved",
   "theorems": [
    "C45_reflection_in_the_piston_frame",
    "C45_ends_in_front_of_the_piston"
   ],
   "note": "Exact arithmetic, massive and massless particles."
  },
  {
   "property": "C46",
   "status": "partial",
   "theorems": [
    "C46_single_drags_partial",
    "C46_both_drags_compute",
    "C46_sum_of_drags_refuted",
    "C46_drags_decelerate"
   ],
   "note": "Refuted: with both drags enabled the second one is evaluated at the three-velocity; each drag alone is proved correct."
  },
  {
   "property": "C47",
   "status": "partial",
   "theorems": [
    "C47_rotation_is_an_isometry",
    "C47_rotation_hits_the_drift",
    "C47_boost_is_a_lorentz_transformation",
    "C47_single_precision_refuted"
   ],
   "note": "Proved in exact arithmetic for every drift; refuted in single precision (division by zero near the antipode)."
  },
  {
   "property": "C48",
   "status": "partial",
   "theorems": [
    "C48_one_step",
    "C48_every_step_partial",
    "C48_initial_particles_refuted",
    "C48_first_current_refuted",
    "C48_poles_refuted"
   ],
   "note": "Order of operations of the GR step proved to keep the documented time levels for every number of steps when particles start 3/2 steps ahead of the fields; refuted for particles given with the initial fields, for the first averaged current, and for the nodes on the upper axis (not time-averaged)."
  },
  {
   "property": "C49",
   "status": "partial",
   "theorems": [
    "C49_azimuth_frozen_refuted",
    "C49_azimuth_refuted",
    "C49_computed_azimuth_partial"
   ],
   "note": "False of the code: the azimuth is passed by value and never stored (C49_azimuth_frozen_refuted for every push, C49_azimuth_refuted with a witness). Proved that the dropped value would be right."
  },
  {
   "property": "C50",
   "status": "proved",
   "theorems": [
    "C50_accepted_is_paired",
    "C50_what_is_accepted",
    "C50_premise_of_exchanges",
    "C50_layers_are_promised",
    "C50_not_ruled_out"
   ],
   "note": "Cartesian specifications; exact acceptance condition, connection to the premise of the exchange theorems. Strings without NUL."
  },
  {
   "property": "C51",
   "status": "proved",
   "theorems": [
    "C51_interruptions_do_not_matter"
   ],
   "note": "For any interruption pattern, given that the restored state is the saved one and that the number of steps is the same."
  },
  {
   "property": "C52",
   "status": "partial",
   "theorems": [
    "C52_compton_momentum_partial",
    "C52_synchrotron_momentum_partial",
    "C52_no_recoil_refuted",
    "C52_recoil_without_photon_refuted"
   ],
   "note": "Momentum balance proved for both processes with the drag on; refuted with the drag off (photon without recoil) and below the minimal energy (recoil without photon). Fresh slots and identifiers follow from C28_next_free_slots."
  },
  {
   "property": "C53",
   "status": "partial",
   "theorems": [
    "C53_faraday_order",
    "C53_ampere_order",
    "C53_currents_order",
    "C53_faraday_curvilinear_order",
    "C53_ampere_curvilinear_order",
    "C53_gr_faraday_order",
    "C53_gr_ampere_main_order",
    "C53_gr_ampere_in_place_refuted"
   ],
   "note": "Proved for all solver loops except the in-place GR electric updates, where it is refuted."
  },
  {
   "property": "C54",
   "status": "proved",
   "theorems": [
    "C54_guiding_centre_is_consistent",
    "C54_drift_is_subluminal",
    "C54_drift_is_e_cross_b",
    "C54_weak_field_branch"
   ],
   "note": "Exact arithmetic; the weak-drift series is bounded by 20 w^4 against the exact factor."
  },
  {
   "property": "C55",
   "status": "proved",
   "theorems": [
    "C55_vacuum_energy_is_conserved",
    "C55_energy_formula",
    "C55_courant_condition_gives_stability",
    "C55_code_is_stable"
   ],
   "note": "Exact arithmetic; default stencil coefficients."
  },
  {
   "property": "C57",
   "status": "partial",
   "theorems": [
    "C57_ranks_agree_partial",
    "C57_wall_time_ranks_differ_refuted"
   ],
   "note": "Proved without a wall-time limit; refuted with one."
  },
  {
   "property": "C58",
   "status": "proved",
   "theorems": [
    "C58_velocity_is_a_mean",
    "C58_velocity_bounded",
    "C58_particles_below_c"
   ],
   "note": "Special-relativistic engine, Cartesian periodic grid, exact reals."
  },
  {
   "property": "C59",
   "status": "partial",
   "theorems": [
    "C59_thickness_as_given_partial",
    "C59_malformed_lists_refuted"
   ],
   "note": "Proved for well-formed input and for MPI builds; refuted for malformed lists in builds without MPI."
  },
  {
   "property": "C60",
   "status": "partial",
   "theorems": [
    "C60_kerr_schild_0",
    "C60_kerr_schild_partial",
    "C60_quasi_kerr_schild_partial",
    "C60_quasi_kerr_schild_small_refuted",
    "C60_spherical",
    "C60_quasi_spherical_partial",
    "C60_quasi_spherical_small_refuted"
   ],
   "note": "Spherical and Kerr-Schild without a hole proved; Kerr-Schild with a hole within cos^2 of the half-cell angle; both quasi-spherical metrics refuted below 0.001 rad (4 times too small)."
  },
  {
   "property": "C61",
   "status": "proved",
   "theorems": [
    "C61_line_element",
    "C61_consistent"
   ],
   "note": "Exact arithmetic, off the axis; all three GR metrics."
  },
  {
   "property": "C62",
   "status": "partial",
   "theorems": [
    "C62_kerr_schild",
    "C62_kerr_schild_0",
    "C62_quasi_kerr_schild_partial",
    "C62_quasi_kerr_schild_radial_refuted",
    "C62_quasi_kerr_schild_angular_refuted"
   ],
   "note": "Kerr-Schild with and without a hole: proved. Quasi-spherical: proved without stretching; with stretching all but the derivatives of h^22, which are refuted."
  },
  {
   "property": "C63",
   "status": "proved",
   "theorems": [
    "C63_energy_component"
   ],
   "note": "Exact arithmetic, off the axis."
  },
  {
   "property": "C64",
   "status": "proved",
   "theorems": [
    "C64_smallest",
    "C64_speed_limit"
   ],
   "note": "Exact arithmetic. The spherical metric's closed form is a lower bound of every cell's size."
  },
  {
   "property": "C67",
   "status": "partial",
   "theorems": [
    "C67_kernels",
    "C67_same_metric",
    "C67_exchanges_partial",
    "C67_test_particles_refuted",
    "C67_border_error",
    "C67_rotating_refuted",
    "C67_no_rotation"
   ],
   "note": "Proved kernel by kernel (any order, any subdomain) and for the exchange schedule of every step, except E at n-1/2, which reads D in ghost cells that were not averaged: error given exactly, nonzero around a rotating hole (refuted), zero without rotation (proved). With the field solver off the push reads ghost cells never set (refuted)."
  },
  {
   "property": "C65",
   "status": "partial",
   "theorems": [
    "C65_momentum_flat",
    "C65_momentum_kerr_schild",
    "C65_momentum_quasi_kerr_schild_partial",
    "C65_momentum_quasi_kerr_schild_refuted",
    "C65_position",
    "C65_conversions"
   ],
   "note": "Proved for Kerr-Schild, flat Kerr-Schild and unstretched quasi-spherical Kerr-Schild (angular component up to the explicit error of flushing small derivatives); refuted for the stretched quasi-spherical metric. The derivatives are at the midpoint with the previous iterate; convergence of the fixed point iteration is not proved."
  },
  {
   "property": "C66",
   "status": "proved",
   "theorems": [
    "C66_angular_momentum",
    "C66_kicks"
   ],
   "note": ""
  },
  {
   "property": "C68",
   "status": "partial",
   "theorems": [
    "C68_landing",
    "C68_tags",
    "C68_other_tags",
    "C68_which_boundaries_partial",
    "C68_unhandled_boundaries_refuted"
   ],
   "note": "Landing, tags and dead particles proved in full; 'every accepted boundary is applied' is refuted (reflecting, atmosphere, custom outer boundaries do nothing)."
  },
  {
   "property": "C69",
   "status": "proved",
   "theorems": [
    "C69_E",
    "C69_H",
    "C69_second_order",
    "C69_no_hole",
    "C69_metrics"
   ],
   "note": "E and H kernels against the 3+1 definitions, with the averaging error bounded by second differences"
  },
  {
   "property": "C73",
   "status": "partial",
   "theorems": [
    "C73_lower_wall",
    "C73_upper_wall_partial",
    "C73_upper_wall_one_cell_low",
    "C73_upper_wall_refuted",
    "C73_two_walls_refuted",
    "C73_axes"
   ],
   "note": "Proved for conductors below the domain, for the normal component of conductors above it, and for the axes. Tangential components at an upper conductor and two facing conductors are refuted. Corners of two conductors in different directions are not covered."
  },
  {
   "property": "C71",
   "status": "proved",
   "theorems": [
    "C71_fields_at_the_cell_centres",
    "C71_as_is",
    "C71_ghost_cells",
    "C71_exact_for_affine_fields",
    "C71_within_the_neighbours",
    "C71_independent_of_the_decomposition"
   ],
   "note": "The metric transformation is a parameter (its correctness is C42, C60, C61); interpolation, staggering, source array, basis and position are those of the code."
  },
  {
   "property": "C72",
   "status": "proved",
   "theorems": [
    "C72_independent_of_the_decomposition",
    "C72_no_deadlock",
    "C72_exact_for_quadratic_potentials",
    "C72_difference",
    "C72_axis_refuted"
   ],
   "note": "Sends deposit their message (buffered MPI_Send). The potential is counted from the face half a cell below the first cell; counted from the axis it is off (C72_axis_refuted)."
  },
  {
   "property": "C70",
   "status": "partial",
   "theorems": [
    "C70_field_columns",
    "C70_moment_columns",
    "C70_number_column",
    "C70_weights_refuted",
    "C70_weighted_stress_refuted",
    "C70_stress_refuted",
    "C70_curvilinear_refuted",
    "C70_volume_refuted",
    "C70_columns_partial",
    "C70_columns_refuted"
   ],
   "note": "Field columns and Npart in full; particle columns on periodic Cartesian grids without weights (T with masses 0 or 1). Elsewhere the code disagrees (C70_*_refuted). Equal widths only if T is requested with digits."
  },
  {
   "property": "C74",
   "status": "partial",
   "theorems": [
    "C74_weight",
    "C74_update",
    "C74_relaxation",
    "C74_divided_partial",
    "C74_thick_layer_refuted"
   ],
   "note": "Cartesian for the divided grid; any metric for the kernel. Layers that reach a border between subdomains are excluded: there the property fails (C74_thick_layer_refuted)."
  },
  {
   "property": "C75",
   "status": "partial",
   "theorems": [
    "C75_boundary",
    "C75_idempotent",
    "C75_images",
    "C75_felt_partial",
    "C75_wide_shapes_refuted",
    "C75_divided"
   ],
   "note": "The field a particle feels: shape orders 0 and 1; wider shapes read rows without images (C75_wide_shapes_refuted). Divided grids: blocks wider than the ghost zone in the second direction."
  },
  {
   "property": "C76",
   "status": "proved",
   "theorems": [
    "C76_pairs",
    "C76_neutral",
    "C76_refilled",
    "C76_amounts",
    "C76_settles",
    "C76_fill",
    "C76_hydrostatic",
    "C76_lower_extent",
    "C76_upper_extent_refuted",
    "C76_no_limit_refuted",
    "C76_heavy_refuted",
    "C76_buffer",
    "C76_profile",
    "C76_uniform_target"
   ],
   "note": "Unit masses for the number density; for other masses the code compares the mass density with the target (C76_amounts, C76_heavy_refuted). Upper atmospheres: gravity has no end (C76_upper_extent_refuted). The documented default ds = 0 disables the atmosphere (C76_no_limit_refuted)."
  },
  {
   "property": "C77",
   "status": "partial",
   "theorems": [
    "C77_values",
    "C77_divided_partial",
    "C77_sides_partial",
    "C77_idempotent",
    "C77_surface",
    "C77_mirror_refuted",
    "C77_inside_refuted"
   ],
   "note": "C77_values holds for any metric. C77_divided_partial and C77_sides_partial: Cartesian grids with an atmosphere clear of the borders between subdomains; without that it is false (C77_inside_refuted). On the lower side the fields end one cell below the particle surface (C77_surface, C77_mirror_refuted)."
  },
  {
   "property": "C78",
   "status": "partial",
   "theorems": [
    "C78_horizon",
    "C78_divided_partial",
    "C78_idempotent",
    "C78_wide_shapes_refuted",
    "C78_ghost_columns_refuted",
    "C78_main",
    "C78_auxiliary_refuted",
    "C78_currents",
    "C78_absorbed",
    "C78_damped"
   ],
   "note": "Two ghost cells (shape order up to two) for the full statement; ghost columns between subdomains keep old values (C78_ghost_columns_refuted), and the auxiliary fields get no condition (C78_auxiliary_refuted)."
  },
  {
   "property": "C79",
   "status": "partial",
   "theorems": [
    "C79_values",
    "C79_divided",
    "C79_all_sides",
    "C79_idempotent",
    "C79_mirror_refuted",
    "C79_curvilinear_refuted",
    "C79_axis_refuted"
   ],
   "note": "Cartesian coordinates in full; in spherical coordinates the conversion of the value is wrong away from the inner edge (C79_curvilinear_refuted, C79_axis_refuted); the two sides differ by one node (C79_mirror_refuted)."
  },
  {
   "property": "C80",
   "status": "partial",
   "theorems": [
    "C80_initial",
    "C80_divided",
    "C80_initial_gr",
    "C80_gr_subset_refuted",
    "C80_update_refuted",
    "C80_update_with_copy",
    "C80_interpolation"
   ],
   "note": "Initial fields in full for special relativity. Updates during the run are undefined as the code is (C80_update_refuted) and right once the kernel keeps its copy (C80_update_with_copy); in general relativity incomplete triples are ignored (C80_gr_subset_refuted)."
  },
  {
   "property": "C81",
   "status": "partial",
   "theorems": [
    "C81_cartesian",
    "C81_physical",
    "C81_charge",
    "C81_curvilinear",
    "C81_curvilinear_refuted"
   ],
   "note": "In full on Cartesian grids. On curvilinear grids the flux is divided by the volume of the wrong cell (C81_curvilinear says what is written, C81_curvilinear_refuted that it is not the divergence)."
  },
  {
   "property": "C82",
   "status": "partial",
   "theorems": [
    "C82_variables",
    "C82_tracked",
    "C82_all",
    "C82_stride",
    "C82_dead_refuted",
    "C82_division_refuted",
    "C82_zero_stride"
   ],
   "note": "In full for tracked species. For others, with stride 1 and a truthful sorted flag (C82_all); the flag can be wrong (C82_dead_refuted), with a larger stride the number of rows depends on the division (C82_division_refuted), and stride 0 is not rejected (C82_zero_stride)."
  },
  {
   "property": "C83",
   "status": "partial",
   "theorems": [
    "C83_spectrum",
    "C83_edges",
    "C83_unique",
    "C83_energy",
    "C83_overflow_refuted",
    "C83_rounding_refuted"
   ],
   "note": "Holds while no live particle reaches the last edge; at or above it the kernel writes past the array (C83_overflow_refuted), and in single precision also slightly below it (C83_rounding_refuted)."
  },
  {
   "property": "C84",
   "status": "partial",
   "theorems": [
    "C84_flux",
    "C84_unit",
    "C84_direction",
    "C84_fallback",
    "C84_timelike",
    "C84_cold",
    "C84_physical",
    "C84_displaced_refuted"
   ],
   "note": "Unit norm, direction, uniqueness, fallback, convexity of the cone and the cold case are proved. That a cell with massive particles shows their direction is refuted (C84_displaced_refuted): particle velocities are normalised with the metric at the particle but tested with the metric at the centre. Rounding, and the smoothing weights (C38), are not part of this model."
  },
  {
   "property": "C85",
   "status": "partial",
   "theorems": [
    "C85_pusher_names",
    "C85_pusher_refused",
    "C85_drag_names",
    "C85_accepted",
    "C85_promises",
    "C85_runs",
    "C85_read",
    "C85_runs_gr",
    "C85_skipped",
    "C85_massive_photon_refuted",
    "C85_massless_boris_refuted",
    "C85_gca_alone_refuted",
    "C85_gr_vay_refuted",
    "C85_gr_emission_refuted",
    "C85_photon_zero_refuted",
    "C85_maxnpart_refuted",
    "C85_index_refuted"
   ],
   "note": "Proved for every meaningful file; soundness of whatever is accepted is proved except for what the checks let through, which is refuted with witnesses: massive species with the photon pusher (\"photon,\"), massless ones with Boris (0/0), gca alone, Vay and emission in GR, photon species 0, a capacity that is no 32-bit number, the 256th species. Values of the other parameters are not part of this model."
  },
  {
   "property": "C86",
   "status": "partial",
   "theorems": [
    "C86_powerlaw",
    "C86_powerlaw_limit_refuted",
    "C86_powerlaw_direction",
    "C86_direction",
    "C86_isotropic",
    "C86_rejection",
    "C86_accepts",
    "C86_proposal",
    "C86_juttner",
    "C86_tail_refuted",
    "C86_cool",
    "C86_radius",
    "C86_box_muller",
    "C86_cool_ratio",
    "C86_cool_refuted",
    "C86_cold",
    "C86_warm",
    "C86_flip",
    "C86_flip_weight",
    "C86_turned",
    "C86_boosted"
   ],
   "note": "Proved: the power law of gamma - 1, isotropy, the loop, that proposals times acceptance have the Juttner-Synge density, that radius and angle of a component have the density of two normal numbers (polar coordinates), and that flips and boost give the drifting distribution for every symmetric density. Refuted: limits of the power law as limits of gamma, the tail beyond temp ln(1/epsilon), and the density below temperature 1/2."
  },
  {
   "property": "C87",
   "status": "proved",
   "theorems": [
    "C87_recognised",
    "C87_tensor",
    "C87_only",
    "C87_named",
    "C87_distinct",
    "C87_custom_apart",
    "C87_merge",
    "C87_init",
    "C87_written",
    "C87_written_refuted",
    "C87_custom_name_refuted",
    "C87_species_refuted",
    "C87_capitals_refuted"
   ],
   "note": "Recognition of every spelling, components of T, converse of recognition, names, injectivity, merge, exact condition for a run to start, exact condition for its outputs to be written. Refuted beside them: that whatever starts can be written, that a custom name is never taken for a quantity, that accepted species are those asked for, that capitals do not matter."
  },
  {
   "property": "C88",
   "status": "proved",
   "theorems": [
    "C88_total_current",
    "C88_read",
    "C88_sigma",
    "C88_mean_field",
    "C88_engines",
    "C88_external",
    "C88_acceleration",
    "C88_gyration",
    "C88_frequency",
    "C88_larmor",
    "C88_plasma_frequency",
    "C88_power"
   ],
   "note": "Exact reals. The oscillation is that of a uniform cold plasma along one axis, stated exactly with the mass at a momentum passed through during the step; kernels at one node, the area of curvilinear nodes as a parameter."
  },
  {
   "property": "C89",
   "status": "partial",
   "theorems": [
    "C89_mean",
    "C89_alignment",
    "C89_compton",
    "C89_heavier_refuted",
    "C89_saturation",
    "C89_radiated",
    "C89_window",
    "C89_outside",
    "C89_fast_refuted",
    "C89_replaces",
    "C89_guiding_centre"
   ],
   "note": "As stated it is false of the code. Proved instead: the exact mean (|q| m times a cosine times the drag), agreement for Compton with |q| m = 1, the mean beyond one photon per step, the energy carried away, the window of Lorentz factors in which emission happens at all, and that emission replaces all drags. Refuted beside them: agreement for other species, slowing of every particle the drag slows."
  },
  {
   "property": "C90",
   "status": "partial",
   "theorems": [
    "C90_every",
    "C90_each",
    "C90_off",
    "C90_undefined",
    "C90_own_time_refuted",
    "C90_sampling",
    "C90_short_refuted",
    "C90_only_short",
    "C90_negative_refuted",
    "C90_species_refuted",
    "C90_species_default",
    "C90_input",
    "C90_input_last",
    "C90_input_absent_refuted",
    "C90_resuming"
   ],
   "note": "Proved for entries that fit their types and times that are positive or -1. Refuted beside it, with the exact condition: own times that are zero or negative, short lists of factors, negative numbers, species that do not exist, and a command line without -input."
  },
  {
   "property": "C91",
   "status": "partial",
   "theorems": [
    "C91_duration",
    "C91_same_value",
    "C91_units_refuted",
    "C91_history",
    "C91_average",
    "C91_history_refuted",
    "C91_bar",
    "C91_remaining_refuted",
    "C91_percentages",
    "C91_nothing_refuted",
    "C91_ranks",
    "C91_ranks_refuted",
    "C91_imbalance",
    "C91_balanced_refuted",
    "C91_zero_refuted",
    "C91_unit_refuted",
    "C91_fullness",
    "C91_fullness_refuted"
   ],
   "note": "Durations, history, bar, shares on one process and use of the arrays in full. Shares over several ranks: each is right on its rank, the sum is not 100. Refuted: remaining time (one step too many), imbalance (wrong formula), units other than microseconds."
  },
  {
   "property": "C92",
   "status": "partial",
   "theorems": [
    "C92_number",
    "C92_places",
    "C92_regions_tile",
    "C92_total_number_partial",
    "C92_total_number_refuted",
    "C92_mean_weight",
    "C92_refusals"
   ],
   "note": "Number, places, weights, refusals and the tiling of the region in full. The total over a decomposition is proved within one per subdomain of the number asked for; that it does not depend on the decomposition is refuted. Exact arithmetic: a draw that rounds up to the end of the region is not covered. Mean weight for one dimension at a time."
  },
  {
   "property": "C93",
   "status": "partial",
   "theorems": [
    "C93_width",
    "C93_columns_at_anchors",
    "C93_too_wide_throws",
    "C93_species_row_partial",
    "C93_species_row_mpi_partial",
    "C93_species_row_refuted",
    "C93_step_row"
   ],
   "note": "Width in characters and alignment in full; a table whose columns do not fit is proved to throw. Rows of step, time and species are characterised exactly; that every row is printed is refuted. The texts of the numbers are given (their widths are hypotheses); rows of the timers are not instantiated."
  },
  {
   "property": "C94",
   "status": "partial",
   "theorems": [
    "C94_equal_nodes_partial",
    "C94_bounds",
    "C94_ranks_agree_refuted",
    "C94_left_to_the_library",
    "C94_one_process",
    "C94_tuned",
    "C94_untuned"
   ],
   "note": "Equal nodes, no number, one process and engine names in full. With unequal nodes the ranks are bracketed; that they agree is refuted."
  },
  {
   "property": "C95",
   "status": "partial",
   "theorems": [
    "C95_sum_over_species",
    "C95_order_free",
    "C95_other_components_kept_refuted",
    "C95_unknown_species",
    "C95_bad_component"
   ],
   "note": "Sum and independence of the order in full (exact sums). That the other components are kept is refuted; species numbers outside the list are undefined."
  }
 ]
}