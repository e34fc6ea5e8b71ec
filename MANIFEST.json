{"claims": [
{"property": "C01", "status": "proved", "theorems": ["C01_encode_is_rfc4648", "C01_text_length", "C01_text_alphabet", "C01_roundtrip"], "note": ""},
{"property": "C02", "status": "proved", "theorems": ["C02_decode_by_input", "C02_malformed_stops", "C02_decode_by_input_refuted", "C02_empty_text_refuted"], "note": "The reading without the extra byte is false with the end mark (C02_decode_by_input_refuted); for the empty text the bound 0 means no bound (C02_empty_text_refuted)."},
{"property": "C03", "status": "proved", "theorems": ["C03_block_self_describing", "C03_header_wraps_refuted"], "note": ""},
{"property": "C04", "status": "proved", "theorems": ["C04_sorted_stably", "C04_result_unique", "C04_idempotent"], "note": ""},
{"property": "C05", "status": "proved", "theorems": ["C05_delivery", "C05_nothing_lost", "C05_reply_restores"], "note": ""},
{"property": "C06", "status": "proved", "theorems": ["C06_collect", "C06_collect_all", "C06_distribute", "C06_distribute_collect", "C06_distribute_overflow", "C06_distribute_refuted"], "note": "the int overflow outside the stated range is exhibited by C06_distribute_overflow and C06_distribute_refuted"},
{"property": "C07", "status": "proved", "theorems": ["C07_migration", "C07_outside_aborts", "C07_upper_face_refuted", "C07_finite_doubles", "C07_nan_refuted"], "note": "positions exactly on the upper face of the root box and NaN positions are not handled by the code: C07_upper_face_refuted (undefined behaviour), C07_nan_refuted (particle lost)"},
{"property": "C08", "status": "proved", "theorems": ["C08_sampling"], "note": ""},
{"property": "C09", "status": "proved", "theorems": ["C09_remove"], "note": ""},
{"property": "C10", "status": "proved", "theorems": ["C10_process_grid", "C10_tiles", "C10_tiles_reals", "C10_tiles_doubles", "C10_smoothing_doubles_refuted", "C10_few_samples_refuted"], "note": "tiling is proved for any arithmetic whose averages are averages, for exact reals with every smoothing factor in [0,1], and for doubles with the default factor 1; for other factors in doubles it fails (C10_smoothing_doubles_refuted); fewer samples than ranks is undefined behaviour (C10_few_samples_refuted)"},
{"property": "C11", "status": "proved", "theorems": ["C11_insert", "C11_history", "C11_overflow_refuted"], "note": "ids beyond the int range are undefined behaviour (C11_overflow_refuted); an id may be reused after its object is removed (C11_id_reuse)"},
{"property": "C12", "status": "proved", "theorems": ["C12_global_index"], "note": "Tpetra's contiguous map is modelled by its documented meaning"},
{"property": "C13", "status": "proved", "theorems": ["C13_history", "C13_file_roundtrip", "C13_reload_refuted"], "note": "a second file load does not clear the reverse map (C13_reload_refuted); duplicates are kept although the header comment announces their removal"},
{"property": "C14", "status": "proved", "theorems": ["C14_collect", "C14_once", "C14_unknown_reported_refuted"], "note": "Real arithmetic. A link to an unknown id is not reported (C14_unknown_reported_refuted): find()'s status is ignored."},
{"property": "C15", "status": "proved", "theorems": ["C15_lookup"], "note": "Zoltan_DD is modelled by its documented meaning; result buffers are never shrunk"},
{"property": "C16", "status": "proved", "theorems": ["C16_wrap", "C16_adjust", "C16_wrap_doubles", "C16_adjust_doubles", "C16_doubles_upper_edge_refuted", "C16_doubles_below_refuted", "C16_doubles_nontermination_refuted", "C16_doubles_inside"], "note": "Exact arithmetic for all inputs, doubles for all coordinates on a power-of-two grid; for general doubles the claim is false (three refutations)."},
{"property": "C17", "status": "proved", "theorems": ["C17_nearest_image", "C17_doubles_half_refuted"], "note": "Exact arithmetic; for general doubles the half-box bound is false (refutation)."},
{"property": "C18", "status": "proved", "theorems": ["C18_streams", "C18_cover", "C18_serial", "C18_thread_range"], "note": "Engine = position in the base sequence of the seed; leapfrog split of the TRNG library is trusted. A draw that consumes several base numbers is several draws."},
{"property": "C19", "status": "proved", "theorems": ["C19_rows", "C19_force", "C19_clear"], "note": "Real arithmetic for the values; Tpetra's CRS matrix and maps are modelled by their documented meaning. Ranks without objects need an empty mobility range (lo = hi + 1)."},
{"property": "C20", "status": "proved", "theorems": ["C20_write_back"], "note": ""},
{"property": "C21", "status": "proved", "theorems": ["C21_apply", "C21_symmetric_psd", "C21_product"], "note": "Real arithmetic; Tpetra products by their meaning."},
{"property": "C22", "status": "proved", "theorems": ["C22_optimum", "C22_near", "C22_exact", "C22_complementarity", "C22_margin_refuted", "C22_narrow_refuted", "C22_doubles_refuted"], "note": "Restated with the margin of the code; the unqualified equivalence is refuted (C22_margin_refuted, C22_narrow_refuted, C22_doubles_refuted)."},
{"property": "C23", "status": "proved", "theorems": ["C23_outcome", "C23_converged", "C23_doubles", "C23_exhausted_refuted", "C23_infeasible_guess_refuted"], "note": "Convergence means a history record below the tolerance: return code 0 is also returned when iterations run out (C23_exhausted_refuted), and an infeasible guess can be returned (C23_infeasible_guess_refuted). C23_doubles is the same report in doubles."},
{"property": "C24", "status": "proved", "theorems": ["C24_best", "C24_converged", "C24_largest", "C24_terminates", "C24_doubles", "C24_ones_refuted", "C24_nothing_evaluated_refuted"], "note": "Refuted without the restriction: C24_ones_refuted, C24_nothing_evaluated_refuted."},
{"property": "C25", "status": "proved", "theorems": ["C25_split", "C25_solve", "C25_exhausted_refuted"], "note": "For converged runs; C25_exhausted_refuted shows the mismatch when iterations run out."},
{"property": "C26", "status": "proved", "theorems": ["C26_stress", "C26_split_independent", "C26_doubles_schedule_refuted"], "note": "Exact arithmetic; with doubles the sums depend on the order of reduction (C26_doubles_schedule_refuted)."},
{"property": "C27", "status": "proved", "theorems": ["C27_project", "C27_constructed", "C27_tube_axis_refuted", "C27_sphere_centre_refuted"], "note": "Real arithmetic. On the axis of a tube or at the centre of a sphere the projection is wrong (C27_tube_axis_refuted, C27_sphere_centre_refuted)."},
{"property": "C28", "status": "proved", "theorems": ["C28_object", "C28_collect", "C28_short_refuted", "C28_on_surface_refuted"], "note": "Real arithmetic for the values, any arithmetic for the collection. The threshold of the code misses overlaps of sphere-like objects with length (C28_short_refuted); an end exactly on the surface gets a NaN normal (C28_on_surface_refuted)."},
{"property": "C29", "status": "proved", "theorems": ["C29_rotate", "C29_histories", "C29_length", "C29_axis", "C29_random", "C29_step", "C29_tiny_refuted"], "note": "Real sin, cos, sqrt. Angular velocities below 2^-23 are ignored whatever the time step (C29_tiny_refuted)."},
{"property": "C30", "status": "proved", "theorems": ["C30_assembled", "C30_action", "C30_symmetric", "C30_definite"], "note": "Real arithmetic and logarithm; proper = positive radius, non-negative length, unit orientation. The assembly theorem holds in any arithmetic."},
{"property": "C31", "status": "proved", "theorems": ["C31_drag", "C31_short_rod_refuted"], "note": "The original ordering claim fails for length between 2 and 4.48 radii (C31_short_rod_refuted)."},
{"property": "C32", "status": "proved", "theorems": ["C32_points", "C32_near_minimum", "C32_no_zero_division", "C32_corner_refuted", "C32_crossing_refuted", "C32_assert_refuted"], "note": "Real arithmetic. Without the corner condition the query is wrong by an arbitrary amount (C32_corner_refuted: 0.7071 reported, 0.5 true); tiny-angle crossings are reported apart (C32_crossing_refuted); debug builds abort on ordinary segments (C32_assert_refuted)."},
{"property": "C33", "status": "proved", "theorems": ["C33_minimum"], "note": "Real arithmetic."},
{"property": "C34", "status": "proved", "theorems": ["C34_collect", "C34_pair", "C34_exactly_one"], "note": "Delivery of pairs by the FDPS tree walk is an arbitrary list of calls; geometry in real arithmetic, collection in any arithmetic. For two rods closeness is up to the accuracy of the segment query (C32)."},
{"property": "C35", "status": "proved", "theorems": ["C35_block", "C35_balance", "C35_crossing_refuted"], "note": "Real arithmetic. Crossing cores give zero normals (C35_crossing_refuted)."},
{"property": "C36", "status": "proved", "theorems": ["C36_search", "C36_rods", "C36_copies", "C36_ratio_refuted"], "note": "Real arithmetic. Refuted without the condition (C36_ratio_refuted): the search radius adds 2*lengthCollision instead of 2*radiusCollision."},
{"property": "C37", "status": "proved", "theorems": ["C37_translation", "C37_swap", "C37_trace", "C37_formula", "C37_spheres", "C37_sphere_axis"], "note": "Real arithmetic."},
{"property": "C38", "status": "proved", "theorems": ["C38_totals", "C38_parts", "C38_immovable", "C38_mobility_quiet", "C38_solver_quiet", "C38_monolayer_refuted"], "note": "Totals hold in any arithmetic, the parts in real arithmetic. C38_monolayer_refuted: in monolayer mode the Brownian out-of-plane velocity is removed from the solver input but not from the velocity the object moves with."},
{"property": "C39", "status": "proved", "theorems": ["C39_schedule", "C39_resume", "C39_end", "C39_interval", "C39_interval_general", "C39_range", "C39_overflow", "C39_decimal_refuted", "C39_short_refuted"], "note": "Doubles throughout. C39_decimal_refuted: timeSnap=0.3, dt=0.1 gives 2 steps; C39_short_refuted: timeSnap<dt divides by zero."},
{"property": "C40", "status": "proved", "theorems": ["C40_crash", "C40_one_rank", "C40_history", "C40_restart", "C40_torn", "C40_number", "C40_no_number", "C40_emptied_refuted", "C40_two_ranks_refuted", "C40_other_ranks_refuted"], "note": "As restated. The stronger reading is refuted: C40_emptied_refuted (restart file truncated before rewriting), C40_two_ranks_refuted (rank 0 names a snapshot other ranks have not written), C40_other_ranks_refuted (folder depends on the number of ranks)."},
{"property": "C41", "status": "proved", "theorems": ["C41_names", "C41_folder", "C41_same_folder", "C41_overflow_refuted"], "note": "For snapshot numbers at least 400 below INT_MAX; C41_overflow_refuted beyond."},
{"property": "C42", "status": "proved", "theorems": ["C42_piece", "C42_pieces", "C42_restart", "C42_perp", "C42_roll_refuted"], "note": "Array level; the base64 text of an array is C01, XML syntax and the VTK reader are trusted. Orientation on restart in real arithmetic, except axes within 1e-12 of (but not exactly) straight down. C42_roll_refuted: only the axis survives, the turn about it is lost."},
{"property": "C43", "status": "proved", "theorems": ["C43_load", "C43_required", "C43_boundaries", "C43_boundary", "C43_constants", "C43_array", "C43_vector", "C43_absent", "C43_unknown_refuted", "C43_scalar_vector_refuted"], "note": "The YAML parser and scalar conversions are oracles. C43_unknown_refuted: a boundary of unknown type is silently dropped; C43_scalar_vector_refuted: a scalar given for a list reads as the empty list."},
{"property": "C44", "status": "proved", "theorems": ["C44_replay", "C44_msgpack", "C44_fail", "C44_not_empty_refuted", "C44_default_refuted"], "note": "For a vector that is empty at construction; C44_not_empty_refuted: the constructor does not empty it. Any codec; the concrete MessagePack subset is nil, bool, integers, doubles, strings, arrays (no maps, binary or extension types)."},
{"property": "C45", "status": "proved", "theorems": ["C45_two_block_map", "C45_two_block_vector", "C45_vector_copy"], "note": ""},
{"property": "C46", "status": "proved", "theorems": ["C46_assign", "C46_run", "C46_unplaced", "C46_absent", "C46_optional", "C46_help", "C46_help_after", "C46_unknown_refuted", "C46_help_unplaced_refuted", "C46_long_only_refuted", "C46_twice_refuted", "C46_required_flag_refuted"], "note": "std::stoi and the like are oracles; NumericalBase and help texts left out. Refuted stronger readings: unknown options are taken as values where a value is possible (C46_unknown_refuted), help after an unplaceable token (C46_help_unplaced_refuted), options with only a long name act as default option (C46_long_only_refuted), a second run() toggles flags (C46_twice_refuted), a required flag reads an uninitialized bool (C46_required_flag_refuted)."},
{"property": "C47", "status": "proved", "theorems": ["C47_bits", "C47_range", "C47_injective", "C47_cell", "C47_prefix", "C47_bits_2d", "C47_cell_2d", "C47_position", "C47_below", "C47_outside_refuted", "C47_edge_refuted"], "note": "Integer part for all cells and both dimensions; position to grid coordinate in real arithmetic. C47_outside_refuted, C47_edge_refuted: with doubles a position just inside the upper face rounds to coordinate 2^21, whose key is that of the opposite side (FDPS enlarges the root cell by 1e-6 to avoid this)."},
{"property": "C48", "status": "proved", "theorems": ["C48_system", "C48_force", "C48_source", "C48_pairs"], "note": "On one rank, with the FDPS tree's sorting, groups and interaction lists as an oracle: any address permutation, any groups that tile the particles. C48_pairs assumes that an interaction list holds each image in range once (the neighbour search contract)."},
{"property": "C49", "status": "proved", "theorems": ["C49_local", "C49_global", "C49_high_refuted"], "note": "In doubles, with std::min/std::max and the reductions as the code has them. C49_high_refuted: for objects at negative coordinates the high corner is 2^-1022 (std::numeric_limits<double>::min() is used as initial value of the maximum), so the box is not the smallest."},
{"property": "C50", "status": "proved", "theorems": ["C50_mean", "C50_split", "C50_polar_bound", "C50_symmetric", "C50_traceless", "C50_eigenvalues", "C50_flip"], "note": "In exact arithmetic; sums over threads and ranks in any split."},
{"property": "C51", "status": "proved", "theorems": ["C51_reverse", "C51_stress", "C51_reverse_load"], "note": ""},
{"property": "C52", "status": "proved", "theorems": ["C52_system", "C52_run", "C52_doubles_terminates", "C52_constants", "C52_direction", "C52_products", "C52_code_refuted"], "note": "The Krylov solve is an arbitrary function. The residual tested is that of the previous iterate; the returned one is not worse or the step was tiny. Code 0 alone does not mean a solution (C52_code_refuted)."},
{"property": "C53", "status": "proved", "theorems": ["C53_agree", "C53_abort", "C53_again_refuted"], "note": "Any arithmetic (only comparisons matter). A periodic axis with equal edges stays unbounded (in the theorem); C53_again_refuted: a second setDomainInfo with fewer periodic axes keeps the old ones periodic (DomainInfo::initialize asserts that it runs once)."},
{"property": "C54", "status": "proved", "theorems": ["C54_objects", "C54_ranks", "C54_orient_random", "C54_orient_fixed", "C54_new", "C54_circle", "C54_sphere", "C54_upper_face_refuted"], "note": "Exact arithmetic, any random numbers in [0,1), any length draws of which one is short enough. C54_upper_face_refuted: in doubles a centre can land on the upper face of the box. The Eigen singular vector used for nearly opposite directions is an oracle."},
{"property": "C55", "status": "proved", "theorems": ["C55_count", "C55_points", "C55_range", "C55_random", "C55_affine", "C55_ranks", "C55_size", "C55_report", "C55_zero", "C55_zero_entry_refuted", "C55_forget_refuted"], "note": "Counts, affine map, collection over ranks for any arithmetic, the numbers in exact arithmetic with nonzero true values. C55_zero_entry_refuted: in doubles a zero true value makes equal vectors fail; C55_forget_refuted: it also makes the greatest relative error forget earlier entries."},
{"property": "C56", "status": "proved", "theorems": ["C56_psi", "C56_cross"], "note": "Real arithmetic."},
{"property": "C57", "status": "proved", "theorems": ["C57_fluctuation", "C57_immovable"], "note": "Real arithmetic; independence and normality of the draws are those of the generator (C18)."},
{"property": "C58", "status": "proved", "theorems": ["C58_prepared", "C58_monolayer", "C58_upright_refuted"], "note": "Projection in real arithmetic. C58_upright_refuted: an exactly vertical object stays vertical and its quaternion loses unit length."},
{"property": "C59", "status": "proved", "theorems": ["C59_piece"], "note": "Array level, as C42."},
{"property": "C60", "status": "proved", "theorems": ["C60_volume", "C60_split"], "note": "In exact arithmetic, Pi any number (the code has 3.1415926535)."},
{"property": "C61", "status": "proved", "theorems": ["C61_sort", "C61_same", "C61_small_team_refuted", "C61_first_refuted", "C61_other_deal_refuted"], "note": "For first = 0 (the only use) and a team as large as at construction with the static schedule. C61_small_team_refuted: a smaller team writes outside the array; C61_first_refuted: with first > 0 the wrong elements are ordered; C61_other_deal_refuted: if the two loops are dealt out differently elements are lost."},
{"property": "C62", "status": "proved", "theorems": ["C62_tree", "C62_leaf_limit_refuted"], "note": "For at most 2^30 particles and 8+168*(N/(limit+1)) < 2^31 (32-bit cell numbers). C62_leaf_limit_refuted: leaf limit 0 is accepted by initialize and leads to an out-of-bounds access."},
{"property": "C63", "status": "proved", "theorems": ["C63_boxes_reals", "C63_boxes_doubles"], "note": "Exact arithmetic and finite doubles, positions and search spheres below FLT_MAX/128 (the initial box)."},
{"property": "C64", "status": "proved", "theorems": ["C64_groups", "C64_limits_refuted"], "note": "Any arithmetic, given the tree of C62/C63. C64_limits_refuted: a group limit below the leaf limit, accepted by initialize, visits cells that were never written."},
{"property": "C65", "status": "proved", "theorems": ["C65_search_reals", "C65_search_doubles", "C65_exact", "C65_contacts", "C65_margin_refuted"], "note": "One rank: the particles of the global tree are given (C67 and C68 add the exchange). Exact arithmetic: exact lists, and no contact in the sense of C36 is missed. Doubles: all pairs with a relative margin of 2^-50; C65_margin_refuted: without the margin a pair can be missed."},
{"property": "C66", "status": "proved", "theorems": ["C66_images", "C66_recovered", "C66_recovered_doubles_refuted"], "note": "Exact arithmetic. C66_recovered_doubles_refuted: in doubles a particle within an ulp of the upper face, shifted by one box, is taken for unshifted."},
{"property": "C67", "status": "proved", "theorems": ["C67_exchange", "C67_exchange_open", "C67_periodic_doubles_refuted"], "note": "Exact arithmetic with any periodic axes; doubles without periodic axes. Key function, sort and the trees of the runs are parameters required only to give sorted keys and trees of C62/C63; every particle is in its rank's domain; 32-bit overflow of counts is not modelled. C67_periodic_doubles_refuted: in doubles with a periodic axis a neighbour across the boundary can be sent to the wrong side and is missed."},
{"property": "C68", "status": "proved", "theorems": ["C68_neighbours", "C68_contacts", "C68_neighbours_open"], "note": "As C67; the search is that of C65 with any order of local and received particles. Doubles with periodic axes are covered by C67_periodic_doubles_refuted."},
{"property": "C69", "status": "proved", "theorems": ["C69_root_cell", "C69_lone_doubles_refuted"], "note": "Exact arithmetic; radii at most 9000 boxes along periodic axes, positive without periodic axes. C69_lone_doubles_refuted: in doubles a lone particle whose radius is lost to rounding gives a cell of size 0 and an undefined conversion."},
{"property": "C70", "status": "proved", "theorems": ["C70_calls", "C70_room"], "note": "Exact arithmetic, clear_force on, particle counts that fit 32 bits (C70_room gives a simple criterion). The functor is a parameter that writes its forces only. Data races on counters and profiling data in calcForce are not modelled."},
{"property": "C71", "status": "proved", "theorems": ["C71_contacts"], "note": "As C70, with the contact functor of C34. Contacts of a rod with its own periodic image are skipped by the code (ids must differ), which the statement says."},
{"property": "C72", "status": "proved", "theorems": ["C72_box", "C72_distribute", "C72_prepare"], "note": "Exact arithmetic. With monolayer the theorem requires one layer of domains along z (see C73_monolayer_refuted). Fewer objects than ranks is C10_few_samples_refuted."},
{"property": "C73", "status": "proved", "theorems": ["C73_collect", "C73_step", "C73_monolayer_refuted"], "note": "Exact arithmetic, without monolayer (C73_collect also covers it when the objects are settled). C73_monolayer_refuted: in a monolayer on several layers of domains, prepareStep moves objects out of the domains of their ranks after the exchange, and an overlapping pair is not found."},
{"property": "C74", "status": "proved", "theorems": ["C74_step", "C74_runs", "C74_momentum"], "note": "Exact arithmetic. The collection of blocks is a parameter that gives blocks of existing objects with magnitudes in range. Convergence is a premise of C74_step (a residual below the tolerance was seen), not proved: with few iterations allowed the code goes on without it. Without Brownian motion, the Brownian velocities have to be zero before the step, and a monolayer with Brownian motion is left out, because there the velocity given to the solver differs from the stored one."},
{"property": "C75", "status": "proved", "theorems": ["C75_prepare", "C75_collect", "C75_runs", "C75_apart", "C75_wall", "C75_momentum"], "note": "Exact arithmetic. Convergence of the solver is a premise (C75_example converges), and no magnitude may be within the margin of its upper bound DBL_MAX/10. The bound on distances after the step holds for pairs of spheres; for rods C74 gives the gap to first order in the motion. For the wall the centre must not lie exactly on it, where the direction of the contact is not defined. The blocks are assumed to be at most INT_MAX in number."},
{"property": "C76", "status": "proved", "theorems": ["C76_step", "C76_main_loop", "C76_same_objects", "C76_periodic", "C76_initialize"], "note": "Exact arithmetic, default solver (BBPGD), no monolayer. Convergence of the solver is a premise of separation, of wall and force statements, not of termination or of keeping the objects. The two other outcomes of a run are stated in the theorem: an object further than 2^100 along an open axis (excluded for fully periodic boxes by C76_periodic), or more than INT_MAX collected blocks. C76_step holds for all fuel from some bound on; C76_main_loop gives a bound for each step. The bounds on distances are for spheres."},
{"property": "C77", "status": "proved", "theorems": ["C77_trace", "C77_call", "C77_element", "C77_released", "C77_destructor_refuted", "C77_reserve_refuted", "C77_bare_refuted", "C77_buffer_refuted"], "note": "Memory byte by byte; malloc and new are taken to succeed, and memcpy of 0 bytes from NULL is taken as harmless. Calls that are left out by the conditions are refuted by C77_destructor_refuted, C77_reserve_refuted, C77_bare_refuted and C77_buffer_refuted. Calls run one after the other: the pool is used in critical sections."},
{"property": "C78", "status": "proved", "theorems": ["C78_number", "C78_fixpoint", "C78_file", "C78_ends", "C78_error", "C78_default_group", "C78_time", "C78_plus", "C78_other_lines", "C78_remark_refuted", "C78_infinite_refuted"], "note": "printf and >> are modelled as libstdc++ and glibc do it: exact decimal expansion rounded to nearest even, correctly rounded reading. The ends that are written are those computed in doubles; C78_ends and C78_error are in exact arithmetic. Opening of files and disk errors are not modelled. A direction within Eigen's threshold of -z gives an approximate axis and is left out in C78_ends, unless it is exactly -z. C78_remark_refuted and C78_infinite_refuted show inputs for which the file is not read as one would expect."},
{"property": "C79", "status": "proved", "theorems": ["C79_stream", "C79_unseeded", "C79_initialize", "C79_unique", "C79_seeds", "C79_alive", "C79_res53", "C79_reals", "C79_sample"], "note": "unsigned long is 64 bits. init_by_array is private and never called, so it is not modelled; MTTS is the same code as a class without the single instance, and is not modelled a second time. Statistical quality is not a statement of this property."},
{"property": "C80", "status": "proved", "theorems": ["C80_file", "C80_objects", "C80_constraints", "C80_header", "C80_con_header", "C80_parallel", "C80_parallel_points", "C80_restart", "C80_float", "C80_float_exact", "C80_float_twice", "C80_large_refuted", "C80_small_refuted", "C80_names_refuted"], "note": "The machine is little-endian, as the files declare. All NaN are written as one quiet NaN. The readers are part of the specification: they accept a part of XML without entities and comments, and use the base64 decoder of kwsys that VTK uses (modelled for C03). VTK itself is not modelled. The orientation after a restart is the subject of C42, in exact arithmetic. Heads of VTR and VTI files are not modelled. Arrays of 4 GiB are refuted in C03."},
{"property": "C81", "status": "proved", "theorems": ["C81_forces", "C81_ranks", "C81_homes_refuted"], "note": "Exact arithmetic, as C70, whose limits hold here too (32-bit sizes of the trees, radii up to 9000 boxes). The functor is one that treats targets one by one, as that of MixPairInteraction_test. updateTree, which only makes a tree object, is not modelled. C81_homes_refuted shows, in doubles, a missed pair when a particle is not on the rank of its domain."},
{"property": "C82", "status": "proved", "theorems": ["C82_root_cell", "C82_calls"], "note": "Open boundaries: with periodic axes the exchange in doubles can miss pairs (C67_periodic_doubles_refuted). The limit 2^26 is sufficient, not sharp. Numbers of particles within 32 bits of the tree, as in C70."},
{"property": "C83", "status": "proved", "theorems": ["C83_meaning", "C83_accepts", "C83_nearest_refuted", "C83_nan_refuted", "C83_large_refuted"], "note": "Exact arithmetic; C83_nan_refuted and C83_large_refuted in doubles."},
{"property": "C84", "status": "proved", "theorems": ["C84_record", "C84_split", "C84_quiet", "C84_athermal_refuted"], "note": "Exact arithmetic; in doubles the sums depend on the schedule (C26_doubles_schedule_refuted). The formatting of the log lines is not modelled."},
{"property": "C85", "status": "proved", "theorems": ["C85_contacts", "C85_once"], "note": "Open boundaries; positions within 2^26 times some search radius as in C82. Long objects may be present, but for them only the ids and that no pair is doubled are proved in doubles (their contacts: C71, exact arithmetic). A lower limit on the buffer is needed, the search radius of equal spheres has no other margin."},
{"property": "C86", "status": "proved", "theorems": ["C86_operator", "C86_symmetric", "C86_definite", "C86_bounds", "C86_flat_refuted", "C86_column_refuted"], "note": "The matrix in exact arithmetic, the bounds in doubles; the rare failures with diagonal 0 are C86_flat_refuted and C86_column_refuted. The random numbers are any numbers; Tpetra's matrix is modelled by its local storage and column map."},
{"property": "C87", "status": "proved", "theorems": ["C87_forces", "C87_ranks"], "note": "Open boundaries, in doubles; periodic axes: C81, exact arithmetic. The functor looks at pairs of a target and a source, as in the test program."},
{"property": "C88", "status": "proved", "theorems": ["C88_report", "C88_zero", "C88_ranks", "C88_unlisted", "C88_stages", "C88_complementary_refuted", "C88_nan_refuted"], "note": "The solvers and the matrix product are any functions. The two gaps of the report are C88_complementary_refuted and C88_nan_refuted. Times, the iteration history and the text format are not modelled."},
{"property": "C89", "status": "proved", "theorems": ["C89_room", "C89_seldom", "C89_limit_refuted", "C89_uninitialised"], "note": "What FDPS does with the size is not part of this; the number of objects on all ranks is any number. The overflow is C89_limit_refuted."},
{"property": "C90", "status": "proved", "theorems": ["C90_usage", "C90_help", "C90_refines", "C90_message", "C90_disable", "C90_help_option", "C90_integer", "C90_empty", "C90_default_refuted"], "note": "std::to_string of floating point numbers is any function. What callbacks other than help write is left out, as are NumericalBase wrappers. The indeterminate value is C90_default_refuted."},
{"property": "C91", "status": "proved", "theorems": ["C91_ready", "C91_fails", "C91_returned", "C91_errno", "C91_snapshots", "C91_restart", "C91_file_refuted"], "note": "mkdir is modelled as atomic, with errno set on failure only; other causes of failure are one flag. Links, '.' and '..' inside paths are left out. The plain file is C91_file_refuted."},
{"property": "C92", "status": "proved", "theorems": ["C92_file", "C92_error", "C92_order", "C92_wide", "C92_flat_refuted", "C92_closed_refuted"], "note": "fprintf is modelled as correctly rounding, strtod as in C78. That the reader may store floats is left out. The flat box is C92_flat_refuted, the file that was not opened C92_closed_refuted."},
{"property": "C93", "status": "proved", "theorems": ["C93_file", "C93_progress", "C93_mismatch", "C93_small_refuted", "C93_leftover_refuted"], "note": "The steps of a rank are opening, the barrier, and writing its whole text; closing is part of writing. A file that cannot be opened is left out. What is lost is C93_small_refuted and C93_leftover_refuted."},
{"property": "C94", "status": "proved", "theorems": ["C94_member_distance", "C94_distance", "C94_point_distance", "C94_periodic_distance", "C94_periodic_point", "C94_periodic_never_more", "C94_periodic_far_refuted", "C94_contained_meets", "C94_contained_refuted", "C94_double_zero", "C94_double_symmetric", "C94_double_centres_refuted", "C94_double_separate_refuted"], "note": "Exactness is over the reals; for doubles the zero of overlapping boxes and the symmetry are proved. Limits: C94_periodic_far_refuted, C94_contained_refuted, C94_double_centres_refuted, C94_double_separate_refuted."},
{"property": "C95", "status": "proved", "theorems": ["C95_text32", "C95_text64", "C95_order32", "C95_order64"], "note": "The two versions that take a pointer read it first and are otherwise the same; a pointer that cannot be read is left out."}
]}
