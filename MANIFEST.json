{
 "claims": [
  {
   "property": "C01",
   "status": "proved",
   "theorems": [
    "C01_decomposition_tiles",
    "C01_decomposition_tiles_offsets",
    "C01_decomposition_tiles_squared"
   ],
   "note": ""
  },
  {
   "property": "C02",
   "status": "proved",
   "theorems": [
    "C02_terminates",
    "C02_terminates_squared",
    "C02_never_ends",
    "C02_never_ends_squared"
   ],
   "note": ""
  },
  {
   "property": "C03",
   "status": "proved",
   "theorems": [
    "C03_pieces_within_threshold",
    "C03_pieces_within_threshold_squared",
    "C03_dropped_vertices",
    "C03_dropped_vertices_squared"
   ],
   "note": ""
  },
  {
   "property": "C04",
   "status": "proved",
   "theorems": [
    "C04_max_offset_farthest",
    "C04_max_offset_interior",
    "C04_short_lines_have_no_offset"
   ],
   "note": ""
  },
  {
   "property": "C05",
   "status": "proved",
   "theorems": [
    "C05_plain_dp_subset",
    "C05_plain_dp_subset_squared"
   ],
   "note": ""
  },
  {
   "property": "C06",
   "status": "proved",
   "theorems": [
    "C06_range_split",
    "C06_range_split_empty"
   ],
   "note": ""
  },
  {
   "property": "C07",
   "status": "proved",
   "theorems": [
    "C07_split_at_indices",
    "C07_split_at_score"
   ],
   "note": ""
  },
  {
   "property": "C08",
   "status": "proved",
   "theorems": [
    "C08_merge_contiguous",
    "C08_merge_inverts_split",
    "C08_merge_rejects_apart",
    "C08_arguments_untouched"
   ],
   "note": ""
  },
  {
   "property": "C09",
   "status": "proved",
   "theorems": [
    "C09_threshold_merge"
   ],
   "note": ""
  },
  {
   "property": "C10",
   "status": "proved",
   "theorems": [
    "C10_merging_keeps_tiling",
    "C10_nothing_left",
    "C10_unmerged_are_inputs"
   ],
   "note": ""
  },
  {
   "property": "C11",
   "status": "proved",
   "theorems": [
    "C11_search_exact",
    "C11_search_exact_tidy"
   ],
   "note": ""
  },
  {
   "property": "C12",
   "status": "proved",
   "theorems": [
    "C12_bag",
    "C12_is_empty",
    "C12_bag_of_tidy_history"
   ],
   "note": ""
  },
  {
   "property": "C13",
   "status": "proved",
   "theorems": [
    "C13_operations_never_fail",
    "C13_huge_boxes_refuted"
   ],
   "note": ""
  },
  {
   "property": "C14",
   "status": "proved",
   "theorems": [
    "C14_collides_iff_search"
   ],
   "note": ""
  },
  {
   "property": "C15",
   "status": "proved",
   "theorems": [
    "C15_neighbours_exact",
    "C15_neighbours_tolerant",
    "C15_box_outline"
   ],
   "note": ""
  },
  {
   "property": "C16",
   "status": "partial",
   "theorems": [
    "C16_only_permutes",
    "C16_selects_partial",
    "C16_selects_refuted",
    "C16_multi_only_permutes",
    "C16_groups_refuted",
    "C16_index_selection"
   ],
   "note": "Permutation, confinement, termination and absence of panics hold for every input; the item at k is in place for ranges of at most 601 items; for larger ranges the code violates it (C16_selects_refuted), and the grouping documented for the repeated selection is refuted."
  },
  {
   "property": "C17",
   "status": "partial",
   "theorems": [
    "C17_junctions_partial",
    "C17_junctions_refuted"
   ],
   "note": "Exact for every shared location except the lexicographically greatest one, whose run is never flushed; C17_junctions_refuted exhibits the loss."
  },
  {
   "property": "C18",
   "status": "partial",
   "theorems": [
    "C18_planar_self_partial",
    "C18_planar_self_refuted"
   ],
   "note": "Exact for every repeated location except the lexicographically greatest one, whose run is never flushed; C18_planar_self_refuted exhibits the loss."
  },
  {
   "property": "C19",
   "status": "proved",
   "theorems": [
    "C19_pairs_once",
    "C19_cache_key",
    "C19_crossings_reported",
    "C19_flags_select"
   ],
   "note": ""
  },
  {
   "property": "C20",
   "status": "proved",
   "theorems": [
    "C20_constrained_vertices_are_ends"
   ],
   "note": ""
  },
  {
   "property": "C21",
   "status": "partial",
   "theorems": [
    "C21_non_planar_alone_refuted"
   ],
   "note": "Refuted: with planar_self off ToSelfIntersects returns its input and no vertex for every line and every junction list (C21_non_planar_alone_refuted)."
  },
  {
   "property": "C22",
   "status": "proved",
   "theorems": [
    "C22_geometric_relation"
   ],
   "note": ""
  },
  {
   "property": "C23",
   "status": "proved",
   "theorems": [
    "C23_distance_relation"
   ],
   "note": ""
  },
  {
   "property": "C24",
   "status": "proved",
   "theorems": [
    "C24_homotopy_sound",
    "C24_homotopy_answers",
    "C24_homotopy_rejects"
   ],
   "note": ""
  },
  {
   "property": "C25",
   "status": "proved",
   "theorems": [
    "C25_nearby_suffices",
    "C25_negative_min_dist_refuted"
   ],
   "note": ""
  },
  {
   "property": "C26",
   "status": "proved",
   "theorems": [
    "C26_simplify_keeps_a_subset"
   ],
   "note": ""
  },
  {
   "property": "C27",
   "status": "proved",
   "theorems": [
    "C27_split_loop_ends",
    "C27_simplify_ends",
    "C27_offset_scores"
   ],
   "note": ""
  },
  {
   "property": "C28",
   "status": "proved",
   "theorems": [
    "C28_constrained_vertices_survive",
    "C28_shared_and_crossed_vertices_survive"
   ],
   "note": ""
  },
  {
   "property": "C29",
   "status": "proved",
   "theorems": [
    "C29_final_relations",
    "C29_collinear_refuted"
   ],
   "note": ""
  },
  {
   "property": "C30",
   "status": "partial",
   "theorems": [
    "C30_threshold_without_constraints_partial",
    "C30_threshold_refuted"
   ],
   "note": "Proved when no enabled option can split a hull; refuted in general (C30_threshold_refuted): hulls split at a constrained vertex are not scored again, so a dropped vertex can lie farther than the threshold."
  },
  {
   "property": "C31",
   "status": "partial",
   "theorems": [
    "C31_no_conflict_when_loop_ends",
    "C31_no_conflict_in_result_partial",
    "C31_next_unchecked_refuted",
    "C31_no_new_crossing_partial",
    "C31_old_crossings_stay_near_partial",
    "C31_new_crossing_refuted"
   ],
   "note": "Proved when the split loop ends: hulls can be ordered in time so that an examined hull conflicts with no hull that is not later, hence no two examined hulls conflict (C31_no_conflict_when_loop_ends). After aggregation this holds for hulls without a common end; refuted for hulls that follow each other (C31_next_unchecked_refuted: the next hull is out of the index while the merge with the previous one is checked) and for hulls that are never examined (C31_new_crossing_refuted). In the plane, for bent parts with no place in common, the chords never meet: C92."
  },
  {
   "property": "C32",
   "status": "proved",
   "theorems": [
    "C32_aggregation_safe"
   ],
   "note": ""
  },
  {
   "property": "C33",
   "status": "proved",
   "theorems": [
    "C33_cache_keys_distinct"
   ],
   "note": ""
  },
  {
   "property": "C34",
   "status": "proved",
   "theorems": [
    "C34_features_stay_separate"
   ],
   "note": ""
  },
  {
   "property": "C35",
   "status": "partial",
   "theorems": [
    "C35_line_selection_exact",
    "C35_selection_exact_partial",
    "C35_selection_by_range",
    "C35_selection_lost_refuted"
   ],
   "note": "Exact when the hulls involved have different ranges, as within one line; refuted across features (C35_selection_lost_refuted): the selection is keyed by range, a selected hull is overwritten, and the class result then crosses another feature and depends on the order of the features."
  },
  {
   "property": "C36",
   "status": "proved",
   "theorems": [
    "C36_every_schedule_collects_the_same",
    "C36_parallel_check_completes"
   ],
   "note": ""
  },
  {
   "property": "C37",
   "status": "proved",
   "theorems": [
    "C37_each_instance_once",
    "C37_instances_complete"
   ],
   "note": ""
  },
  {
   "property": "C38",
   "status": "partial",
   "theorems": [
    "C38_double_ended_queue",
    "C38_usable_partial",
    "C38_lock_never_released",
    "C38_empty_pop_refuted"
   ],
   "note": "Proved under every schedule: the calls form a history of a double-ended queue and nothing blocks while no call asks an empty queue for an element. Staying usable after such a call is refuted: the panic leaves the lock held (C38_empty_pop_refuted, C38_lock_never_released)."
  },
  {
   "property": "C39",
   "status": "proved",
   "theorems": [
    "C39_ids_round_trip",
    "C39_long_numbers",
    "C39_ids_distinct"
   ],
   "note": ""
  },
  {
   "property": "C40",
   "status": "partial",
   "theorems": [
    "C40_one_feature_per_line_partial",
    "C40_gap_panics_refuted",
    "C40_collection_merged_refuted"
   ],
   "note": "One feature per line, in order, when every line is a geometry or feature with at least one part. Refuted in general: a line without linear geometry before a linear one makes the writer panic, and the features of one collection are merged into one. C64 states what happens for every file."
  },
  {
   "property": "C41",
   "status": "proved",
   "theorems": [
    "C41_geometry_type_and_dimension"
   ],
   "note": ""
  },
  {
   "property": "C42",
   "status": "proved",
   "theorems": [
    "C42_properties_carried"
   ],
   "note": ""
  },
  {
   "property": "C43",
   "status": "proved",
   "theorems": [
    "C43_base64_round_trip",
    "C43_standard_encoding",
    "C43_decode_accepts",
    "C43_decoded_number",
    "C43_file_or_argument",
    "C43_exactly_one_source"
   ],
   "note": ""
  },
  {
   "property": "C44",
   "status": "proved",
   "theorems": [
    "C44_every_line",
    "C44_terminated_lines_partial",
    "C44_last_line_lost_refuted"
   ],
   "note": "Proved for the reader of input and constraint files. The reader of WKT lines, which no command uses, delivers only terminated lines (partial and refutation stated)."
  },
  {
   "property": "C45",
   "status": "proved",
   "theorems": [
    "C45_output_lines_are_shortened_input_lines"
   ],
   "note": ""
  },
  {
   "property": "C46",
   "status": "partial",
   "theorems": [
    "C46_sed_interior_partial",
    "C46_sed_interior_refuted",
    "C46_sed_measures_from_start",
    "C46_sed_interior_moderate_partial"
   ],
   "note": "Interior when synchronized distances are numbers, which they are for coordinates and times below 2^100 with the last fix at least 2^-100 after the first; refuted for equal time stamps: every distance is then NaN and the end position is returned."
  },
  {
   "property": "C47",
   "status": "proved",
   "theorems": [
    "C47_options"
   ],
   "note": ""
  },
  {
   "property": "C48",
   "status": "proved",
   "theorems": [
    "C48_chain_deformation"
   ],
   "note": ""
  },
  {
   "property": "C49",
   "status": "proved",
   "theorems": [
    "C49_linear_parts_become_polylines",
    "C49_null_geometry_panics"
   ],
   "note": ""
  },
  {
   "property": "C50",
   "status": "proved",
   "theorems": [
    "C50_neighbours"
   ],
   "note": ""
  },
  {
   "property": "C51",
   "status": "proved",
   "theorems": [
    "C51_simplification_type"
   ],
   "note": ""
  },
  {
   "property": "C52",
   "status": "proved",
   "theorems": [
    "C52_constraints_read"
   ],
   "note": ""
  },
  {
   "property": "C53",
   "status": "proved",
   "theorems": [
    "C53_program",
    "C53_program_writes"
   ],
   "note": ""
  },
  {
   "property": "C54",
   "status": "proved",
   "theorems": [
    "C54_simplified_again",
    "C54_simplified_again_squared",
    "C54_constrained_again_refuted"
   ],
   "note": "Plain Douglas-Peucker. C54_constrained_again_refuted shows that constrained simplification, which also merges short pieces, is not stable in this sense."
  },
  {
   "property": "C55",
   "status": "proved",
   "theorems": [
    "C55_larger_threshold_keeps_less",
    "C55_larger_threshold_keeps_less_squared"
   ],
   "note": ""
  },
  {
   "property": "C56",
   "status": "partial",
   "theorems": [
    "C56_any_documents_partial",
    "C56_shared_and_crossed_in_output_partial",
    "C56_in_the_plane_partial",
    "C56_forced_vertices_in_output_partial"
   ],
   "note": "Exact for reported self-intersections and shared locations except the lexicographically greatest location of the class (see C17), which is lost."
  },
  {
   "property": "C57",
   "status": "proved",
   "theorems": [
    "C57_any_documents",
    "C57_lines_simplified_alone"
   ],
   "note": ""
  },
  {
   "property": "C58",
   "status": "proved",
   "theorems": [
    "C58_any_documents",
    "C58_output_reads_back"
   ],
   "note": ""
  },
  {
   "property": "C59",
   "status": "proved",
   "theorems": [
    "C59_any_documents",
    "C59_constraints_honoured_in_output"
   ],
   "note": ""
  },
  {
   "property": "C60",
   "status": "proved",
   "theorems": [
    "C60_any_documents",
    "C60_threshold_in_output"
   ],
   "note": ""
  },
  {
   "property": "C61",
   "status": "proved",
   "theorems": [
    "C61_same_input_same_result"
   ],
   "note": ""
  },
  {
   "property": "C62",
   "status": "proved",
   "theorems": [
    "C62_unambiguous_class",
    "C62_class_without_avoid_self",
    "C62_any_documents",
    "C62_class_of_lines_apart",
    "C62_class_refuted",
    "C62_in_the_plane",
    "C62_same_files_same_output"
   ],
   "note": "Without the class option for any documents, and with it for lines that are apart (C62_class_of_lines_apart) or, where the geometry library is that of the plane, settled without ambiguity (C62_unambiguous_class), as always without avoid_new_self_intersects (C62_class_without_avoid_self). For other classes it is refuted (C62_class_refuted): the output depends on the iteration order of a Go map."
  },
  {
   "property": "C63",
   "status": "proved",
   "theorems": [
    "C63_near_a_chord",
    "C63_near_a_chord_in_output",
    "C63_any_documents"
   ],
   "note": ""
  },
  {
   "property": "C64",
   "status": "proved",
   "theorems": [
    "C64_any_documents"
   ],
   "note": ""
  },
  {
   "property": "C65",
   "status": "proved",
   "theorems": [
    "C65_invalid_input_stops_run"
   ],
   "note": ""
  },
  {
   "property": "C66",
   "status": "proved",
   "theorems": [
    "C66_class_option_alone_changes_nothing"
   ],
   "note": ""
  },
  {
   "property": "C67",
   "status": "proved",
   "theorems": [
    "C67_class_option_only_adds_vertices"
   ],
   "note": ""
  },
  {
   "property": "C68",
   "status": "proved",
   "theorems": [
    "C68_plain_is_textbook",
    "C68_squared_is_textbook"
   ],
   "note": ""
  },
  {
   "property": "C69",
   "status": "proved",
   "theorems": [
    "C69_thinner_than_textbook",
    "C69_thinner_in_output"
   ],
   "note": ""
  },
  {
   "property": "C70",
   "status": "proved",
   "theorems": [
    "C70_nearly_straight_lines_become_segments"
   ],
   "note": ""
  },
  {
   "property": "C71",
   "status": "proved",
   "theorems": [
    "C71_bad_threshold_never_ends"
   ],
   "note": ""
  },
  {
   "property": "C72",
   "status": "proved",
   "theorems": [
    "C72_in_the_plane",
    "C72_class_option_without_effect",
    "C72_lines_apart_do_not_interact"
   ],
   "note": ""
  },
  {
   "property": "C73",
   "status": "proved",
   "theorems": [
    "C73_far_constraints_do_not_change_output",
    "C73_in_the_plane",
    "C73_only_near_constraints_matter"
   ],
   "note": ""
  },
  {
   "property": "C74",
   "status": "proved",
   "theorems": [
    "C74_constraint_file_unused",
    "C74_readable_constraint_files"
   ],
   "note": ""
  },
  {
   "property": "C75",
   "status": "proved",
   "theorems": [
    "C75_every_interleaving_is_covered",
    "C75_ids_are_distinct"
   ],
   "note": ""
  },
  {
   "property": "C76",
   "status": "proved",
   "theorems": [
    "C76_reads_every_line",
    "C76_reads_every_constraint",
    "C76_written_lines_read_back",
    "C76_always_an_error_refuted"
   ],
   "note": ""
  },
  {
   "property": "C77",
   "status": "proved",
   "theorems": [
    "C77_arrays_of_numbers",
    "C77_every_entry",
    "C77_named_lines",
    "C77_map_order"
   ],
   "note": ""
  },
  {
   "property": "C78",
   "status": "proved",
   "theorems": [
    "C78_files_can_be_split",
    "C78_in_the_plane",
    "C78_a_feature_depends_on_its_document_only"
   ],
   "note": ""
  },
  {
   "property": "C79",
   "status": "proved",
   "theorems": [
    "C79_reversed_line",
    "C79_reversed_line_squared",
    "C79_ties_refuted"
   ],
   "note": ""
  },
  {
   "property": "C80",
   "status": "proved",
   "theorems": [
    "C80_conflicts_left_between_lines",
    "C80_conflicts_left_within_a_line",
    "C80_unchanged_means_clear"
   ],
   "note": ""
  },
  {
   "property": "C81",
   "status": "proved",
   "theorems": [
    "C81_collections_are_lists",
    "C81_views_stay",
    "C81_shared_data_refuted",
    "C81_one_kind"
   ],
   "note": ""
  },
  {
   "property": "C82",
   "status": "proved",
   "theorems": [
    "C82_hulls_as_computed",
    "C82_results_stay"
   ],
   "note": ""
  },
  {
   "property": "C83",
   "status": "proved",
   "theorems": [
    "C83_sub_polyline",
    "C83_one_vertex",
    "C83_segment_bounds",
    "C83_create_hulls",
    "C83_stride",
    "C83_pop",
    "C83_pop_returns_no_hull_refuted"
   ],
   "note": ""
  },
  {
   "property": "C84",
   "status": "proved",
   "theorems": [
    "C84_relations_in_the_plane",
    "C84_library_relations"
   ],
   "note": ""
  },
  {
   "property": "C85",
   "status": "proved",
   "theorems": [
    "C85_index_in_memory",
    "C85_no_node_is_shared",
    "C85_nearest_in_memory"
   ],
   "note": ""
  },
  {
   "property": "C86",
   "status": "proved",
   "theorems": [
    "C86_distance_accurate",
    "C86_square_distance_accurate",
    "C86_synchronized_distance"
   ],
   "note": ""
  },
  {
   "property": "C87",
   "status": "proved",
   "theorems": [
    "C87_shallow",
    "C87_shallow_in_memory"
   ],
   "note": ""
  },
  {
   "property": "C88",
   "status": "proved",
   "theorems": [
    "C88_cut",
    "C88_ties",
    "C88_axis",
    "C88_descent",
    "C88_least_enlargement_refuted",
    "C88_least_area_refuted"
   ],
   "note": ""
  },
  {
   "property": "C89",
   "status": "proved",
   "theorems": [
    "C89_query",
    "C89_k_nearest",
    "C89_all_taken"
   ],
   "note": ""
  },
  {
   "property": "C90",
   "status": "proved",
   "theorems": [
    "C90_check_is_a_deformation",
    "C90_output_passes_alike",
    "C90_ends_stay",
    "C90_deformation_keeps_crossings"
   ],
   "note": ""
  },
  {
   "property": "C91",
   "status": "proved",
   "theorems": [
    "C91_crash_leaves_a_beginning",
    "C91_every_beginning_occurs",
    "C91_crash_reads_back",
    "C91_no_error_means_complete",
    "C91_error_means_cut",
    "C91_toml",
    "C91_toml_error_means_cut",
    "C91_old_file_lost_refuted"
   ],
   "note": ""
  },
  {
   "property": "C92",
   "status": "proved",
   "theorems": [
    "C92_chords_of_lines_apart",
    "C92_parts_stay_apart",
    "C92_class",
    "C92_class_in_the_plane",
    "C92_class_refuted"
   ],
   "note": "Without the class option for any documents, and with it for runs settled without ambiguity (C92_class, C92_class_in_the_plane). For other class runs it is refuted (C92_class_refuted): of three lines the first two come out as chords that cross, because the third line's part has the same index range and its change is the only one noted."
  },
  {
   "property": "C93",
   "status": "proved",
   "theorems": [
    "C93_only_the_output_changes",
    "C93_success",
    "C93_run_again_after_a_crash",
    "C93_torn_output",
    "C93_torn_output_as_input",
    "C93_in_place_refuted"
   ],
   "note": ""
  },
  {
   "property": "C94",
   "status": "proved",
   "theorems": [
    "C94_same_picture_same_vertices",
    "C94_offsets",
    "C94_forced",
    "C94_in_the_plane",
    "C94_mirrored_self_touch_refuted",
    "C94_class",
    "C94_class_forced",
    "C94_class_in_the_plane"
   ],
   "note": ""
  },
  {
   "property": "C95",
   "status": "proved",
   "theorems": [
    "C95_result_unchanged",
    "C95_calls"
   ],
   "note": ""
  },
  {
   "property": "C96",
   "status": "proved",
   "theorems": [
    "C96_exact",
    "C96_in_the_plane"
   ],
   "note": ""
  },
  {
   "property": "C97",
   "status": "proved",
   "theorems": [
    "C97_exact",
    "C97_in_the_plane"
   ],
   "note": ""
  },
  {
   "property": "C98",
   "status": "proved",
   "theorems": [
    "C98_in_the_plane",
    "C98_clear_in_the_plane",
    "C98_class",
    "C98_clear",
    "C98_without_avoid_self"
   ],
   "note": ""
  },
  {
   "property": "C99",
   "status": "proved",
   "theorems": [
    "C99_order_of_lines",
    "C99_order_without_avoid_self"
   ],
   "note": ""
  }
 ]
}