{"claims": [
{"property": "C01", "status": "proved", "theorems": ["C01_flat_map_refines_map", "C01_flat_map_results", "C01_bounds"], "note": "refinement to a mathematical map over all operation histories, any strictly totally ordered key type"},
{"property": "C02", "status": "proved", "theorems": ["C02_flat_set_refines_set"], "note": "refinement to a mathematical set"},
{"property": "C03", "status": "partial", "theorems": ["C03_flat_map_init_partial", "C03_flat_set_init_partial", "C03_flat_map_init_refuted", "C03_flat_set_init_refuted"], "note": "true for lists with distinct keys; refuted for duplicates: the constructor sorts but does not deduplicate"},
{"property": "C04", "status": "proved", "theorems": ["C04_sorted_vector_multiset", "C04_sorted_vector_results"], "note": "sortedness, conservation and stability over all histories"},
{"property": "C05", "status": "proved", "theorems": ["C05_indexed_map_known_key", "C05_indexed_map_new_key", "C05_indexed_map_history", "C05_indexed_map_stable_positions"], "note": "first-match lookup, insertion order and last-stored value over all histories"},
{"property": "C06", "status": "proved", "theorems": ["C06_indexed_set_interning", "C06_size_after_overflow_refuted"], "note": "bijection and stability over all call sequences, including failing calls; additionally shown: after an overflow exception size() counts the rejected value"},
{"property": "C07", "status": "partial", "theorems": ["C07_label_vector_partial", "C07_relabel_refuted", "C07_constructed_refuted", "C07_results"], "note": "find gives the position the label was assigned to; refuted after relabelling (stale entry) and for labels passed to the constructor (never indexed)"},
{"property": "C08", "status": "proved", "theorems": ["C08_storage_history", "C08_storage_made"], "note": "All growth operations, cell writes, clear, label lookup and get_channel over arbitrary call sequences; stream operators and get_interpolated_value are not modelled. Cell values and labels are arbitrary types."},
{"property": "C09", "status": "partial", "theorems": ["C09_find_frame_index_partial", "C09_first_frame_refuted", "C183_nearest"], "note": "Nearest frame proved except for values between frames 0 and 1, where the code never returns frame 0 (refuted with a witness): on integers exactly, on floating-point numbers of any precision up to three rounding errors (C183_nearest)."},
{"property": "C10", "status": "partial", "theorems": ["C10_table_history_partial", "C10_resize_rows_refuted", "C10_table_made"], "note": "Every history that stays defined shows the abstract grid; a resize that adds rows is undefined behaviour (refuted)."},
{"property": "C11", "status": "partial", "theorems": ["C11_circular_deque_partial", "C11_push_back_full_refuted", "C11_const_back_refuted", "C11_reserve_partial", "C11_reserve_refuted", "C11_const_back"], "note": "Full refinement while push_back does not exceed the initial capacity; push_back onto a full rotated deque, const back() and reserve of wrapped contents are refuted."},
{"property": "C12", "status": "proved", "theorems": ["C12_circular_buffer", "C12_empty_buffer_refuted", "C12_resize", "C12_fewer_channels_refuted"], "note": "For n > 0 frames and > 0 channels; advance on a zero-sized buffer divides by zero (refuted)."},
{"property": "C13", "status": "proved", "theorems": ["C13_flag_set", "C13_constructors"], "note": "flag_set with 64-bit storage; clear(list) does not compile and is not modelled"},
{"property": "C14", "status": "proved", "theorems": ["C14_query_get", "C14_set_query", "C14_index"], "note": ""},
{"property": "C15", "status": "partial", "theorems": ["C15_erase", "C15_erase_query_partial", "C15_erase_other_delimiter_refuted", "C15_erase_by_index_refuted"], "note": "full for erase(key); erase_query proved when no part but the last contains a dot, refuted otherwise (the inner lookup uses the default delimiter) and for positional last parts"},
{"property": "C16", "status": "partial", "theorems": ["C16_merge", "C16_unmentioned", "C16_self", "C16_empty", "C16_empty_overwrite_refuted", "C16_self_duplicate_refuted"], "note": "full for trees whose siblings have distinct keys; refuted for self-merge with repeated keys and for overwriting with an empty tree"},
{"property": "C17", "status": "proved", "theorems": ["C17_flags", "C17_flag_unique", "C17_count"], "note": ""},
{"property": "C18", "status": "proved", "theorems": ["C18_find_recursively", "C18_find_parent", "C18_counts", "C18_answers"], "note": ""},
{"property": "C19", "status": "partial", "theorems": ["C19_quoting_partial", "C19_quoting_refuted", "C19_unquote_bounds_refuted", "C19_unquoted", "C19_encoded", "C19_decoded"], "note": "round trip holds exactly for bytes 1..127; NUL and bytes above 127 are lost, and a lone quote or an escaped closing quote reads past the end"},
{"property": "C20", "status": "proved", "theorems": ["C20_token", "C20_history", "C20_reaches_end", "C20_line", "C20_seek", "C20_lone_backslash_refuted", "C20_prefix_dropped_refuted", "C20_open_quote_refuted", "C20_empty_quote_refuted", "C20_try_get_refuted", "C20_characters"], "note": "The refuted theorems show what happens outside the stated conditions (a text ending in a backslash inside quotes never returns) and quirks inside them."},
{"property": "C21", "status": "proved", "theorems": ["C21_round_trip", "C21_round_trip_concise", "C21_round_trip_refuted", "C21_concise_empty_refuted", "C21_concise_empty_value_refuted", "C21_refused"], "note": "The refuted theorems give trees outside the representable ones that are written without an error and do not read back."},
{"property": "C22", "status": "proved", "theorems": ["C22_same_tokens", "C22_insert", "C22_space_after_colon_refuted"], "note": "The refuted theorem shows why a space after a colon is excluded."},
{"property": "C23", "status": "proved", "theorems": ["C23_round_trip", "C23_ignored", "C23_last_line", "C23_order_refuted", "C23_long_refuted", "C23_lost_refuted"], "note": "Round trip for every tree of the stated class and every placement of comments; the refuted theorems give the trees outside the class that are not preserved."},
{"property": "C24", "status": "proved", "theorems": ["C24_terminates", "C24_meaning", "C24_no_directive", "C24_cycle", "C24_plain", "C24_depth_refuted"], "note": "load_file itself (the serializers) is a parameter that returns a tree or throws; ZML's own << >> inclusion is not part of this property."},
{"property": "C25", "status": "partial", "theorems": ["C25_search", "C25_substring", "C25_find_nth_partial", "C25_find_nth_refuted"], "note": "everything but find_nth_str is proved in full; find_nth_str never gets past a match at position 0"},
{"property": "C26", "status": "proved", "theorems": ["C26_replace", "C26_replaced_unique", "C26_replace_char"], "note": ""},
{"property": "C27", "status": "proved", "theorems": ["C27_split", "C27_pieces_exist", "C27_split_join", "C27_trim", "C27_split_at"], "note": "separator sets without NUL (the code passes them as C strings)"},
{"property": "C28", "status": "partial", "theorems": ["C28_parts", "C28_stem_extension", "C28_stem", "C28_extension_exact", "C28_extension_refuted", "C28_replace_extension", "C28_replace_extension_refuted", "C28_join", "C28_join_name", "C28_join_assoc", "C28_reconstruct_partial", "C28_reconstruct_refuted", "C28_replace_filename", "C28_replace_stem", "C28_make_preferred"], "note": "All parts hold under the stated conditions. Not for a dot in a directory name (extension and replace_extension use the last dot of the whole path) and not for files in the root directory (parent_path of /a is empty, so joining loses the root): both refuted."},
{"property": "C29", "status": "partial", "theorems": ["C29_int_round_trip", "C29_int_written", "C29_int_read", "C29_int_failure", "C29_bool", "C29_int_strict_refuted", "C29_int_limits"], "note": "all positive parts proved; the last clause is false: trailing text is ignored and out-of-range values wrap or saturate"},
{"property": "C30", "status": "partial", "theorems": ["C30_version_order_partial", "C30_version_transitive_partial", "C30_version_total_order_refuted", "C30_version_level"], "note": "everything except transitivity of <= and ==, which fails when builds are mixed with build 0"},
{"property": "C31", "status": "proved", "theorems": ["C31_once", "C31_values", "C31_failures", "C31_size", "C31_exclusive", "C31_progress", "C31_bounded", "C31_complete", "C31_recursive"], "note": "Interleaving semantics over std::shared_mutex for memoize_thread_safe (the wrapped function may behave differently each time, but does not call the same object: that would lock the mutex twice); memoize (one thread) is covered for recursive functions."},
{"property": "C32", "status": "proved", "theorems": ["C32_fresh", "C32_exclusive", "C32_progress", "C32_bounded", "C32_after_failure_refuted", "C32_same_second_refuted"], "note": "Threads over a reader/writer lock, with steps of the environment that advance the clock and replace files. create_ and clone_ are a function of the contents; default file clock in whole seconds."},
{"property": "C33", "status": "proved", "theorems": ["C33_delivery", "C33_threads", "C33_exclusive", "C33_quick_test", "C33_lost_refuted", "C33_format_refuted"], "note": "Call-level history semantics for the exact delivery, plus an interleaving model at the granularity of lock operations and reads/writes of the shared variables. Derived sinks' output formatting is not modelled."},
{"property": "C34", "status": "partial", "theorems": ["C34_elapsed_partial", "C34_pause_twice_refuted", "C34_resume_twice_refuted", "C34_restart_paused_refuted", "C34_set_late_refuted"], "note": "Proved for histories that pause/restart only running timers, resume only paused ones and set times the clock has passed; the rest of the statement is false, with witnesses. One tick is one nanosecond."},
{"property": "C35", "status": "proved", "theorems": ["C35_splits", "C35_names", "C35_report", "C35_total_name_refuted", "C35_order_refuted", "C35_clear"], "note": "The text form of the reported times is the subject of C166."},
{"property": "C36", "status": "partial", "theorems": ["C36_sections", "C36_exclusive", "C36_exclusive_sum", "C36_exclusive_nonneg", "C36_misuse", "C36_report_refuted", "C36_unbalanced_refuted"], "note": "proved for properly nested activations; a report before the first start, or more leaves than enters, reads a section that is not there (refuted theorems); the lines and texts of the report are C175 and C176"},
{"property": "C37", "status": "partial", "theorems": ["C37_set", "C37_range", "C37_undefined", "C37_valid", "C37_get", "C37_load", "C37_saved_refuted", "C37_position_refuted", "C37_nested_refuted", "C37_get_group_refuted", "C37_allowed_range_refuted", "C37_nan_refuted", "C37_lowest_int_refuted", "C37_range_int_refuted", "C37_get_unknown", "C37_saved", "C199_set", "C199_stored", "C199_outside_refuted", "C37_not_a_number"], "note": "strtod, %g and comparison of doubles are parameters, instantiated in the C199 theorems; conversion to color and vec3 is a parameter; ids are written without '#n'; load requires distinct plain keys in the groups of the file. Fails for '#n' ids, nested settings, get of a group, values that are allowed but out of range, NaN, the lowest int, ints with a range printed with %g, and the version that save adds."},
{"property": "C38", "status": "proved", "theorems": ["C38_factory_history"], "note": "refinement to a registry map over all histories"},
{"property": "C39", "status": "proved", "theorems": ["C39_flags", "C39_positional", "C39_dashed_name", "C39_default_refuted"], "note": "C39_default_refuted records that an unreadable value yields what from_str leaves (0 for int), not the default"},
{"property": "C40", "status": "proved", "theorems": ["C40_clamp", "C40_double_order", "C40_nan_refuted", "C40_within", "C40_min_max", "C40_extend", "C40_extend_bounds", "C40_violation", "C40_negated", "C40_soft_clamp", "C40_smooth_clamp"], "note": "Comparisons for any ordered type (doubles without NaN included); arithmetic over the reals. NaN passes through clamp."},
{"property": "C41", "status": "partial", "theorems": ["C41_gcd", "C41_gcd_negative_refuted", "C41_power_of_two", "C41_parity", "C41_power", "C41_count_digits", "C41_count_digits_refuted", "C41_midpoint", "C41_midpoint_refuted", "C41_sign", "C41_midpoint_real"], "note": "count_digits is right in base 10 only, gcd of negative numbers can be negative, midpoint overflows for distant numbers: those parts are refuted."},
{"property": "C42", "status": "partial", "theorems": ["C42_wrap_partial", "C42_wrap_refuted", "C42_pos_mod_partial", "C42_pos_mod_refuted", "C42_square_wave_partial", "C42_square_wave_refuted", "C42_triangle_wave", "C42_triangle_between"], "note": "Negative multiples of the period give the upper end; the square wave is not periodic across zero."},
{"property": "C43", "status": "partial", "theorems": ["C43_lerp", "C43_lerp_double_refuted", "C43_lerp_precise_refuted", "C43_piecewise_linear", "C43_piecewise_constant", "C43_lerp_map", "C43_lerp_map_int_refuted", "C43_lerp_span", "C43_lerp_span_far_refuted", "C43_regular", "C43_lerp_double_partial", "C43_lerp_double_overflow_refuted", "C43_lerp_map_int"], "note": "Over the reals. Refuted: lerp_precise (sign error), lerp with doubles at t = 1, lerp_map with an integer key type."},
{"property": "C44", "status": "partial", "theorems": ["C44_delayer_partial", "C44_initial_refuted", "C44_long_step_refuted", "C44_smooth_delayer_partial", "C44_rejected"], "note": "Over the reals. Exact characterisation after the delay (constant steps for delayer, any steps for smooth_delayer, not longer than the window); the initial value is not returned before that."},
{"property": "C45", "status": "partial", "theorems": ["C45_rotation", "C45_composition", "C45_conjugate", "C45_axes", "C45_representation", "C45_positive", "C45_inverse_refuted"], "note": "All laws for unit quaternions over the reals. inverse of a quaternion that is not of unit length is refuted: the first coordinate is not scaled."},
{"property": "C46", "status": "partial", "theorems": ["C46_composition", "C46_inverse", "C46_srt_partial", "C46_srt_refuted"], "note": "Everything for transform. For transform_srt only with unit scale: product and inverse drop the scale (refuted otherwise)."},
{"property": "C47", "status": "proved", "theorems": ["C47_frame", "C47_round_trip"], "note": "Over the reals, all branches. The function as written does not compile when instantiated (non-const operator[]); the model is what the text would do."},
{"property": "C48", "status": "partial", "theorems": ["C48_meaning", "C48_round_trip", "C48_from_quat", "C48_gimbal_refuted"], "note": "All six orders over the reals; atan2 is a parameter with its mathematical contract, which is shown to be satisfiable. From quaternions everything but gimbal lock, where the statement is refuted (the outer angles come out as zero)."},
{"property": "C49", "status": "proved", "theorems": ["C49_mirror", "C49_rotation", "C49_bounds", "C49_limits"], "note": "Over the reals."},
{"property": "C50", "status": "proved", "theorems": ["C50_points", "C50_join", "C50_join_empty", "C50_box", "C50_sphere"], "note": "Over real numbers; coordinates are assumed not larger than the largest finite number, the value an empty box starts with."},
{"property": "C51", "status": "partial", "theorems": ["C51_segment", "C51_lines", "C51_lines_refuted", "C51_zero_direction_refuted"], "note": "Over real numbers. Segments: complete. Lines: proved when the squared outer product of the directions is at least ample_epsilon, or zero with a nonzero second direction; refuted for short direction vectors and for a zero direction."},
{"property": "C52", "status": "proved", "theorems": ["C52_least_squares", "C52_fixed_step", "C52_median_line", "C52_repeated_median"], "note": "Over real numbers; division by zero is reported as UB. nth_element is any function that meets its contract."},
{"property": "C53", "status": "proved", "theorems": ["C53_median", "C53_sorted_indices", "C53_extremes", "C53_average", "C53_variance", "C53_top_average", "C53_top_average_refuted", "C191_average", "C192_variance", "C194_median", "C194_extremes"], "note": "Over real numbers, for any standard algorithms that meet their contracts. top_average is the average of the lowest elements (not the highest) and counts missing elements as zero: refuted with witness."},
{"property": "C54", "status": "proved", "theorems": ["C54_hash", "C54_one_character", "C54_high_refuted"], "note": "NUL-free strings; char is signed"},
{"property": "C55", "status": "proved", "theorems": ["C55_enum_to", "C55_enum_from", "C55_enum_round", "C55_explicit_values_refuted", "C55_date_round", "C55_date_from", "C55_date_negative_refuted"], "note": "the enum text is the stringised macro argument; dates with negative fields do not round trip"},
{"property": "C56", "status": "proved", "theorems": ["C56_compact", "C56_flagged", "C56_sentinel_refuted", "C56_not_equal_refuted", "C56_write_empty_refuted"], "note": "compact version for any blank value, so for the sentinel and for NaN"},
{"property": "C57", "status": "proved", "theorems": ["C57_equation", "C57_linear", "C57_time_invariant", "C57_butterworth_constant", "C57_butterworth_gain", "C57_velocity"], "note": "Over the reals."},
{"property": "C58", "status": "proved", "theorems": ["C58_length", "C58_insert", "C58_too_short"], "note": "Over real numbers; when an existing point is within the relative tolerance it is returned, so the arc length then holds up to that tolerance."},
{"property": "C59", "status": "proved", "theorems": ["C59_create_unique", "C59_first_free", "C59_concurrent", "C59_parents", "C59_existing_refuted", "C59_find_unique", "C59_find_unique_refuted"], "note": "Over any operating system satisfying the stated mkdir/stat laws (a tree model shows them satisfiable). create_directories reports failure for an existing directory, and find_unique_directory may return the name of a file: recorded as refutations of stronger readings."},
{"property": "C60", "status": "proved", "theorems": ["C60_cached", "C60_interval", "C60_interval_count"], "note": ""},
{"property": "C61", "status": "proved", "theorems": ["C61_requested", "C61_forever", "C61_moved_refuted"], "note": "sequential histories; the flag is an atomic in the code"},
{"property": "C62", "status": "proved", "theorems": ["C62_handle_push_back", "C62_handle_erase_update", "C62_invalid_handle_stays_invalid", "C62_erase_one"], "note": "index arithmetic modulo the handle range"},
{"property": "C63", "status": "partial", "theorems": ["C63_storage_add_channel_refuted", "C63_table_add_column_refuted", "C06_size_after_overflow_refuted"], "note": "False of storage, table and indexed_set; table add_row, label_vector add/set do leave the state unchanged by construction of their models."},
{"property": "C64", "status": "proved", "theorems": ["C64_concat", "C64_split_concat", "C64_append"], "note": ""},
{"property": "C65", "status": "proved", "theorems": ["C65_key_value"], "note": ""},
{"property": "C66", "status": "partial", "theorems": ["C66_extension", "C66_folder_partial", "C66_folder_refuted"], "note": "without a slash get_filename_folder returns the whole file name"},
{"property": "C67", "status": "partial", "theorems": ["C67_version_text_partial", "C67_version_text_refuted", "C67_version_read"], "note": "holds without postfix and with positive build; otherwise refuted"},
{"property": "C68", "status": "proved", "theorems": ["C68_equality"], "note": ""},
{"property": "C69", "status": "partial", "theorems": ["C69_node_query_partial", "C69_array_refuted"], "note": "proved when every key on the path is non-empty, has no delimiter and is the first of its name; refuted for array elements"},
{"property": "C70", "status": "proved", "theorems": ["C70_set_get", "C70_get", "C70_get_any", "C70_get_all", "C70_vector"], "note": ""},
{"property": "C71", "status": "partial", "theorems": ["C71_from_arg_partial", "C71_from_arg_refuted"], "note": "proved for option lists; refuted for arguments without a key and negative numbers"},
{"property": "C72", "status": "proved", "theorems": ["C72_find_file", "C72_try_find_file", "C72_agree_refuted"], "note": "The set of existing files is fixed during a call."},
{"property": "C73", "status": "partial", "theorems": ["C73_search", "C73_search_relative", "C73_terminates_refuted"], "note": "Exact result in every case; a missing file whose bare name starts with ~ or contains a colon makes the call recurse without end (refuted)."},
{"property": "C74", "status": "partial", "theorems": ["C74_division_partial", "C74_seconds_partial", "C74_distance", "C74_division_refuted", "C74_seconds_refuted"], "note": "Division and seconds are right for times that are not negative, wrong for negative ones; fractions of seconds are the subject of C164."},
{"property": "C75", "status": "partial", "theorems": ["C75_reload_partial", "C75_version_refuted", "C75_allowed_range_refuted", "C199_reload_partial", "C199_subnormal_refuted"], "note": "the file is the written tree (ZML text is C25-C28); settings with a range need no allowed list and a type float or int; the properties of %g and strtod used are hypotheses of C75_reload_partial and proved of double in C199_reload_partial, for numbers that are not subnormal."},
{"property": "C76", "status": "proved", "theorems": ["C76_side", "C76_mirror", "C76_set", "C76_set_none_refuted"], "note": ""},
{"property": "C77", "status": "proved", "theorems": ["C77_range", "C77_step"], "note": "integers that do not overflow"},
{"property": "C78", "status": "proved", "theorems": ["C78_result", "C78_empty_error_refuted"], "note": ""},
{"property": "C79", "status": "partial", "theorems": ["C79_equal", "C79_symmetric_refuted"], "note": "Over the reals. Symmetry is refuted; the rest is proved."},
{"property": "C80", "status": "partial", "theorems": ["C80_bounded_refuted"], "note": "Out of bounds values are rejected; accepted values fall off the end of a non-void function."},
{"property": "C81", "status": "partial", "theorems": ["C81_accurate", "C81_fast", "C81_fast_refuted", "C197_fast", "C198_accurate"], "note": "Over the reals. update_fast overshoots if dt * rate > 1."},
{"property": "C82", "status": "proved", "theorems": ["C82_delta", "C82_average"], "note": "Over the reals."},
{"property": "C83", "status": "proved", "theorems": ["C83_polynomial", "C83_intersect", "C83_minimum_jerk", "C195_error", "C195_intersect"], "note": "Over the reals."},
{"property": "C84", "status": "proved", "theorems": ["C84_covariance"], "note": "Over real numbers."},
{"property": "C85", "status": "proved", "theorems": ["C85_normalize", "C85_normalize_fast", "C85_try_fast", "C85_normalize_vec"], "note": "Over the reals; epsilon is a parameter."},
{"property": "C86", "status": "proved", "theorems": ["C86_metric", "C86_projection", "C86_squared"], "note": "Over the reals."},
{"property": "C87", "status": "proved", "theorems": ["C87_axis_angle", "C87_from_quat", "C87_rotation_vector", "C87_from_vector", "C87_short_vector"], "note": "Over the reals; the tolerances are parameters."},
{"property": "C88", "status": "partial", "theorems": ["C88_directions", "C88_opposite_refuted"], "note": "Directions that are not almost opposite. For opposite directions the result is always a half turn about the x axis, refuted for the x axis."},
{"property": "C89", "status": "proved", "theorems": ["C89_twist", "C89_quat_angle", "C89_recover", "C89_main_axes", "C89_no_twist"], "note": "Over the reals; with no twist component (a half turn perpendicular to the axis) the angle is zero by the tolerance branch, and the main axis versions divide by zero only there."},
{"property": "C90", "status": "proved", "theorems": ["C90_heading", "C90_single", "C90_polar", "C90_degrees"], "note": "Over the reals; atan2 is a parameter with its mathematical contract."},
{"property": "C91", "status": "partial", "theorems": ["C91_sphere", "C91_cylinder", "C91_cone", "C91_box", "C91_capsule_partial", "C91_capsule_refuted", "C91_capsule_density_refuted", "C91_density", "C91_capsule_excess", "C91_made_box"], "note": "Over real numbers, against integrals over discs (bodies of revolution) and triple integrals (box). The inertia of a capsule across its axis is wrong (refuted); everything else holds."},
{"property": "C92", "status": "partial", "theorems": ["C92_volume", "C92_inertia_partial", "C92_capsule_inertia_refuted", "C92_by_vector", "C92_uniform", "C92_capsule_refuted"], "note": "Over real numbers, std::cbrt by its defining equation. Fails for capsules: inertia under scaling, volume under scaling by a vector."},
{"property": "C93", "status": "partial", "theorems": ["C93_dim_partial", "C93_dim_refuted", "C93_distance_partial", "C93_intersection", "C93_cylinder_refuted", "C93_centers", "C93_centers_refuted", "C93_unsupported"], "note": "Over real numbers. dim of a capsule leaves out the caps, distance_from_center is wrong at the top of a cylinder, center_positions is not symmetric about the centre: all refuted."},
{"property": "C94", "status": "proved", "theorems": ["C94_plane"], "note": "Over real numbers."},
{"property": "C95", "status": "partial", "theorems": ["C95_segment", "C95_smooth", "C95_line", "C95_alpha", "C95_alpha_refuted", "C95_spline", "C95_alpha_smooth", "C95_alpha_velocity_refuted", "C95_alpha_zero"], "note": "Over real numbers. The variant with times from the distances needs neighbouring points to differ (refuted otherwise); its velocities agree per unit of time, not per segment parameter (refuted)."},
{"property": "C96", "status": "proved", "theorems": ["C96_length", "C96_refine", "C96_straight"], "note": "Over real numbers; at least one step."},
{"property": "C97", "status": "proved", "theorems": ["C97_find_if", "C97_find", "C97_find_index_if", "C97_find_index", "C97_find_again", "C97_find_ref", "C97_tests", "C97_contains", "C97_count_if", "C97_count", "C97_for_each", "C97_back_index"], "note": "Containers are lists, iterators positions."},
{"property": "C98", "status": "partial", "theorems": ["C98_copy_partial", "C98_copy_refuted", "C98_copy_to_range_partial", "C98_copy_container"], "note": "False when the target starts inside the source behind its start: the first elements are repeated (refuted)."},
{"property": "C99", "status": "partial", "theorems": ["C99_view", "C99_zip_partial", "C99_zip_refuted"], "note": "zip runs past the end of a shorter second container (refuted)."},
{"property": "C100", "status": "partial", "theorems": ["C100_values_partial", "C100_equal", "C100_self_assign_refuted", "C100_moved_refuted"], "note": "Holds for all programs without self-assignment and reads of moved-from arrays; both are refuted (self-assignment is always undefined; a moved-from array reports itself non-empty). Element copies are taken not to throw."},
{"property": "C101", "status": "proved", "theorems": ["C101_sum", "C101_self", "C101_scale", "C101_equal", "C101_length", "C101_dot", "C101_cauchy", "C101_triangle", "C101_normalize"], "note": "Over real numbers."},
{"property": "C102", "status": "partial", "theorems": ["C102_table", "C102_new", "C102_resize", "C102_times_partial", "C102_times_refuted", "C102_clear"], "note": "The product uses the accessor with column and row exchanged (refuted); as written it does not compile because of flut_assert."},
{"property": "C103", "status": "partial", "theorems": ["C103_add", "C103_refuted", "C103_three_partial"], "note": "Only addition treats the fourth component; the others are refuted. Binary minus does not compile."},
{"property": "C104", "status": "proved", "theorems": ["C104_scale"], "note": "Over real numbers."},
{"property": "C105", "status": "proved", "theorems": ["C105_vec_read", "C105_vec_refused", "C105_vec_round_trip", "C105_scale_read", "C187_vec"], "note": "The text form of the number type is a parameter with the contract that it round trips (instantiated with int). On a failing text the vector may have been partly assigned; not modelled."},
{"property": "C106", "status": "partial", "theorems": ["C106_quat_read", "C106_quat_round_trip", "C106_quat_order_refuted", "C187_quat"], "note": "Reading is characterised exactly and writing round trips; the choice of the order is refuted: a tree with an entry order is never accepted."},
{"property": "C107", "status": "partial", "theorems": ["C107_transform_read", "C107_transform_round_trip_refuted"], "note": "Reading is characterised exactly; the round trip is refuted: operator prop_node chains set() on the child it returns, so the result is only the orientation."},
{"property": "C108", "status": "partial", "theorems": ["C108_int_bounds_round_trip", "C108_bounds_round_trip", "C108_bounds_group", "C108_bounds_named_refuted", "C188_bounds"], "note": "Round trip proved for all integer types and for any type whose numbers can be read in front of dots; named bounds are refuted in two ways (an unrelated first entry throws, a missing bound takes the other one)."},
{"property": "C109", "status": "partial", "theorems": ["C109_shape_read", "C109_shape_round_trip", "C109_shape_unknown", "C109_shape_type_exact_refuted", "C189_shape"], "note": "Numbers and halving/doubling are parameters. Types are recognised by hash only, so an unknown type is refused only if its hash differs from the six; the exact statement is refuted (embedded NUL)."},
{"property": "C110", "status": "proved", "theorems": ["C110_list_read", "C110_list_round_trip", "C110_array_read", "C187_list"], "note": "Any conversion; element type and conversion are parameters."},
{"property": "C111", "status": "proved", "theorems": ["C111_rgb", "C111_rgba", "C111_channels", "C111_nearest_byte", "C111_nan_refuted"], "note": "IEEE binary32 arithmetic of Flocq; C111_nan_refuted shows that a NaN channel is undefined behaviour"},
{"property": "C112", "status": "partial", "theorems": ["C112_hsv_partial", "C112_distinct", "C112_named", "C112_negative_hue_refuted", "C200_close", "C200_period", "C200_negative_refuted"], "note": "over the reals; for a negative hue the result is transparent black, so periodicity fails"},
{"property": "C113", "status": "proved", "theorems": ["C113_order", "C113_clamp"], "note": "any ordered channel type"},
{"property": "C114", "status": "partial", "theorems": ["C114_arithmetic_partial", "C114_double_factor_refuted"], "note": "over the reals; scaling by a double sets alpha from blue"},
{"property": "C115", "status": "partial", "theorems": ["C115_hex_text", "C115_words", "C115_hsv_group", "C115_list_partial", "C115_failure_unchanged_refuted", "C115_text_refused"], "note": "number reading is a parameter; a failed list reading can leave the colour partly changed"},
{"property": "C116", "status": "proved", "theorems": ["C116_gradient"], "note": "over the reals"},
{"property": "C117", "status": "partial", "theorems": ["C117_brightness", "C117_unique_color", "C117_distinct", "C201_distinct_refuted", "C201_brightness"], "note": "over the reals; with float two colours of late indices can be the same, see C201"},
{"property": "C118", "status": "partial", "theorems": ["C118_steps", "C118_increment_partial", "C118_ends", "C118_single_refuted", "C118_direction_refuted", "C118_size_refuted", "C118_postfix_refuted"], "note": "over the reals"},
{"property": "C119", "status": "partial", "theorems": ["C119_float_partial", "C119_float_endless_refuted", "C119_float_close_partial"], "note": "IEEE binary32 of Flocq"},
{"property": "C120", "status": "proved", "theorems": ["C120_evaluate"], "note": "over the reals"},
{"property": "C121", "status": "partial", "theorems": ["C121_plot_partial", "C121_constant_refuted", "C121_far_refuted"], "note": "over the reals; rows and columns of zero must fit an int"},
{"property": "C122", "status": "partial", "theorems": ["C122_make", "C122_step", "C122_container", "C122_nothing_stays_nothing_refuted", "C122_large_container_refuted", "C122_order"], "note": "Everything holds except two points, shown false by witnesses: incrementing an index that refers to nothing makes it refer to the first element, and back() of a container with 2^32 or more elements refers to another element."},
{"property": "C123", "status": "partial", "theorems": ["C123_span", "C123_reversed_refuted"], "note": "Proved for spans with begin not beyond end; a reversed span wraps around (refuted)."},
{"property": "C124", "status": "partial", "theorems": ["C124_push", "C124_pop", "C124_erase", "C124_position", "C124_clear", "C124_walk", "C124_index_erase_refuted", "C124_erase_span"], "note": "collection_ic::erase has no return statement and is undefined (refuted); the rest holds. Types are numbered and element types are collapsed into one universe."},
{"property": "C125", "status": "partial", "theorems": ["C125_run", "C125_tests", "C125_escape", "C125_silent_exception_refuted", "C125_rerun_refuted"], "note": "Proved for exceptions with a non-empty description and for the first run of a test; an exception with an empty description counts as success and results accumulate over runs (both refuted). Counters are unbounded integers in the model."},
{"property": "C126", "status": "proved", "theorems": ["C126_async"], "note": "Test functions are given by the events they produce; log lines are appended in one step each (thread safety of the log itself: C33)."},
{"property": "C127", "status": "proved", "theorems": ["C127_dictionary", "C127_inverse", "C127_lookup", "C127_inverse_without_uniqueness_refuted"], "note": "The refuted theorem shows that uniqueness is needed for the inverse."},
{"property": "C128", "status": "proved", "theorems": ["C128_stack"], "note": "Popping a part that is not there is undefined behaviour, as the theorem states."},
{"property": "C129", "status": "partial", "theorems": ["C129_matcher", "C129_is_pattern", "C129_text_refuted"], "note": "The text round trip holds when no piece contains a semicolon (always so with the default delimiter); with other delimiters it can fail (refuted). fnmatch is a parameter."},
{"property": "C130", "status": "partial", "theorems": ["C130_identifier", "C130_type_name", "C130_no_arguments_refuted", "C130_every_name_refuted"], "note": "tidy_type_name keeps template arguments when there is no scope and is undefined when demangling fails (refuted). Demangling is a parameter."},
{"property": "C131", "status": "proved", "theorems": ["C131_stream", "C131_push_back"], "note": "All sequences and value lists; writing past the end is undefined behaviour of the model."},
{"property": "C132", "status": "partial", "theorems": ["C132_read_partial", "C132_missing", "C132_last_refuted"], "note": "Complete for files ending in white space; the last value of other files is dropped silently (refuted, with witness). Reading one element is a parameter."},
{"property": "C133", "status": "proved", "theorems": ["C133_recording", "C133_sentinel_refuted"], "note": "For values other than the marker; the marker itself is shown not to be recorded."},
{"property": "C134", "status": "proved", "theorems": ["C134_total"], "note": "For every text. The model stops with undefined behaviour when moving past the end or running out of fuel; the theorem excludes both. Stack depth is not modelled."},
{"property": "C135", "status": "proved", "theorems": ["C135_document", "C135_preamble"], "note": "For every printed document of plain elements."},
{"property": "C136", "status": "partial", "theorems": ["C136_roundtrip_partial", "C136_every_tree_refuted"], "note": "Proved for trees of the form of XML; the other ways in which trees change are shown by witnesses."},
{"property": "C137", "status": "partial", "theorems": ["C137_reference", "C137_malformed_refuted"], "note": "Correct references; two kinds of malformed text that are accepted are shown."},
{"property": "C138", "status": "proved", "theorems": ["C138_decimal", "C138_hexadecimal", "C138_words", "C138_accepts", "C138_refused"], "note": "strtod and strtof are modelled, errno is not."},
{"property": "C139", "status": "proved", "theorems": ["C139_text", "C139_special", "C139_integer"], "note": "The %g conversion is modelled."},
{"property": "C140", "status": "proved", "theorems": ["C140_close", "C140_six", "C140_special", "C140_exact_refuted"], "note": "Exact round trip is refuted; the error bound and the unchanged numbers are proved."},
{"property": "C141", "status": "proved", "theorems": ["C141_order", "C141_strict_refuted"], "note": "Order is kept; strict order is not."},
{"property": "C142", "status": "partial", "theorems": ["C142_stable_partial", "C142_subnormal_refuted", "C142_typed"], "note": "Proved for normal numbers; refuted for subnormal ones."},
{"property": "C143", "status": "proved", "theorems": ["C143_storage", "C143_spaces_refuted", "C143_unlabelled_refuted", "C143_carriage_return_refuted"], "note": "Holds for labels that are single words; refuted otherwise."},
{"property": "C144", "status": "proved", "theorems": ["C144_lines", "C144_total"], "note": "For the row values the line must have no zero character."},
{"property": "C145", "status": "proved", "theorems": ["C145_table", "C145_infinite_refuted"], "note": "Holds for finite values; refuted with an infinite value."},
{"property": "C146", "status": "proved", "theorems": ["C146_fields", "C146_vec", "C146_quat", "C146_stale_refuted", "C146_missing_refuted"], "note": "Holds for handles made after the last change; refuted for older ones and for missing labels."},
{"property": "C147", "status": "partial", "theorems": ["C147_between", "C147_beyond", "C147_last_refuted", "C184_between"], "note": "Over real numbers exactly, in floating point up to four rounding errors (C184_between); the last frame is refused."},
{"property": "C148", "status": "proved", "theorems": ["C148_same_tree", "C148_same_tree_as", "C148_good_means_loaded", "C148_first_error_refuted"], "note": "both ways of calling over an abstract file system; the exception in the statement is shown by C148_first_error_refuted"},
{"property": "C149", "status": "partial", "theorems": ["C149_absent_partial", "C149_zml_returns_partial", "C149_no_exception_refuted"], "note": "ZML documents with includes, macros or a final backslash, and INI and XML documents that are well formed, are not covered; the refuted cases throw"},
{"property": "C150", "status": "proved", "theorems": ["C150_zml_file", "C150_ini_file", "C150_xml_file"], "note": "the trees a format can hold are those of C21, C24 and the XML property"},
{"property": "C151", "status": "proved", "theorems": ["C151_true_means_written", "C151_false_means_untouched", "C151_refused", "C151_result_refuted", "C151_keeps_old_file_refuted"], "note": "the exceptions in the statement are shown by the refuted theorems"},
{"property": "C152", "status": "proved", "theorems": ["C152_deeper", "C152_include_saved", "C152_cycle_refuted", "C152_included_files_refuted"], "note": "the exceptions in the statement are shown by the refuted theorems; files change only between calls"},
{"property": "C153", "status": "proved", "theorems": ["C153_meaning"], "note": "macro definitions inside the body of a macro are undefined behaviour in the code and in the meaning; keys, names and parts of values are those the tokenizer reads as one token"},
{"property": "C154", "status": "proved", "theorems": ["C154_scope", "C154_latest", "C154_extend_refuted"], "note": "about the meaning of documents, which C153_meaning ties to the reader; the exception is shown by C154_extend_refuted"},
{"property": "C155", "status": "proved", "theorems": ["C155_reference"], "note": "about the meaning of documents, which C153_meaning ties to the reader; stated for items of the outermost block"},
{"property": "C156", "status": "proved", "theorems": ["C156_more"], "note": "about the meaning of documents, which C153_meaning ties to the reader; stated for items of the outermost block with literal values"},
{"property": "C157", "status": "proved", "theorems": ["C157_defined", "C157_refuted"], "note": "the exceptions are shown by C157_refuted; files that include each other without end are not covered here (see C149)"},
{"property": "C158", "status": "proved", "theorems": ["C158_stream", "C158_console", "C158_console_lines", "C158_log_file", "C158_refuted"], "note": "the exceptions are shown by C158_refuted; C158_log_file is for sinks that take messages of all threads"},
{"property": "C159", "status": "proved", "theorems": ["C159_full_device", "C159_not_opened"], "note": "the device is modelled by the number of bytes it takes; buffering is not modelled"},
{"property": "C160", "status": "proved", "theorems": ["C160_whole", "C160_exclusive", "C160_stream_refuted"], "note": "one call of operator<< is one step; the exception is shown by C160_stream_refuted"},
{"property": "C161", "status": "proved", "theorems": ["C161_contents", "C161_load", "C161_errors", "C161_folders", "C161_full_refuted"], "note": "the exception is shown by C161_full_refuted; paths without dots and doubled slashes; line ends are not converted (not Windows)"},
{"property": "C162", "status": "proved", "theorems": ["C162_append", "C162_save", "C162_complete", "C162_save_refuted"], "note": "every byte written is a system call of its own; the exception is shown by C162_save_refuted"},
{"property": "C163", "status": "proved", "theorems": ["C163_find", "C163_files_only_refuted"], "note": "directories are trees, which do not change meanwhile; with a negative number of levels the depth may not reach 2^31; the exception is shown by C163_files_only_refuted"},
{"property": "C164", "status": "proved", "theorems": ["C164_seconds_kept", "C164_milliseconds_kept", "C164_accurate", "C164_ordered", "C164_from_seconds", "C164_whole", "C164_seconds_kept_refuted", "C164_too_large_refuted"], "note": "doubles rounded to nearest even (Flocq), the exceptions are shown by the refuted theorems"},
{"property": "C165", "status": "proved", "theorems": ["C165_clock", "C165_decimals", "C165_read", "C165_millisecond", "C165_nanosecond", "C165_clock_read_refuted", "C165_hide_refuted"], "note": "printf rounds exactly, to nearest; the limit from which decimals are hidden is a whole number; the exceptions are shown by the refuted theorems"},
{"property": "C166", "status": "proved", "theorems": ["C166_report", "C166_decimals_refuted"], "note": "the order of names is the subject of C35"},
{"property": "C167", "status": "proved", "theorems": ["C167_clamp", "C167_extend", "C167_extend_least", "C167_violation", "C167_middle", "C167_nan_refuted", "C167_center_refuted"], "note": "any precision, rounding to nearest even (Flocq); the exceptions are shown by the refuted theorems"},
{"property": "C168", "status": "proved", "theorems": ["C168_remainder", "C168_wrap", "C168_upper_refuted"], "note": "fmod is taken to be exact, as IEC 60559 requires; the exception is shown by the refuted theorem"},
{"property": "C169", "status": "proved", "theorems": ["C169_lerp", "C169_lerp_monotone", "C169_map_keys", "C169_map_outside", "C169_map_line", "C169_map_monotone", "C169_pieces_line", "C169_pieces_points", "C169_end_refuted", "C169_points_refuted", "C169_monotone_refuted", "C169_float_refuted"], "note": "no contraction of multiplication and addition; the exceptions are shown by the refuted theorems"},
{"property": "C170", "status": "proved", "theorems": ["C170_mean", "C170_count", "C170_none", "C170_between_refuted"], "note": "weights other than one are not covered; the exception is shown by the refuted theorem"},
{"property": "C171", "status": "proved", "theorems": ["C171_text", "C171_given_column", "C171_identifies", "C171_marks", "C171_any_column_refuted", "C171_root_value_refuted", "C171_lines_refuted"], "note": "the exceptions are shown by the refuted theorems"},
{"property": "C172", "status": "proved", "theorems": ["C172_text", "C172_log", "C172_agree", "C172_empty", "C172_root_refuted"], "note": "the exception is shown by the refuted theorem"},
{"property": "C173", "status": "proved", "theorems": ["C173_messages", "C173_other_keys_refuted"], "note": "the exception is shown by the refuted theorem"},
{"property": "C174", "status": "proved", "theorems": ["C174_zml", "C174_spaces_refuted", "C174_unique_refuted", "C174_empty_refuted"], "note": "the exceptions are shown by the refuted theorems"},
{"property": "C175", "status": "proved", "theorems": ["C175_lines", "C175_stops", "C175_instant_refuted"], "note": "the exception is shown by the refuted theorem; std::sort is a parameter that is assumed to sort; names are positions that stand for the addresses of the name texts, which is what the profiler compares"},
{"property": "C176", "status": "proved", "theorems": ["C176_text"], "note": "the overhead estimate is a parameter"},
{"property": "C177", "status": "proved", "theorems": ["C177_messages"], "note": ""},
{"property": "C178", "status": "partial", "theorems": ["C178_length", "C178_normalize", "C178_short", "C178_overflow_refuted", "C178_underflow_refuted"], "note": "the exceptions are shown by the refuted theorems; products are assumed not to be fused with sums"},
{"property": "C179", "status": "partial", "theorems": ["C179_normalize", "C179_try_fast", "C179_accepted", "C179_zero_refuted", "C179_overflow_refuted"], "note": "the exceptions are shown by the refuted theorems"},
{"property": "C180", "status": "partial", "theorems": ["C180_product", "C180_chain", "C180_product_refuted"], "note": "the exception is shown by the refuted theorem"},
{"property": "C181", "status": "proved", "theorems": ["C181_rotate", "C181_formula", "C181_length", "C181_rotation"], "note": "constants are not claimed to be the smallest possible"},
{"property": "C182", "status": "partial", "theorems": ["C182_itself", "C182_equal", "C182_symmetric_refuted", "C182_infinity_refuted", "C182_zero_refuted"], "note": "the exceptions are shown by the refuted theorems"},
{"property": "C183", "status": "partial", "theorems": ["C183_nearest", "C183_present", "C183_empty", "C183_exact_refuted", "C183_first_refuted", "C183_nan_refuted"], "note": "the exceptions are shown by the refuted theorems"},
{"property": "C184", "status": "partial", "theorems": ["C184_between", "C184_beyond", "C184_index_refuted", "C184_constant_refuted", "C184_monotone_refuted", "C184_infinite_refuted"], "note": "the exceptions are shown by the refuted theorems; products are assumed not to be fused with sums"},
{"property": "C185", "status": "partial", "theorems": ["C185_between", "C185_monotone", "C185_outside", "C185_far_refuted"], "note": "the exception is shown by the refuted theorem"},
{"property": "C186", "status": "partial", "theorems": ["C186_triangle", "C186_square", "C186_whole", "C186_large_refuted", "C186_tiny_refuted", "C186_negative_refuted"], "note": "the exceptions are shown by the refuted theorems"},
{"property": "C187", "status": "partial", "theorems": ["C187_vec", "C187_quat", "C187_list", "C187_exact_refuted"], "note": "the exception is shown by the refuted theorem"},
{"property": "C188", "status": "partial", "theorems": ["C188_bounds", "C188_within", "C188_typed", "C188_within_refuted", "C188_typed_point_refuted"], "note": "the exceptions are shown by the refuted theorems"},
{"property": "C189", "status": "partial", "theorems": ["C189_shape", "C189_large_refuted"], "note": "the exception is shown by the refuted theorem"},
{"property": "C190", "status": "proved", "theorems": ["C190_vec_file", "C190_shape_file", "C190_list_file"], "note": "the file system is the one of C148-C152"},
{"property": "C191", "status": "partial", "theorems": ["C191_sum", "C191_average", "C191_integers", "C191_none", "C191_between_refuted", "C191_large_refuted", "C191_lost_refuted"], "note": "the exceptions are shown by the refuted theorems"},
{"property": "C192", "status": "partial", "theorems": ["C192_variance", "C192_not_negative", "C192_deviation", "C192_constant_refuted", "C192_large_refuted"], "note": "the exceptions are shown by the refuted theorems"},
{"property": "C193", "status": "proved", "theorems": ["C193_means", "C193_symmetric", "C193_diagonal", "C193_error"], "note": ""},
{"property": "C194", "status": "partial", "theorems": ["C194_extremes", "C194_median", "C194_large_refuted", "C194_nan_refuted"], "note": "the exceptions are shown by the refuted theorems"},
{"property": "C195", "status": "partial", "theorems": ["C195_error", "C195_zero", "C195_integers", "C195_intersect", "C195_large_refuted", "C195_cancel_refuted"], "note": "the exceptions are shown by the refuted theorems"},
{"property": "C196", "status": "partial", "theorems": ["C196_delta", "C196_exact", "C196_history", "C196_first", "C196_sum_refuted"], "note": "the exception is shown by the refuted theorem"},
{"property": "C197", "status": "partial", "theorems": ["C197_fast", "C197_fast_settles", "C197_fast_stays", "C197_reach_refuted", "C197_past_refuted", "C197_unstable_refuted"], "note": "the exceptions are shown by the refuted theorems; T and TimeT are the same type"},
{"property": "C198", "status": "proved", "theorems": ["C198_accurate", "C198_accurate_settles", "C198_accurate_stays", "C198_accurate_long"], "note": "std::exp is any function with values between 0 and 1 up to a given error; T and TimeT are the same type"},
{"property": "C199", "status": "partial", "theorems": ["C199_set", "C199_stored", "C199_reload_partial", "C199_outside_refuted", "C199_subnormal_refuted"], "note": "the exceptions are shown by the refuted theorems; reloading is proved for stored numbers that are not subnormal and for settings with a range that have no allowed list and the type float or int"},
{"property": "C200", "status": "partial", "theorems": ["C200_range", "C200_close", "C200_period", "C200_grey", "C200_negative_refuted"], "note": "negative hues are the exception shown by the refuted theorem"},
{"property": "C201", "status": "partial", "theorems": ["C201_brightness", "C201_distinct_partial", "C201_distinct_refuted", "C201_primary"], "note": "colours are distinct below index 4800 and from brightness 0.1; that later ones collide is shown by the refuted theorem"},
{"property": "C202", "status": "partial", "theorems": ["C202_read", "C202_at_partial", "C202_at_refuted", "C202_interpolated", "C202_interpolated_last_refuted", "C202_add_channel", "C202_add_channel_refuted", "C202_resize"], "note": "the exceptions are shown by the refuted theorems; the checked accessor is proved for a full buffer"},
{"property": "C203", "status": "partial", "theorems": ["C203_value", "C203_knot", "C203_samples", "C203_sample_refuted", "C203_far_refuted"], "note": "the two exceptions are shown by the refuted theorems"},
{"property": "C204", "status": "partial", "theorems": ["C204_mean", "C204_empty", "C204_negative_refuted"], "note": "negative weights are shown by the refuted theorem"},
{"property": "C205", "status": "partial", "theorems": ["C205_step", "C205_run", "C205_dies_out_refuted"], "note": "the fixed distance to the exact outputs is proved if the sizes of the coefficients on earlier outputs sum to less than one, which those of the Butterworth filter do not; that an impulse dies out is refuted"}
]}
