{
"C01_bounds": [
"BoxTheorems",
[]
],
"C01_flat_map_refines_map": [
"FlatTheorems",
[]
],
"C01_flat_map_results": [
"FlatTheorems",
[]
],
"C02_flat_set_refines_set": [
"FlatTheorems",
[]
],
"C03_flat_map_init_partial": [
"FlatTheorems",
[]
],
"C03_flat_map_init_refuted": [
"FlatTheorems",
[]
],
"C03_flat_set_init_partial": [
"FlatTheorems",
[]
],
"C03_flat_set_init_refuted": [
"FlatTheorems",
[]
],
"C04_sorted_vector_multiset": [
"FlatTheorems",
[]
],
"C04_sorted_vector_results": [
"FlatTheorems",
[]
],
"C05_indexed_map_history": [
"AssocTheorems",
[]
],
"C05_indexed_map_known_key": [
"AssocTheorems",
[]
],
"C05_indexed_map_new_key": [
"AssocTheorems",
[]
],
"C05_indexed_map_stable_positions": [
"AssocTheorems",
[]
],
"C06_indexed_set_interning": [
"AssocTheorems",
[]
],
"C06_size_after_overflow_refuted": [
"AssocTheorems",
[]
],
"C07_constructed_refuted": [
"AssocTheorems",
[]
],
"C07_label_vector_partial": [
"AssocTheorems",
[]
],
"C07_relabel_refuted": [
"AssocTheorems",
[]
],
"C07_results": [
"BoxTheorems",
[]
],
"C08_storage_history": [
"GridTheorems",
[]
],
"C08_storage_made": [
"BoxTheorems",
[]
],
"C09_find_frame_index_partial": [
"GridTheorems",
[]
],
"C09_first_frame_refuted": [
"GridTheorems",
[]
],
"C100_equal": [
"ArrTheorems",
[]
],
"C100_moved_refuted": [
"ArrTheorems",
[]
],
"C100_self_assign_refuted": [
"ArrTheorems",
[]
],
"C100_values_partial": [
"ArrTheorems",
[]
],
"C101_cauchy": [
"DynTheorems",
[
"ClassicalDedekindReals.sig_not_dec",
"ClassicalDedekindReals.sig_forall_dec",
"FunctionalExtensionality.functional_extensionality_dep"
]
],
"C101_dot": [
"DynTheorems",
[
"ClassicalDedekindReals.sig_not_dec",
"ClassicalDedekindReals.sig_forall_dec",
"FunctionalExtensionality.functional_extensionality_dep"
]
],
"C101_equal": [
"DynTheorems",
[
"ClassicalDedekindReals.sig_forall_dec",
"FunctionalExtensionality.functional_extensionality_dep"
]
],
"C101_length": [
"DynTheorems",
[
"ClassicalDedekindReals.sig_not_dec",
"ClassicalDedekindReals.sig_forall_dec",
"FunctionalExtensionality.functional_extensionality_dep"
]
],
"C101_normalize": [
"DynTheorems",
[
"ClassicalDedekindReals.sig_not_dec",
"ClassicalDedekindReals.sig_forall_dec",
"FunctionalExtensionality.functional_extensionality_dep"
]
],
"C101_scale": [
"DynTheorems",
[
"ClassicalDedekindReals.sig_forall_dec",
"FunctionalExtensionality.functional_extensionality_dep"
]
],
"C101_self": [
"DynTheorems",
[
"ClassicalDedekindReals.sig_forall_dec"
]
],
"C101_sum": [
"DynTheorems",
[
"ClassicalDedekindReals.sig_forall_dec"
]
],
"C101_triangle": [
"DynTheorems",
[
"ClassicalDedekindReals.sig_not_dec",
"ClassicalDedekindReals.sig_forall_dec",
"FunctionalExtensionality.functional_extensionality_dep"
]
],
"C102_clear": [
"DynTheorems",
[]
],
"C102_new": [
"DynTheorems",
[]
],
"C102_resize": [
"DynTheorems",
[]
],
"C102_table": [
"DynTheorems",
[]
],
"C102_times_partial": [
"DynTheorems",
[
"ClassicalDedekindReals.sig_forall_dec"
]
],
"C102_times_refuted": [
"DynTheorems",
[
"ClassicalDedekindReals.sig_forall_dec",
"FunctionalExtensionality.functional_extensionality_dep"
]
],
"C103_add": [
"DynTheorems",
[
"ClassicalDedekindReals.sig_forall_dec",
"FunctionalExtensionality.functional_extensionality_dep"
]
],
"C103_refuted": [
"DynTheorems",
[
"ClassicalDedekindReals.sig_forall_dec",
"FunctionalExtensionality.functional_extensionality_dep"
]
],
"C103_three_partial": [
"DynTheorems",
[
"ClassicalDedekindReals.sig_forall_dec",
"FunctionalExtensionality.functional_extensionality_dep"
]
],
"C104_scale": [
"DynTheorems",
[
"ClassicalDedekindReals.sig_forall_dec",
"FunctionalExtensionality.functional_extensionality_dep"
]
],
"C105_scale_read": [
"GpnTheorems",
[]
],
"C105_vec_read": [
"GpnTheorems",
[]
],
"C105_vec_refused": [
"GpnTheorems",
[]
],
"C105_vec_round_trip": [
"GpnTheorems",
[]
],
"C106_quat_order_refuted": [
"GpnTheorems",
[]
],
"C106_quat_read": [
"GpnTheorems",
[]
],
"C106_quat_round_trip": [
"GpnTheorems",
[]
],
"C107_transform_read": [
"GpnTheorems",
[]
],
"C107_transform_round_trip_refuted": [
"GpnTheorems",
[]
],
"C108_bounds_group": [
"GpnTheorems",
[]
],
"C108_bounds_named_refuted": [
"GpnTheorems",
[]
],
"C108_bounds_round_trip": [
"GpnTheorems",
[]
],
"C108_int_bounds_round_trip": [
"GpnTheorems",
[]
],
"C109_shape_read": [
"GpnTheorems",
[]
],
"C109_shape_round_trip": [
"GpnTheorems",
[]
],
"C109_shape_type_exact_refuted": [
"GpnTheorems",
[]
],
"C109_shape_unknown": [
"GpnTheorems",
[]
],
"C10_resize_rows_refuted": [
"GridTheorems",
[]
],
"C10_table_history_partial": [
"GridTheorems",
[]
],
"C10_table_made": [
"BoxTheorems",
[]
],
"C110_array_read": [
"GpnTheorems",
[]
],
"C110_list_read": [
"GpnTheorems",
[]
],
"C110_list_round_trip": [
"GpnTheorems",
[]
],
"C111_channels": [
"ColTheorems",
[
"ClassicalDedekindReals.sig_not_dec",
"ClassicalDedekindReals.sig_forall_dec",
"FunctionalExtensionality.functional_extensionality_dep",
"Classical_Prop.classic"
]
],
"C111_nan_refuted": [
"ColTheorems",
[
"ClassicalDedekindReals.sig_not_dec",
"ClassicalDedekindReals.sig_forall_dec",
"FunctionalExtensionality.functional_extensionality_dep",
"Classical_Prop.classic"
]
],
"C111_nearest_byte": [
"ColTheorems",
[
"ClassicalDedekindReals.sig_not_dec",
"ClassicalDedekindReals.sig_forall_dec",
"FunctionalExtensionality.functional_extensionality_dep",
"Classical_Prop.classic"
]
],
"C111_rgb": [
"ColTheorems",
[
"ClassicalDedekindReals.sig_not_dec",
"ClassicalDedekindReals.sig_forall_dec",
"FunctionalExtensionality.functional_extensionality_dep",
"Classical_Prop.classic"
]
],
"C111_rgba": [
"ColTheorems",
[
"ClassicalDedekindReals.sig_not_dec",
"ClassicalDedekindReals.sig_forall_dec",
"FunctionalExtensionality.functional_extensionality_dep",
"Classical_Prop.classic"
]
],
"C112_distinct": [
"ColTheorems",
[
"ClassicalDedekindReals.sig_forall_dec",
"FunctionalExtensionality.functional_extensionality_dep"
]
],
"C112_hsv_partial": [
"ColTheorems",
[
"ClassicalDedekindReals.sig_forall_dec",
"FunctionalExtensionality.functional_extensionality_dep"
]
],
"C112_named": [
"ColTheorems",
[
"ClassicalDedekindReals.sig_forall_dec",
"FunctionalExtensionality.functional_extensionality_dep"
]
],
"C112_negative_hue_refuted": [
"ColTheorems",
[
"ClassicalDedekindReals.sig_forall_dec",
"FunctionalExtensionality.functional_extensionality_dep"
]
],
"C113_clamp": [
"ColTheorems",
[]
],
"C113_order": [
"ColTheorems",
[]
],
"C114_arithmetic_partial": [
"ColTheorems",
[
"ClassicalDedekindReals.sig_forall_dec",
"FunctionalExtensionality.functional_extensionality_dep"
]
],
"C114_double_factor_refuted": [
"ColTheorems",
[
"ClassicalDedekindReals.sig_forall_dec",
"FunctionalExtensionality.functional_extensionality_dep"
]
],
"C115_failure_unchanged_refuted": [
"ColTheorems",
[]
],
"C115_hex_text": [
"ColTheorems",
[]
],
"C115_hsv_group": [
"ColTheorems",
[]
],
"C115_list_partial": [
"ColTheorems",
[]
],
"C115_text_refused": [
"ColTheorems",
[]
],
"C115_words": [
"ColTheorems",
[]
],
"C116_gradient": [
"ColTheorems",
[
"ClassicalDedekindReals.sig_forall_dec",
"FunctionalExtensionality.functional_extensionality_dep"
]
],
"C117_brightness": [
"ColTheorems",
[
"ClassicalDedekindReals.sig_not_dec",
"ClassicalDedekindReals.sig_forall_dec",
"FunctionalExtensionality.functional_extensionality_dep"
]
],
"C117_distinct": [
"ColTheorems",
[
"ClassicalDedekindReals.sig_not_dec",
"ClassicalDedekindReals.sig_forall_dec",
"FunctionalExtensionality.functional_extensionality_dep"
]
],
"C117_unique_color": [
"ColTheorems",
[
"ClassicalDedekindReals.sig_not_dec",
"ClassicalDedekindReals.sig_forall_dec",
"FunctionalExtensionality.functional_extensionality_dep"
]
],
"C118_direction_refuted": [
"RngTheorems",
[
"ClassicalDedekindReals.sig_forall_dec",
"FunctionalExtensionality.functional_extensionality_dep"
]
],
"C118_ends": [
"RngTheorems",
[
"ClassicalDedekindReals.sig_forall_dec",
"FunctionalExtensionality.functional_extensionality_dep"
]
],
"C118_increment_partial": [
"RngTheorems",
[
"ClassicalDedekindReals.sig_forall_dec",
"FunctionalExtensionality.functional_extensionality_dep"
]
],
"C118_postfix_refuted": [
"RngTheorems",
[
"ClassicalDedekindReals.sig_forall_dec",
"FunctionalExtensionality.functional_extensionality_dep"
]
],
"C118_single_refuted": [
"RngTheorems",
[
"ClassicalDedekindReals.sig_forall_dec",
"FunctionalExtensionality.functional_extensionality_dep"
]
],
"C118_size_refuted": [
"RngTheorems",
[
"ClassicalDedekindReals.sig_forall_dec",
"FunctionalExtensionality.functional_extensionality_dep"
]
],
"C118_steps": [
"RngTheorems",
[
"ClassicalDedekindReals.sig_forall_dec",
"FunctionalExtensionality.functional_extensionality_dep"
]
],
"C119_float_close_partial": [
"RngTheorems",
[
"ClassicalDedekindReals.sig_not_dec",
"ClassicalDedekindReals.sig_forall_dec",
"FunctionalExtensionality.functional_extensionality_dep",
"Classical_Prop.classic"
]
],
"C119_float_endless_refuted": [
"RngTheorems",
[
"ClassicalDedekindReals.sig_not_dec",
"ClassicalDedekindReals.sig_forall_dec",
"FunctionalExtensionality.functional_extensionality_dep",
"Classical_Prop.classic"
]
],
"C119_float_partial": [
"RngTheorems",
[
"ClassicalDedekindReals.sig_not_dec",
"ClassicalDedekindReals.sig_forall_dec",
"FunctionalExtensionality.functional_extensionality_dep",
"Classical_Prop.classic"
]
],
"C11_circular_deque_partial": [
"RingTheorems",
[]
],
"C11_const_back": [
"BoxTheorems",
[]
],
"C11_const_back_refuted": [
"RingTheorems",
[]
],
"C11_push_back_full_refuted": [
"RingTheorems",
[]
],
"C11_reserve_partial": [
"RingTheorems",
[]
],
"C11_reserve_refuted": [
"RingTheorems",
[]
],
"C120_evaluate": [
"RngTheorems",
[
"ClassicalDedekindReals.sig_forall_dec",
"FunctionalExtensionality.functional_extensionality_dep"
]
],
"C121_constant_refuted": [
"RngTheorems",
[
"ClassicalDedekindReals.sig_forall_dec",
"FunctionalExtensionality.functional_extensionality_dep"
]
],
"C121_far_refuted": [
"RngTheorems",
[
"ClassicalDedekindReals.sig_forall_dec",
"FunctionalExtensionality.functional_extensionality_dep"
]
],
"C121_plot_partial": [
"RngTheorems",
[
"ClassicalDedekindReals.sig_forall_dec",
"FunctionalExtensionality.functional_extensionality_dep"
]
],
"C122_container": [
"IdxTheorems",
[]
],
"C122_large_container_refuted": [
"IdxTheorems",
[]
],
"C122_make": [
"IdxTheorems",
[]
],
"C122_nothing_stays_nothing_refuted": [
"IdxTheorems",
[]
],
"C122_order": [
"IdxTheorems",
[]
],
"C122_step": [
"IdxTheorems",
[]
],
"C123_reversed_refuted": [
"IdxTheorems",
[]
],
"C123_span": [
"IdxTheorems",
[]
],
"C124_clear": [
"IdxTheorems",
[]
],
"C124_erase": [
"IdxTheorems",
[]
],
"C124_erase_span": [
"IdxTheorems",
[]
],
"C124_index_erase_refuted": [
"IdxTheorems",
[]
],
"C124_pop": [
"IdxTheorems",
[]
],
"C124_position": [
"IdxTheorems",
[]
],
"C124_push": [
"IdxTheorems",
[]
],
"C124_walk": [
"IdxTheorems",
[]
],
"C125_escape": [
"TstTheorems",
[]
],
"C125_rerun_refuted": [
"TstTheorems",
[]
],
"C125_run": [
"TstTheorems",
[]
],
"C125_silent_exception_refuted": [
"TstTheorems",
[]
],
"C125_tests": [
"TstTheorems",
[]
],
"C126_async": [
"TstTheorems",
[]
],
"C127_dictionary": [
"DicTheorems",
[]
],
"C127_inverse": [
"DicTheorems",
[]
],
"C127_inverse_without_uniqueness_refuted": [
"DicTheorems",
[]
],
"C127_lookup": [
"DicTheorems",
[]
],
"C128_stack": [
"DicTheorems",
[]
],
"C129_is_pattern": [
"DicTheorems",
[]
],
"C129_matcher": [
"DicTheorems",
[]
],
"C129_text_refuted": [
"DicTheorems",
[]
],
"C12_circular_buffer": [
"RingTheorems",
[]
],
"C12_empty_buffer_refuted": [
"RingTheorems",
[]
],
"C12_fewer_channels_refuted": [
"BoxTheorems",
[]
],
"C12_resize": [
"BoxTheorems",
[]
],
"C130_every_name_refuted": [
"DicTheorems",
[]
],
"C130_identifier": [
"DicTheorems",
[]
],
"C130_no_arguments_refuted": [
"DicTheorems",
[]
],
"C130_type_name": [
"DicTheorems",
[]
],
"C131_push_back": [
"IoTheorems",
[]
],
"C131_stream": [
"IoTheorems",
[]
],
"C132_last_refuted": [
"IoTheorems",
[]
],
"C132_missing": [
"IoTheorems",
[]
],
"C132_read_partial": [
"IoTheorems",
[]
],
"C133_recording": [
"IoTheorems",
[]
],
"C133_sentinel_refuted": [
"IoTheorems",
[]
],
"C134_total": [
"XmlTheorems",
[]
],
"C135_document": [
"XmlTheorems",
[]
],
"C135_preamble": [
"XmlTheorems",
[]
],
"C136_every_tree_refuted": [
"XmlTheorems",
[]
],
"C136_roundtrip_partial": [
"XmlTheorems",
[]
],
"C137_malformed_refuted": [
"XmlTheorems",
[]
],
"C137_reference": [
"XmlTheorems",
[]
],
"C138_accepts": [
"FltTheorems",
[]
],
"C138_decimal": [
"FltTheorems",
[
"ClassicalDedekindReals.sig_not_dec",
"ClassicalDedekindReals.sig_forall_dec",
"FunctionalExtensionality.functional_extensionality_dep",
"Classical_Prop.classic"
]
],
"C138_hexadecimal": [
"FltTheorems",
[
"ClassicalDedekindReals.sig_not_dec",
"ClassicalDedekindReals.sig_forall_dec",
"FunctionalExtensionality.functional_extensionality_dep",
"Classical_Prop.classic"
]
],
"C138_refused": [
"FltTheorems",
[]
],
"C138_words": [
"FltTheorems",
[]
],
"C139_integer": [
"FltTheorems",
[
"ClassicalDedekindReals.sig_not_dec",
"ClassicalDedekindReals.sig_forall_dec",
"FunctionalExtensionality.functional_extensionality_dep",
"Classical_Prop.classic"
]
],
"C139_special": [
"FltTheorems",
[]
],
"C139_text": [
"FltTheorems",
[
"ClassicalDedekindReals.sig_not_dec",
"ClassicalDedekindReals.sig_forall_dec",
"FunctionalExtensionality.functional_extensionality_dep",
"Classical_Prop.classic"
]
],
"C13_constructors": [
"FlagTheorems",
[]
],
"C13_flag_set": [
"FlagTheorems",
[]
],
"C140_close": [
"FltTheorems",
[
"ClassicalDedekindReals.sig_not_dec",
"ClassicalDedekindReals.sig_forall_dec",
"FunctionalExtensionality.functional_extensionality_dep",
"Classical_Prop.classic"
]
],
"C140_exact_refuted": [
"FltTheorems",
[]
],
"C140_six": [
"FltTheorems",
[
"ClassicalDedekindReals.sig_not_dec",
"ClassicalDedekindReals.sig_forall_dec",
"FunctionalExtensionality.functional_extensionality_dep",
"Classical_Prop.classic"
]
],
"C140_special": [
"FltTheorems",
[]
],
"C141_order": [
"FltTheorems",
[
"ClassicalDedekindReals.sig_not_dec",
"ClassicalDedekindReals.sig_forall_dec",
"FunctionalExtensionality.functional_extensionality_dep",
"Classical_Prop.classic"
]
],
"C141_strict_refuted": [
"FltTheorems",
[
"ClassicalDedekindReals.sig_forall_dec",
"FunctionalExtensionality.functional_extensionality_dep"
]
],
"C142_stable_partial": [
"FltTheorems",
[
"ClassicalDedekindReals.sig_not_dec",
"ClassicalDedekindReals.sig_forall_dec",
"FunctionalExtensionality.functional_extensionality_dep",
"Classical_Prop.classic"
]
],
"C142_subnormal_refuted": [
"FltTheorems",
[]
],
"C142_typed": [
"FltTheorems",
[
"ClassicalDedekindReals.sig_not_dec",
"ClassicalDedekindReals.sig_forall_dec",
"FunctionalExtensionality.functional_extensionality_dep",
"Classical_Prop.classic"
]
],
"C143_carriage_return_refuted": [
"TblTheorems",
[]
],
"C143_spaces_refuted": [
"TblTheorems",
[]
],
"C143_storage": [
"TblTheorems",
[
"ClassicalDedekindReals.sig_not_dec",
"ClassicalDedekindReals.sig_forall_dec",
"FunctionalExtensionality.functional_extensionality_dep",
"Classical_Prop.classic"
]
],
"C143_unlabelled_refuted": [
"TblTheorems",
[]
],
"C144_lines": [
"TblTheorems",
[
"ClassicalDedekindReals.sig_not_dec",
"ClassicalDedekindReals.sig_forall_dec",
"FunctionalExtensionality.functional_extensionality_dep",
"Classical_Prop.classic"
]
],
"C144_total": [
"TblTheorems",
[]
],
"C145_infinite_refuted": [
"TblTheorems",
[]
],
"C145_table": [
"TblTheorems",
[
"ClassicalDedekindReals.sig_not_dec",
"ClassicalDedekindReals.sig_forall_dec",
"FunctionalExtensionality.functional_extensionality_dep",
"Classical_Prop.classic"
]
],
"C146_fields": [
"TblTheorems",
[]
],
"C146_missing_refuted": [
"TblTheorems",
[]
],
"C146_quat": [
"TblTheorems",
[]
],
"C146_stale_refuted": [
"TblTheorems",
[]
],
"C146_vec": [
"TblTheorems",
[]
],
"C147_between": [
"TblTheorems",
[
"ClassicalDedekindReals.sig_forall_dec",
"FunctionalExtensionality.functional_extensionality_dep"
]
],
"C147_beyond": [
"TblTheorems",
[
"ClassicalDedekindReals.sig_forall_dec",
"FunctionalExtensionality.functional_extensionality_dep"
]
],
"C147_last_refuted": [
"TblTheorems",
[
"ClassicalDedekindReals.sig_forall_dec",
"FunctionalExtensionality.functional_extensionality_dep"
]
],
"C148_first_error_refuted": [
"SerTheorems",
[]
],
"C148_good_means_loaded": [
"SerTheorems",
[]
],
"C148_same_tree": [
"SerTheorems",
[]
],
"C148_same_tree_as": [
"SerTheorems",
[]
],
"C149_absent_partial": [
"SerTheorems",
[]
],
"C149_no_exception_refuted": [
"SerTheorems",
[]
],
"C149_zml_returns_partial": [
"SerTheorems",
[]
],
"C14_index": [
"PnTheorems",
[]
],
"C14_query_get": [
"PnTheorems",
[]
],
"C14_set_query": [
"PnTheorems",
[]
],
"C150_ini_file": [
"SerTheorems",
[]
],
"C150_xml_file": [
"SerTheorems",
[]
],
"C150_zml_file": [
"SerTheorems",
[]
],
"C151_false_means_untouched": [
"SerTheorems",
[]
],
"C151_keeps_old_file_refuted": [
"SerTheorems",
[]
],
"C151_refused": [
"SerTheorems",
[]
],
"C151_result_refuted": [
"SerTheorems",
[]
],
"C151_true_means_written": [
"SerTheorems",
[]
],
"C152_cycle_refuted": [
"SerTheorems",
[]
],
"C152_deeper": [
"SerTheorems",
[]
],
"C152_include_saved": [
"SerTheorems",
[]
],
"C152_included_files_refuted": [
"SerTheorems",
[]
],
"C153_meaning": [
"ZmlDocTheorems",
[]
],
"C154_extend_refuted": [
"ZmlDocTheorems",
[]
],
"C154_latest": [
"ZmlDocTheorems",
[]
],
"C154_scope": [
"ZmlDocTheorems",
[]
],
"C155_reference": [
"ZmlDocTheorems",
[]
],
"C156_more": [
"ZmlDocTheorems",
[]
],
"C157_defined": [
"ZmlDocTheorems",
[]
],
"C157_refuted": [
"ZmlDocTheorems",
[]
],
"C158_console": [
"SnkTheorems",
[]
],
"C158_console_lines": [
"SnkTheorems",
[]
],
"C158_log_file": [
"SnkTheorems",
[]
],
"C158_refuted": [
"SnkTheorems",
[]
],
"C158_stream": [
"SnkTheorems",
[]
],
"C159_full_device": [
"SnkTheorems",
[]
],
"C159_not_opened": [
"SnkTheorems",
[]
],
"C15_erase": [
"PnTheorems",
[]
],
"C15_erase_by_index_refuted": [
"PnTheorems",
[]
],
"C15_erase_other_delimiter_refuted": [
"PnTheorems",
[]
],
"C15_erase_query_partial": [
"PnTheorems",
[]
],
"C160_exclusive": [
"SnkTheorems",
[]
],
"C160_stream_refuted": [
"SnkTheorems",
[]
],
"C160_whole": [
"SnkTheorems",
[]
],
"C161_contents": [
"FilTheorems",
[]
],
"C161_errors": [
"FilTheorems",
[]
],
"C161_folders": [
"FilTheorems",
[]
],
"C161_full_refuted": [
"FilTheorems",
[]
],
"C161_load": [
"FilTheorems",
[]
],
"C162_append": [
"FilTheorems",
[]
],
"C162_complete": [
"FilTheorems",
[]
],
"C162_save": [
"FilTheorems",
[]
],
"C162_save_refuted": [
"FilTheorems",
[]
],
"C163_files_only_refuted": [
"FilTheorems",
[]
],
"C163_find": [
"FilTheorems",
[]
],
"C164_accurate": [
"DurTheorems",
[
"ClassicalDedekindReals.sig_not_dec",
"ClassicalDedekindReals.sig_forall_dec",
"FunctionalExtensionality.functional_extensionality_dep",
"Classical_Prop.classic"
]
],
"C164_from_seconds": [
"DurTheorems",
[
"ClassicalDedekindReals.sig_not_dec",
"ClassicalDedekindReals.sig_forall_dec",
"FunctionalExtensionality.functional_extensionality_dep",
"Classical_Prop.classic"
]
],
"C164_milliseconds_kept": [
"DurTheorems",
[
"ClassicalDedekindReals.sig_not_dec",
"ClassicalDedekindReals.sig_forall_dec",
"FunctionalExtensionality.functional_extensionality_dep",
"Classical_Prop.classic"
]
],
"C164_ordered": [
"DurTheorems",
[
"ClassicalDedekindReals.sig_not_dec",
"ClassicalDedekindReals.sig_forall_dec",
"FunctionalExtensionality.functional_extensionality_dep",
"Classical_Prop.classic"
]
],
"C164_seconds_kept": [
"DurTheorems",
[
"ClassicalDedekindReals.sig_not_dec",
"ClassicalDedekindReals.sig_forall_dec",
"FunctionalExtensionality.functional_extensionality_dep",
"Classical_Prop.classic"
]
],
"C164_seconds_kept_refuted": [
"DurTheorems",
[
"ClassicalDedekindReals.sig_not_dec",
"ClassicalDedekindReals.sig_forall_dec",
"FunctionalExtensionality.functional_extensionality_dep",
"Classical_Prop.classic"
]
],
"C164_too_large_refuted": [
"DurTheorems",
[
"ClassicalDedekindReals.sig_not_dec",
"ClassicalDedekindReals.sig_forall_dec",
"FunctionalExtensionality.functional_extensionality_dep",
"Classical_Prop.classic"
]
],
"C164_whole": [
"DurTheorems",
[
"ClassicalDedekindReals.sig_not_dec",
"ClassicalDedekindReals.sig_forall_dec",
"FunctionalExtensionality.functional_extensionality_dep",
"Classical_Prop.classic"
]
],
"C165_clock": [
"DurTheorems",
[
"ClassicalDedekindReals.sig_not_dec",
"ClassicalDedekindReals.sig_forall_dec",
"FunctionalExtensionality.functional_extensionality_dep",
"Classical_Prop.classic"
]
],
"C165_clock_read_refuted": [
"DurTheorems",
[
"ClassicalDedekindReals.sig_not_dec",
"ClassicalDedekindReals.sig_forall_dec",
"FunctionalExtensionality.functional_extensionality_dep",
"Classical_Prop.classic"
]
],
"C165_decimals": [
"DurTheorems",
[
"ClassicalDedekindReals.sig_not_dec",
"ClassicalDedekindReals.sig_forall_dec",
"FunctionalExtensionality.functional_extensionality_dep",
"Classical_Prop.classic"
]
],
"C165_hide_refuted": [
"DurTheorems",
[
"ClassicalDedekindReals.sig_not_dec",
"ClassicalDedekindReals.sig_forall_dec",
"FunctionalExtensionality.functional_extensionality_dep",
"Classical_Prop.classic"
]
],
"C165_millisecond": [
"DurTheorems",
[
"ClassicalDedekindReals.sig_not_dec",
"ClassicalDedekindReals.sig_forall_dec",
"FunctionalExtensionality.functional_extensionality_dep",
"Classical_Prop.classic"
]
],
"C165_nanosecond": [
"DurTheorems",
[
"ClassicalDedekindReals.sig_not_dec",
"ClassicalDedekindReals.sig_forall_dec",
"FunctionalExtensionality.functional_extensionality_dep",
"Classical_Prop.classic"
]
],
"C165_read": [
"DurTheorems",
[
"ClassicalDedekindReals.sig_not_dec",
"ClassicalDedekindReals.sig_forall_dec",
"FunctionalExtensionality.functional_extensionality_dep",
"Classical_Prop.classic"
]
],
"C166_decimals_refuted": [
"DurTheorems",
[
"ClassicalDedekindReals.sig_not_dec",
"ClassicalDedekindReals.sig_forall_dec",
"FunctionalExtensionality.functional_extensionality_dep",
"Classical_Prop.classic"
]
],
"C166_report": [
"DurTheorems",
[
"ClassicalDedekindReals.sig_not_dec",
"ClassicalDedekindReals.sig_forall_dec",
"FunctionalExtensionality.functional_extensionality_dep",
"Classical_Prop.classic"
]
],
"C167_center_refuted": [
"DblTheorems",
[
"ClassicalDedekindReals.sig_not_dec",
"ClassicalDedekindReals.sig_forall_dec",
"FunctionalExtensionality.functional_extensionality_dep",
"Classical_Prop.classic"
]
],
"C167_clamp": [
"DblTheorems",
[
"ClassicalDedekindReals.sig_not_dec",
"ClassicalDedekindReals.sig_forall_dec",
"FunctionalExtensionality.functional_extensionality_dep",
"Classical_Prop.classic"
]
],
"C167_extend": [
"DblTheorems",
[
"ClassicalDedekindReals.sig_not_dec",
"ClassicalDedekindReals.sig_forall_dec",
"FunctionalExtensionality.functional_extensionality_dep",
"Classical_Prop.classic"
]
],
"C167_extend_least": [
"DblTheorems",
[
"ClassicalDedekindReals.sig_not_dec",
"ClassicalDedekindReals.sig_forall_dec",
"FunctionalExtensionality.functional_extensionality_dep",
"Classical_Prop.classic"
]
],
"C167_middle": [
"DblTheorems",
[
"ClassicalDedekindReals.sig_not_dec",
"ClassicalDedekindReals.sig_forall_dec",
"FunctionalExtensionality.functional_extensionality_dep",
"Classical_Prop.classic"
]
],
"C167_nan_refuted": [
"DblTheorems",
[
"ClassicalDedekindReals.sig_not_dec",
"ClassicalDedekindReals.sig_forall_dec",
"FunctionalExtensionality.functional_extensionality_dep",
"Classical_Prop.classic"
]
],
"C167_violation": [
"DblTheorems",
[
"ClassicalDedekindReals.sig_not_dec",
"ClassicalDedekindReals.sig_forall_dec",
"FunctionalExtensionality.functional_extensionality_dep",
"Classical_Prop.classic"
]
],
"C168_remainder": [
"DblTheorems",
[
"ClassicalDedekindReals.sig_not_dec",
"ClassicalDedekindReals.sig_forall_dec",
"FunctionalExtensionality.functional_extensionality_dep",
"Classical_Prop.classic"
]
],
"C168_upper_refuted": [
"DblTheorems",
[
"ClassicalDedekindReals.sig_not_dec",
"ClassicalDedekindReals.sig_forall_dec",
"FunctionalExtensionality.functional_extensionality_dep",
"Classical_Prop.classic"
]
],
"C168_wrap": [
"DblTheorems",
[
"ClassicalDedekindReals.sig_not_dec",
"ClassicalDedekindReals.sig_forall_dec",
"FunctionalExtensionality.functional_extensionality_dep",
"Classical_Prop.classic"
]
],
"C169_end_refuted": [
"DblTheorems",
[
"ClassicalDedekindReals.sig_not_dec",
"ClassicalDedekindReals.sig_forall_dec",
"FunctionalExtensionality.functional_extensionality_dep",
"Classical_Prop.classic"
]
],
"C169_float_refuted": [
"DblTheorems",
[
"ClassicalDedekindReals.sig_not_dec",
"ClassicalDedekindReals.sig_forall_dec",
"FunctionalExtensionality.functional_extensionality_dep",
"Classical_Prop.classic"
]
],
"C169_lerp": [
"DblTheorems",
[
"ClassicalDedekindReals.sig_not_dec",
"ClassicalDedekindReals.sig_forall_dec",
"FunctionalExtensionality.functional_extensionality_dep",
"Classical_Prop.classic"
]
],
"C169_lerp_monotone": [
"DblTheorems",
[
"ClassicalDedekindReals.sig_not_dec",
"ClassicalDedekindReals.sig_forall_dec",
"FunctionalExtensionality.functional_extensionality_dep",
"Classical_Prop.classic"
]
],
"C169_map_keys": [
"DblTheorems",
[
"ClassicalDedekindReals.sig_not_dec",
"ClassicalDedekindReals.sig_forall_dec",
"FunctionalExtensionality.functional_extensionality_dep",
"Classical_Prop.classic"
]
],
"C169_map_line": [
"DblTheorems",
[
"ClassicalDedekindReals.sig_not_dec",
"ClassicalDedekindReals.sig_forall_dec",
"FunctionalExtensionality.functional_extensionality_dep",
"Classical_Prop.classic"
]
],
"C169_map_monotone": [
"DblTheorems",
[
"ClassicalDedekindReals.sig_not_dec",
"ClassicalDedekindReals.sig_forall_dec",
"FunctionalExtensionality.functional_extensionality_dep",
"Classical_Prop.classic"
]
],
"C169_map_outside": [
"DblTheorems",
[
"ClassicalDedekindReals.sig_not_dec",
"ClassicalDedekindReals.sig_forall_dec",
"FunctionalExtensionality.functional_extensionality_dep",
"Classical_Prop.classic"
]
],
"C169_monotone_refuted": [
"DblTheorems",
[
"ClassicalDedekindReals.sig_not_dec",
"ClassicalDedekindReals.sig_forall_dec",
"FunctionalExtensionality.functional_extensionality_dep",
"Classical_Prop.classic"
]
],
"C169_pieces_line": [
"DblTheorems",
[
"ClassicalDedekindReals.sig_not_dec",
"ClassicalDedekindReals.sig_forall_dec",
"FunctionalExtensionality.functional_extensionality_dep",
"Classical_Prop.classic"
]
],
"C169_pieces_points": [
"DblTheorems",
[
"ClassicalDedekindReals.sig_not_dec",
"ClassicalDedekindReals.sig_forall_dec",
"FunctionalExtensionality.functional_extensionality_dep",
"Classical_Prop.classic"
]
],
"C169_points_refuted": [
"DblTheorems",
[
"ClassicalDedekindReals.sig_not_dec",
"ClassicalDedekindReals.sig_forall_dec",
"FunctionalExtensionality.functional_extensionality_dep",
"Classical_Prop.classic"
]
],
"C16_empty": [
"PnTheorems",
[]
],
"C16_empty_overwrite_refuted": [
"PnTheorems",
[]
],
"C16_merge": [
"PnTheorems",
[]
],
"C16_self": [
"PnTheorems",
[]
],
"C16_self_duplicate_refuted": [
"PnTheorems",
[]
],
"C16_unmentioned": [
"PnTheorems",
[]
],
"C170_between_refuted": [
"DblTheorems",
[
"ClassicalDedekindReals.sig_not_dec",
"ClassicalDedekindReals.sig_forall_dec",
"FunctionalExtensionality.functional_extensionality_dep",
"Classical_Prop.classic"
]
],
"C170_count": [
"DblTheorems",
[
"ClassicalDedekindReals.sig_not_dec",
"ClassicalDedekindReals.sig_forall_dec",
"FunctionalExtensionality.functional_extensionality_dep",
"Classical_Prop.classic"
]
],
"C170_mean": [
"DblTheorems",
[
"ClassicalDedekindReals.sig_not_dec",
"ClassicalDedekindReals.sig_forall_dec",
"FunctionalExtensionality.functional_extensionality_dep",
"Classical_Prop.classic"
]
],
"C170_none": [
"DblTheorems",
[
"ClassicalDedekindReals.sig_not_dec",
"ClassicalDedekindReals.sig_forall_dec",
"FunctionalExtensionality.functional_extensionality_dep",
"Classical_Prop.classic"
]
],
"C171_any_column_refuted": [
"TxtTheorems",
[]
],
"C171_given_column": [
"TxtTheorems",
[]
],
"C171_identifies": [
"TxtTheorems",
[]
],
"C171_lines_refuted": [
"TxtTheorems",
[]
],
"C171_marks": [
"TxtTheorems",
[]
],
"C171_root_value_refuted": [
"TxtTheorems",
[]
],
"C171_text": [
"TxtTheorems",
[]
],
"C172_agree": [
"TxtTheorems",
[]
],
"C172_empty": [
"TxtTheorems",
[]
],
"C172_log": [
"TxtTheorems",
[]
],
"C172_root_refuted": [
"TxtTheorems",
[]
],
"C172_text": [
"TxtTheorems",
[]
],
"C173_messages": [
"TxtTheorems",
[]
],
"C173_other_keys_refuted": [
"TxtTheorems",
[]
],
"C174_empty_refuted": [
"TxtTheorems",
[]
],
"C174_spaces_refuted": [
"TxtTheorems",
[]
],
"C174_unique_refuted": [
"TxtTheorems",
[]
],
"C174_zml": [
"TxtTheorems",
[]
],
"C175_instant_refuted": [
"RepTheorems",
[
"ClassicalDedekindReals.sig_not_dec",
"ClassicalDedekindReals.sig_forall_dec",
"FunctionalExtensionality.functional_extensionality_dep",
"Classical_Prop.classic"
]
],
"C175_lines": [
"RepTheorems",
[
"ClassicalDedekindReals.sig_not_dec",
"ClassicalDedekindReals.sig_forall_dec",
"FunctionalExtensionality.functional_extensionality_dep",
"Classical_Prop.classic"
]
],
"C175_stops": [
"RepTheorems",
[
"ClassicalDedekindReals.sig_not_dec",
"ClassicalDedekindReals.sig_forall_dec",
"FunctionalExtensionality.functional_extensionality_dep",
"Classical_Prop.classic"
]
],
"C176_text": [
"RepTheorems",
[
"ClassicalDedekindReals.sig_not_dec",
"ClassicalDedekindReals.sig_forall_dec",
"FunctionalExtensionality.functional_extensionality_dep",
"Classical_Prop.classic"
]
],
"C177_messages": [
"RepTheorems",
[
"ClassicalDedekindReals.sig_not_dec",
"ClassicalDedekindReals.sig_forall_dec",
"FunctionalExtensionality.functional_extensionality_dep",
"Classical_Prop.classic"
]
],
"C178_length": [
"VecTheorems",
[
"ClassicalDedekindReals.sig_not_dec",
"ClassicalDedekindReals.sig_forall_dec",
"FunctionalExtensionality.functional_extensionality_dep",
"Classical_Prop.classic"
]
],
"C178_normalize": [
"VecTheorems",
[
"ClassicalDedekindReals.sig_not_dec",
"ClassicalDedekindReals.sig_forall_dec",
"FunctionalExtensionality.functional_extensionality_dep",
"Classical_Prop.classic"
]
],
"C178_overflow_refuted": [
"VecTheorems",
[
"ClassicalDedekindReals.sig_not_dec",
"ClassicalDedekindReals.sig_forall_dec",
"FunctionalExtensionality.functional_extensionality_dep",
"Classical_Prop.classic"
]
],
"C178_short": [
"VecTheorems",
[
"ClassicalDedekindReals.sig_not_dec",
"ClassicalDedekindReals.sig_forall_dec",
"FunctionalExtensionality.functional_extensionality_dep",
"Classical_Prop.classic"
]
],
"C178_underflow_refuted": [
"VecTheorems",
[
"ClassicalDedekindReals.sig_not_dec",
"ClassicalDedekindReals.sig_forall_dec",
"FunctionalExtensionality.functional_extensionality_dep",
"Classical_Prop.classic"
]
],
"C179_accepted": [
"VecTheorems",
[
"ClassicalDedekindReals.sig_not_dec",
"ClassicalDedekindReals.sig_forall_dec",
"FunctionalExtensionality.functional_extensionality_dep",
"Classical_Prop.classic"
]
],
"C179_normalize": [
"VecTheorems",
[
"ClassicalDedekindReals.sig_not_dec",
"ClassicalDedekindReals.sig_forall_dec",
"FunctionalExtensionality.functional_extensionality_dep",
"Classical_Prop.classic"
]
],
"C179_overflow_refuted": [
"VecTheorems",
[
"ClassicalDedekindReals.sig_not_dec",
"ClassicalDedekindReals.sig_forall_dec",
"FunctionalExtensionality.functional_extensionality_dep",
"Classical_Prop.classic"
]
],
"C179_try_fast": [
"VecTheorems",
[
"ClassicalDedekindReals.sig_not_dec",
"ClassicalDedekindReals.sig_forall_dec",
"FunctionalExtensionality.functional_extensionality_dep",
"Classical_Prop.classic"
]
],
"C179_zero_refuted": [
"VecTheorems",
[
"ClassicalDedekindReals.sig_not_dec",
"ClassicalDedekindReals.sig_forall_dec",
"FunctionalExtensionality.functional_extensionality_dep",
"Classical_Prop.classic"
]
],
"C17_count": [
"PnTheorems",
[]
],
"C17_flag_unique": [
"PnTheorems",
[]
],
"C17_flags": [
"PnTheorems",
[]
],
"C180_chain": [
"VecTheorems",
[
"ClassicalDedekindReals.sig_not_dec",
"ClassicalDedekindReals.sig_forall_dec",
"FunctionalExtensionality.functional_extensionality_dep",
"Classical_Prop.classic"
]
],
"C180_product": [
"VecTheorems",
[
"ClassicalDedekindReals.sig_not_dec",
"ClassicalDedekindReals.sig_forall_dec",
"FunctionalExtensionality.functional_extensionality_dep",
"Classical_Prop.classic"
]
],
"C180_product_refuted": [
"VecTheorems",
[
"ClassicalDedekindReals.sig_not_dec",
"ClassicalDedekindReals.sig_forall_dec",
"FunctionalExtensionality.functional_extensionality_dep",
"Classical_Prop.classic"
]
],
"C181_formula": [
"VecTheorems",
[
"ClassicalDedekindReals.sig_not_dec",
"ClassicalDedekindReals.sig_forall_dec",
"FunctionalExtensionality.functional_extensionality_dep",
"Classical_Prop.classic"
]
],
"C181_length": [
"VecTheorems",
[
"ClassicalDedekindReals.sig_not_dec",
"ClassicalDedekindReals.sig_forall_dec",
"FunctionalExtensionality.functional_extensionality_dep",
"Classical_Prop.classic"
]
],
"C181_rotate": [
"VecTheorems",
[
"ClassicalDedekindReals.sig_not_dec",
"ClassicalDedekindReals.sig_forall_dec",
"FunctionalExtensionality.functional_extensionality_dep",
"Classical_Prop.classic"
]
],
"C181_rotation": [
"VecTheorems",
[
"ClassicalDedekindReals.sig_forall_dec",
"FunctionalExtensionality.functional_extensionality_dep"
]
],
"C182_equal": [
"VecTheorems",
[
"ClassicalDedekindReals.sig_not_dec",
"ClassicalDedekindReals.sig_forall_dec",
"FunctionalExtensionality.functional_extensionality_dep",
"Classical_Prop.classic"
]
],
"C182_infinity_refuted": [
"VecTheorems",
[
"ClassicalDedekindReals.sig_not_dec",
"ClassicalDedekindReals.sig_forall_dec",
"FunctionalExtensionality.functional_extensionality_dep",
"Classical_Prop.classic"
]
],
"C182_itself": [
"VecTheorems",
[
"ClassicalDedekindReals.sig_not_dec",
"ClassicalDedekindReals.sig_forall_dec",
"FunctionalExtensionality.functional_extensionality_dep",
"Classical_Prop.classic"
]
],
"C182_symmetric_refuted": [
"VecTheorems",
[
"ClassicalDedekindReals.sig_not_dec",
"ClassicalDedekindReals.sig_forall_dec",
"FunctionalExtensionality.functional_extensionality_dep",
"Classical_Prop.classic"
]
],
"C182_zero_refuted": [
"VecTheorems",
[
"ClassicalDedekindReals.sig_not_dec",
"ClassicalDedekindReals.sig_forall_dec",
"FunctionalExtensionality.functional_extensionality_dep",
"Classical_Prop.classic"
]
],
"C183_empty": [
"FrmTheorems",
[
"ClassicalDedekindReals.sig_not_dec",
"ClassicalDedekindReals.sig_forall_dec",
"FunctionalExtensionality.functional_extensionality_dep",
"Classical_Prop.classic"
]
],
"C183_exact_refuted": [
"FrmTheorems",
[
"ClassicalDedekindReals.sig_not_dec",
"ClassicalDedekindReals.sig_forall_dec",
"FunctionalExtensionality.functional_extensionality_dep",
"Classical_Prop.classic"
]
],
"C183_first_refuted": [
"FrmTheorems",
[
"ClassicalDedekindReals.sig_not_dec",
"ClassicalDedekindReals.sig_forall_dec",
"FunctionalExtensionality.functional_extensionality_dep",
"Classical_Prop.classic"
]
],
"C183_nan_refuted": [
"FrmTheorems",
[
"ClassicalDedekindReals.sig_not_dec",
"ClassicalDedekindReals.sig_forall_dec",
"FunctionalExtensionality.functional_extensionality_dep",
"Classical_Prop.classic"
]
],
"C183_nearest": [
"FrmTheorems",
[
"ClassicalDedekindReals.sig_not_dec",
"ClassicalDedekindReals.sig_forall_dec",
"FunctionalExtensionality.functional_extensionality_dep",
"Classical_Prop.classic"
]
],
"C183_present": [
"FrmTheorems",
[
"ClassicalDedekindReals.sig_not_dec",
"ClassicalDedekindReals.sig_forall_dec",
"FunctionalExtensionality.functional_extensionality_dep",
"Classical_Prop.classic"
]
],
"C184_between": [
"FrmTheorems",
[
"ClassicalDedekindReals.sig_not_dec",
"ClassicalDedekindReals.sig_forall_dec",
"FunctionalExtensionality.functional_extensionality_dep",
"Classical_Prop.classic"
]
],
"C184_beyond": [
"FrmTheorems",
[
"ClassicalDedekindReals.sig_not_dec",
"ClassicalDedekindReals.sig_forall_dec",
"FunctionalExtensionality.functional_extensionality_dep",
"Classical_Prop.classic"
]
],
"C184_constant_refuted": [
"FrmTheorems",
[
"ClassicalDedekindReals.sig_not_dec",
"ClassicalDedekindReals.sig_forall_dec",
"FunctionalExtensionality.functional_extensionality_dep",
"Classical_Prop.classic"
]
],
"C184_index_refuted": [
"FrmTheorems",
[
"ClassicalDedekindReals.sig_not_dec",
"ClassicalDedekindReals.sig_forall_dec",
"FunctionalExtensionality.functional_extensionality_dep",
"Classical_Prop.classic"
]
],
"C184_infinite_refuted": [
"FrmTheorems",
[
"ClassicalDedekindReals.sig_not_dec",
"ClassicalDedekindReals.sig_forall_dec",
"FunctionalExtensionality.functional_extensionality_dep",
"Classical_Prop.classic"
]
],
"C184_monotone_refuted": [
"FrmTheorems",
[
"ClassicalDedekindReals.sig_not_dec",
"ClassicalDedekindReals.sig_forall_dec",
"FunctionalExtensionality.functional_extensionality_dep",
"Classical_Prop.classic"
]
],
"C185_between": [
"FrmTheorems",
[
"ClassicalDedekindReals.sig_not_dec",
"ClassicalDedekindReals.sig_forall_dec",
"FunctionalExtensionality.functional_extensionality_dep",
"Classical_Prop.classic"
]
],
"C185_far_refuted": [
"FrmTheorems",
[
"ClassicalDedekindReals.sig_not_dec",
"ClassicalDedekindReals.sig_forall_dec",
"FunctionalExtensionality.functional_extensionality_dep",
"Classical_Prop.classic"
]
],
"C185_monotone": [
"FrmTheorems",
[
"ClassicalDedekindReals.sig_not_dec",
"ClassicalDedekindReals.sig_forall_dec",
"FunctionalExtensionality.functional_extensionality_dep",
"Classical_Prop.classic"
]
],
"C185_outside": [
"FrmTheorems",
[
"ClassicalDedekindReals.sig_not_dec",
"ClassicalDedekindReals.sig_forall_dec",
"FunctionalExtensionality.functional_extensionality_dep",
"Classical_Prop.classic"
]
],
"C186_large_refuted": [
"FrmTheorems",
[
"ClassicalDedekindReals.sig_not_dec",
"ClassicalDedekindReals.sig_forall_dec",
"FunctionalExtensionality.functional_extensionality_dep",
"Classical_Prop.classic"
]
],
"C186_negative_refuted": [
"FrmTheorems",
[
"ClassicalDedekindReals.sig_not_dec",
"ClassicalDedekindReals.sig_forall_dec",
"FunctionalExtensionality.functional_extensionality_dep",
"Classical_Prop.classic"
]
],
"C186_square": [
"FrmTheorems",
[
"ClassicalDedekindReals.sig_not_dec",
"ClassicalDedekindReals.sig_forall_dec",
"FunctionalExtensionality.functional_extensionality_dep",
"Classical_Prop.classic"
]
],
"C186_tiny_refuted": [
"FrmTheorems",
[
"ClassicalDedekindReals.sig_not_dec",
"ClassicalDedekindReals.sig_forall_dec",
"FunctionalExtensionality.functional_extensionality_dep",
"Classical_Prop.classic"
]
],
"C186_triangle": [
"FrmTheorems",
[
"ClassicalDedekindReals.sig_not_dec",
"ClassicalDedekindReals.sig_forall_dec",
"FunctionalExtensionality.functional_extensionality_dep",
"Classical_Prop.classic"
]
],
"C186_whole": [
"FrmTheorems",
[
"ClassicalDedekindReals.sig_not_dec",
"ClassicalDedekindReals.sig_forall_dec",
"FunctionalExtensionality.functional_extensionality_dep",
"Classical_Prop.classic"
]
],
"C187_exact_refuted": [
"GftTheorems",
[]
],
"C187_list": [
"GftTheorems",
[
"ClassicalDedekindReals.sig_not_dec",
"ClassicalDedekindReals.sig_forall_dec",
"FunctionalExtensionality.functional_extensionality_dep",
"Classical_Prop.classic"
]
],
"C187_quat": [
"GftTheorems",
[
"ClassicalDedekindReals.sig_not_dec",
"ClassicalDedekindReals.sig_forall_dec",
"FunctionalExtensionality.functional_extensionality_dep",
"Classical_Prop.classic"
]
],
"C187_vec": [
"GftTheorems",
[
"ClassicalDedekindReals.sig_not_dec",
"ClassicalDedekindReals.sig_forall_dec",
"FunctionalExtensionality.functional_extensionality_dep",
"Classical_Prop.classic"
]
],
"C188_bounds": [
"GftTheorems",
[
"ClassicalDedekindReals.sig_not_dec",
"ClassicalDedekindReals.sig_forall_dec",
"FunctionalExtensionality.functional_extensionality_dep",
"Classical_Prop.classic"
]
],
"C188_typed": [
"GftTheorems",
[
"ClassicalDedekindReals.sig_not_dec",
"ClassicalDedekindReals.sig_forall_dec",
"FunctionalExtensionality.functional_extensionality_dep",
"Classical_Prop.classic"
]
],
"C188_typed_point_refuted": [
"GftTheorems",
[]
],
"C188_within": [
"GftTheorems",
[
"ClassicalDedekindReals.sig_not_dec",
"ClassicalDedekindReals.sig_forall_dec",
"FunctionalExtensionality.functional_extensionality_dep",
"Classical_Prop.classic"
]
],
"C188_within_refuted": [
"GftTheorems",
[
"ClassicalDedekindReals.sig_forall_dec",
"FunctionalExtensionality.functional_extensionality_dep"
]
],
"C189_large_refuted": [
"GftTheorems",
[]
],
"C189_shape": [
"GftTheorems",
[
"ClassicalDedekindReals.sig_not_dec",
"ClassicalDedekindReals.sig_forall_dec",
"FunctionalExtensionality.functional_extensionality_dep",
"Classical_Prop.classic"
]
],
"C18_answers": [
"PnTheorems",
[]
],
"C18_counts": [
"PnTheorems",
[]
],
"C18_find_parent": [
"PnTheorems",
[]
],
"C18_find_recursively": [
"PnTheorems",
[]
],
"C190_list_file": [
"GftTheorems",
[
"ClassicalDedekindReals.sig_not_dec",
"ClassicalDedekindReals.sig_forall_dec",
"FunctionalExtensionality.functional_extensionality_dep",
"Classical_Prop.classic"
]
],
"C190_shape_file": [
"GftTheorems",
[
"ClassicalDedekindReals.sig_not_dec",
"ClassicalDedekindReals.sig_forall_dec",
"FunctionalExtensionality.functional_extensionality_dep",
"Classical_Prop.classic"
]
],
"C190_vec_file": [
"GftTheorems",
[
"ClassicalDedekindReals.sig_not_dec",
"ClassicalDedekindReals.sig_forall_dec",
"FunctionalExtensionality.functional_extensionality_dep",
"Classical_Prop.classic"
]
],
"C191_average": [
"MomTheorems",
[
"ClassicalDedekindReals.sig_not_dec",
"ClassicalDedekindReals.sig_forall_dec",
"FunctionalExtensionality.functional_extensionality_dep",
"Classical_Prop.classic"
]
],
"C191_between_refuted": [
"MomTheorems",
[
"ClassicalDedekindReals.sig_not_dec",
"ClassicalDedekindReals.sig_forall_dec",
"FunctionalExtensionality.functional_extensionality_dep",
"Classical_Prop.classic"
]
],
"C191_integers": [
"MomTheorems",
[
"ClassicalDedekindReals.sig_not_dec",
"ClassicalDedekindReals.sig_forall_dec",
"FunctionalExtensionality.functional_extensionality_dep",
"Classical_Prop.classic"
]
],
"C191_large_refuted": [
"MomTheorems",
[
"ClassicalDedekindReals.sig_not_dec",
"ClassicalDedekindReals.sig_forall_dec",
"FunctionalExtensionality.functional_extensionality_dep",
"Classical_Prop.classic"
]
],
"C191_lost_refuted": [
"MomTheorems",
[
"ClassicalDedekindReals.sig_not_dec",
"ClassicalDedekindReals.sig_forall_dec",
"FunctionalExtensionality.functional_extensionality_dep",
"Classical_Prop.classic"
]
],
"C191_none": [
"MomTheorems",
[
"ClassicalDedekindReals.sig_not_dec",
"ClassicalDedekindReals.sig_forall_dec",
"FunctionalExtensionality.functional_extensionality_dep",
"Classical_Prop.classic"
]
],
"C191_sum": [
"MomTheorems",
[
"ClassicalDedekindReals.sig_not_dec",
"ClassicalDedekindReals.sig_forall_dec",
"FunctionalExtensionality.functional_extensionality_dep",
"Classical_Prop.classic"
]
],
"C192_constant_refuted": [
"MomTheorems",
[
"ClassicalDedekindReals.sig_not_dec",
"ClassicalDedekindReals.sig_forall_dec",
"FunctionalExtensionality.functional_extensionality_dep",
"Classical_Prop.classic"
]
],
"C192_deviation": [
"MomTheorems",
[
"ClassicalDedekindReals.sig_not_dec",
"ClassicalDedekindReals.sig_forall_dec",
"FunctionalExtensionality.functional_extensionality_dep",
"Classical_Prop.classic"
]
],
"C192_large_refuted": [
"MomTheorems",
[
"ClassicalDedekindReals.sig_not_dec",
"ClassicalDedekindReals.sig_forall_dec",
"FunctionalExtensionality.functional_extensionality_dep",
"Classical_Prop.classic"
]
],
"C192_not_negative": [
"MomTheorems",
[
"ClassicalDedekindReals.sig_not_dec",
"ClassicalDedekindReals.sig_forall_dec",
"FunctionalExtensionality.functional_extensionality_dep",
"Classical_Prop.classic"
]
],
"C192_variance": [
"MomTheorems",
[
"ClassicalDedekindReals.sig_not_dec",
"ClassicalDedekindReals.sig_forall_dec",
"FunctionalExtensionality.functional_extensionality_dep",
"Classical_Prop.classic"
]
],
"C193_diagonal": [
"MomTheorems",
[
"ClassicalDedekindReals.sig_not_dec",
"ClassicalDedekindReals.sig_forall_dec",
"FunctionalExtensionality.functional_extensionality_dep",
"Classical_Prop.classic"
]
],
"C193_error": [
"MomTheorems",
[
"ClassicalDedekindReals.sig_not_dec",
"ClassicalDedekindReals.sig_forall_dec",
"FunctionalExtensionality.functional_extensionality_dep",
"Classical_Prop.classic"
]
],
"C193_means": [
"MomTheorems",
[
"ClassicalDedekindReals.sig_not_dec",
"ClassicalDedekindReals.sig_forall_dec",
"FunctionalExtensionality.functional_extensionality_dep",
"Classical_Prop.classic"
]
],
"C193_symmetric": [
"MomTheorems",
[
"ClassicalDedekindReals.sig_not_dec",
"ClassicalDedekindReals.sig_forall_dec",
"FunctionalExtensionality.functional_extensionality_dep",
"Classical_Prop.classic"
]
],
"C194_extremes": [
"MomTheorems",
[
"ClassicalDedekindReals.sig_not_dec",
"ClassicalDedekindReals.sig_forall_dec",
"FunctionalExtensionality.functional_extensionality_dep",
"Classical_Prop.classic"
]
],
"C194_large_refuted": [
"MomTheorems",
[
"ClassicalDedekindReals.sig_not_dec",
"ClassicalDedekindReals.sig_forall_dec",
"FunctionalExtensionality.functional_extensionality_dep",
"Classical_Prop.classic"
]
],
"C194_median": [
"MomTheorems",
[
"ClassicalDedekindReals.sig_not_dec",
"ClassicalDedekindReals.sig_forall_dec",
"FunctionalExtensionality.functional_extensionality_dep",
"Classical_Prop.classic"
]
],
"C194_nan_refuted": [
"MomTheorems",
[
"ClassicalDedekindReals.sig_not_dec",
"ClassicalDedekindReals.sig_forall_dec",
"FunctionalExtensionality.functional_extensionality_dep",
"Classical_Prop.classic"
]
],
"C195_cancel_refuted": [
"MomTheorems",
[
"ClassicalDedekindReals.sig_not_dec",
"ClassicalDedekindReals.sig_forall_dec",
"FunctionalExtensionality.functional_extensionality_dep",
"Classical_Prop.classic"
]
],
"C195_error": [
"MomTheorems",
[
"ClassicalDedekindReals.sig_not_dec",
"ClassicalDedekindReals.sig_forall_dec",
"FunctionalExtensionality.functional_extensionality_dep",
"Classical_Prop.classic"
]
],
"C195_integers": [
"MomTheorems",
[
"ClassicalDedekindReals.sig_not_dec",
"ClassicalDedekindReals.sig_forall_dec",
"FunctionalExtensionality.functional_extensionality_dep",
"Classical_Prop.classic"
]
],
"C195_intersect": [
"MomTheorems",
[
"ClassicalDedekindReals.sig_not_dec",
"ClassicalDedekindReals.sig_forall_dec",
"FunctionalExtensionality.functional_extensionality_dep",
"Classical_Prop.classic"
]
],
"C195_large_refuted": [
"MomTheorems",
[
"ClassicalDedekindReals.sig_not_dec",
"ClassicalDedekindReals.sig_forall_dec",
"FunctionalExtensionality.functional_extensionality_dep",
"Classical_Prop.classic"
]
],
"C195_zero": [
"MomTheorems",
[
"ClassicalDedekindReals.sig_not_dec",
"ClassicalDedekindReals.sig_forall_dec",
"FunctionalExtensionality.functional_extensionality_dep",
"Classical_Prop.classic"
]
],
"C196_delta": [
"HstTheorems",
[
"ClassicalDedekindReals.sig_not_dec",
"ClassicalDedekindReals.sig_forall_dec",
"FunctionalExtensionality.functional_extensionality_dep",
"Classical_Prop.classic"
]
],
"C196_exact": [
"HstTheorems",
[
"ClassicalDedekindReals.sig_not_dec",
"ClassicalDedekindReals.sig_forall_dec",
"FunctionalExtensionality.functional_extensionality_dep",
"Classical_Prop.classic"
]
],
"C196_first": [
"HstTheorems",
[
"ClassicalDedekindReals.sig_not_dec",
"ClassicalDedekindReals.sig_forall_dec",
"FunctionalExtensionality.functional_extensionality_dep",
"Classical_Prop.classic"
]
],
"C196_history": [
"HstTheorems",
[
"ClassicalDedekindReals.sig_not_dec",
"ClassicalDedekindReals.sig_forall_dec",
"FunctionalExtensionality.functional_extensionality_dep",
"Classical_Prop.classic"
]
],
"C196_sum_refuted": [
"HstTheorems",
[
"ClassicalDedekindReals.sig_not_dec",
"ClassicalDedekindReals.sig_forall_dec",
"FunctionalExtensionality.functional_extensionality_dep",
"Classical_Prop.classic"
]
],
"C197_fast": [
"HstTheorems",
[
"ClassicalDedekindReals.sig_not_dec",
"ClassicalDedekindReals.sig_forall_dec",
"FunctionalExtensionality.functional_extensionality_dep",
"Classical_Prop.classic"
]
],
"C197_fast_settles": [
"HstTheorems",
[
"ClassicalDedekindReals.sig_not_dec",
"ClassicalDedekindReals.sig_forall_dec",
"FunctionalExtensionality.functional_extensionality_dep",
"Classical_Prop.classic"
]
],
"C197_fast_stays": [
"HstTheorems",
[
"ClassicalDedekindReals.sig_not_dec",
"ClassicalDedekindReals.sig_forall_dec",
"FunctionalExtensionality.functional_extensionality_dep",
"Classical_Prop.classic"
]
],
"C197_past_refuted": [
"HstTheorems",
[
"ClassicalDedekindReals.sig_not_dec",
"ClassicalDedekindReals.sig_forall_dec",
"FunctionalExtensionality.functional_extensionality_dep",
"Classical_Prop.classic"
]
],
"C197_reach_refuted": [
"HstTheorems",
[
"ClassicalDedekindReals.sig_not_dec",
"ClassicalDedekindReals.sig_forall_dec",
"FunctionalExtensionality.functional_extensionality_dep",
"Classical_Prop.classic"
]
],
"C197_unstable_refuted": [
"HstTheorems",
[
"ClassicalDedekindReals.sig_not_dec",
"ClassicalDedekindReals.sig_forall_dec",
"FunctionalExtensionality.functional_extensionality_dep",
"Classical_Prop.classic"
]
],
"C198_accurate": [
"HstTheorems",
[
"ClassicalDedekindReals.sig_not_dec",
"ClassicalDedekindReals.sig_forall_dec",
"FunctionalExtensionality.functional_extensionality_dep",
"Classical_Prop.classic"
]
],
"C198_accurate_long": [
"HstTheorems",
[
"ClassicalDedekindReals.sig_not_dec",
"ClassicalDedekindReals.sig_forall_dec",
"FunctionalExtensionality.functional_extensionality_dep",
"Classical_Prop.classic"
]
],
"C198_accurate_settles": [
"HstTheorems",
[
"ClassicalDedekindReals.sig_not_dec",
"ClassicalDedekindReals.sig_forall_dec",
"FunctionalExtensionality.functional_extensionality_dep",
"Classical_Prop.classic"
]
],
"C198_accurate_stays": [
"HstTheorems",
[
"ClassicalDedekindReals.sig_not_dec",
"ClassicalDedekindReals.sig_forall_dec",
"FunctionalExtensionality.functional_extensionality_dep",
"Classical_Prop.classic"
]
],
"C199_outside_refuted": [
"SdbTheorems",
[]
],
"C199_reload_partial": [
"SdbTheorems",
[
"ClassicalDedekindReals.sig_not_dec",
"ClassicalDedekindReals.sig_forall_dec",
"FunctionalExtensionality.functional_extensionality_dep",
"Classical_Prop.classic"
]
],
"C199_set": [
"SdbTheorems",
[
"ClassicalDedekindReals.sig_not_dec",
"ClassicalDedekindReals.sig_forall_dec",
"FunctionalExtensionality.functional_extensionality_dep",
"Classical_Prop.classic"
]
],
"C199_stored": [
"SdbTheorems",
[
"ClassicalDedekindReals.sig_not_dec",
"ClassicalDedekindReals.sig_forall_dec",
"FunctionalExtensionality.functional_extensionality_dep",
"Classical_Prop.classic"
]
],
"C199_subnormal_refuted": [
"SdbTheorems",
[]
],
"C19_decoded": [
"StrTheorems",
[]
],
"C19_encoded": [
"StrTheorems",
[]
],
"C19_quoting_partial": [
"StrTheorems",
[]
],
"C19_quoting_refuted": [
"StrTheorems",
[]
],
"C19_unquote_bounds_refuted": [
"StrTheorems",
[]
],
"C19_unquoted": [
"StrTheorems",
[]
],
"C200_close": [
"HsvTheorems",
[
"ClassicalDedekindReals.sig_not_dec",
"ClassicalDedekindReals.sig_forall_dec",
"FunctionalExtensionality.functional_extensionality_dep",
"Classical_Prop.classic"
]
],
"C200_grey": [
"HsvTheorems",
[
"ClassicalDedekindReals.sig_not_dec",
"ClassicalDedekindReals.sig_forall_dec",
"FunctionalExtensionality.functional_extensionality_dep",
"Classical_Prop.classic"
]
],
"C200_negative_refuted": [
"HsvTheorems",
[
"ClassicalDedekindReals.sig_not_dec",
"ClassicalDedekindReals.sig_forall_dec",
"FunctionalExtensionality.functional_extensionality_dep",
"Classical_Prop.classic"
]
],
"C200_period": [
"HsvTheorems",
[
"ClassicalDedekindReals.sig_not_dec",
"ClassicalDedekindReals.sig_forall_dec",
"FunctionalExtensionality.functional_extensionality_dep",
"Classical_Prop.classic"
]
],
"C200_range": [
"HsvTheorems",
[
"ClassicalDedekindReals.sig_not_dec",
"ClassicalDedekindReals.sig_forall_dec",
"FunctionalExtensionality.functional_extensionality_dep",
"Classical_Prop.classic"
]
],
"C201_brightness": [
"UnqTheorems",
[
"ClassicalDedekindReals.sig_not_dec",
"ClassicalDedekindReals.sig_forall_dec",
"FunctionalExtensionality.functional_extensionality_dep",
"Classical_Prop.classic"
]
],
"C201_distinct_partial": [
"UnqTheorems",
[
"ClassicalDedekindReals.sig_not_dec",
"ClassicalDedekindReals.sig_forall_dec",
"FunctionalExtensionality.functional_extensionality_dep",
"Classical_Prop.classic"
]
],
"C201_distinct_refuted": [
"UnqTheorems",
[
"ClassicalDedekindReals.sig_not_dec",
"ClassicalDedekindReals.sig_forall_dec",
"FunctionalExtensionality.functional_extensionality_dep",
"Classical_Prop.classic"
]
],
"C201_primary": [
"UnqTheorems",
[
"ClassicalDedekindReals.sig_not_dec",
"ClassicalDedekindReals.sig_forall_dec",
"FunctionalExtensionality.functional_extensionality_dep",
"Classical_Prop.classic"
]
],
"C202_add_channel": [
"CfbTheorems",
[]
],
"C202_add_channel_refuted": [
"CfbTheorems",
[]
],
"C202_at_partial": [
"CfbTheorems",
[]
],
"C202_at_refuted": [
"CfbTheorems",
[]
],
"C202_interpolated": [
"CfbTheorems",
[]
],
"C202_interpolated_last_refuted": [
"CfbTheorems",
[]
],
"C202_read": [
"CfbTheorems",
[]
],
"C202_resize": [
"CfbTheorems",
[]
],
"C203_far_refuted": [
"RplTheorems",
[
"ClassicalDedekindReals.sig_not_dec",
"ClassicalDedekindReals.sig_forall_dec",
"FunctionalExtensionality.functional_extensionality_dep",
"Classical_Prop.classic"
]
],
"C203_knot": [
"RplTheorems",
[
"ClassicalDedekindReals.sig_not_dec",
"ClassicalDedekindReals.sig_forall_dec",
"FunctionalExtensionality.functional_extensionality_dep",
"Classical_Prop.classic"
]
],
"C203_sample_refuted": [
"RplTheorems",
[
"ClassicalDedekindReals.sig_not_dec",
"ClassicalDedekindReals.sig_forall_dec",
"FunctionalExtensionality.functional_extensionality_dep",
"Classical_Prop.classic"
]
],
"C203_samples": [
"RplTheorems",
[
"ClassicalDedekindReals.sig_not_dec",
"ClassicalDedekindReals.sig_forall_dec",
"FunctionalExtensionality.functional_extensionality_dep",
"Classical_Prop.classic"
]
],
"C203_value": [
"RplTheorems",
[
"ClassicalDedekindReals.sig_not_dec",
"ClassicalDedekindReals.sig_forall_dec",
"FunctionalExtensionality.functional_extensionality_dep",
"Classical_Prop.classic"
]
],
"C204_empty": [
"WavTheorems",
[
"ClassicalDedekindReals.sig_not_dec",
"ClassicalDedekindReals.sig_forall_dec",
"FunctionalExtensionality.functional_extensionality_dep",
"Classical_Prop.classic"
]
],
"C204_mean": [
"WavTheorems",
[
"ClassicalDedekindReals.sig_not_dec",
"ClassicalDedekindReals.sig_forall_dec",
"FunctionalExtensionality.functional_extensionality_dep",
"Classical_Prop.classic"
]
],
"C204_negative_refuted": [
"WavTheorems",
[
"ClassicalDedekindReals.sig_not_dec",
"ClassicalDedekindReals.sig_forall_dec",
"FunctionalExtensionality.functional_extensionality_dep",
"Classical_Prop.classic"
]
],
"C205_dies_out_refuted": [
"IifTheorems",
[
"ClassicalDedekindReals.sig_not_dec",
"ClassicalDedekindReals.sig_forall_dec",
"FunctionalExtensionality.functional_extensionality_dep",
"Classical_Prop.classic"
]
],
"C205_run": [
"IifTheorems",
[
"ClassicalDedekindReals.sig_not_dec",
"ClassicalDedekindReals.sig_forall_dec",
"FunctionalExtensionality.functional_extensionality_dep",
"Classical_Prop.classic"
]
],
"C205_step": [
"IifTheorems",
[
"ClassicalDedekindReals.sig_not_dec",
"ClassicalDedekindReals.sig_forall_dec",
"FunctionalExtensionality.functional_extensionality_dep",
"Classical_Prop.classic"
]
],
"C20_characters": [
"TokTheorems",
[]
],
"C20_empty_quote_refuted": [
"TokTheorems",
[]
],
"C20_history": [
"TokTheorems",
[]
],
"C20_line": [
"TokTheorems",
[]
],
"C20_lone_backslash_refuted": [
"TokTheorems",
[]
],
"C20_open_quote_refuted": [
"TokTheorems",
[]
],
"C20_prefix_dropped_refuted": [
"TokTheorems",
[]
],
"C20_reaches_end": [
"TokTheorems",
[]
],
"C20_seek": [
"TokTheorems",
[]
],
"C20_token": [
"TokTheorems",
[]
],
"C20_try_get_refuted": [
"TokTheorems",
[]
],
"C21_concise_empty_refuted": [
"ZmlTheorems",
[]
],
"C21_concise_empty_value_refuted": [
"ZmlTheorems",
[]
],
"C21_refused": [
"ZmlTheorems",
[]
],
"C21_round_trip": [
"ZmlTheorems",
[]
],
"C21_round_trip_concise": [
"ZmlTheorems",
[]
],
"C21_round_trip_refuted": [
"ZmlTheorems",
[]
],
"C22_insert": [
"ZmlTheorems",
[]
],
"C22_same_tokens": [
"ZmlTheorems",
[]
],
"C22_space_after_colon_refuted": [
"ZmlTheorems",
[]
],
"C23_ignored": [
"IniTheorems",
[]
],
"C23_last_line": [
"IniTheorems",
[]
],
"C23_long_refuted": [
"IniTheorems",
[]
],
"C23_lost_refuted": [
"IniTheorems",
[]
],
"C23_order_refuted": [
"IniTheorems",
[]
],
"C23_round_trip": [
"IniTheorems",
[]
],
"C24_cycle": [
"IncTheorems",
[]
],
"C24_depth_refuted": [
"IncTheorems",
[]
],
"C24_meaning": [
"IncTheorems",
[]
],
"C24_no_directive": [
"IncTheorems",
[]
],
"C24_plain": [
"IncTheorems",
[]
],
"C24_terminates": [
"IncTheorems",
[]
],
"C25_find_nth_partial": [
"StrTheorems",
[]
],
"C25_find_nth_refuted": [
"StrTheorems",
[]
],
"C25_search": [
"StrTheorems",
[]
],
"C25_substring": [
"StrTheorems",
[]
],
"C26_replace": [
"StrTheorems",
[]
],
"C26_replace_char": [
"StrTheorems",
[]
],
"C26_replaced_unique": [
"StrTheorems",
[]
],
"C27_pieces_exist": [
"StrTheorems",
[]
],
"C27_split": [
"StrTheorems",
[]
],
"C27_split_at": [
"StrTheorems",
[]
],
"C27_split_join": [
"StrTheorems",
[]
],
"C27_trim": [
"StrTheorems",
[]
],
"C28_extension_exact": [
"PathTheorems",
[]
],
"C28_extension_refuted": [
"PathTheorems",
[]
],
"C28_join": [
"PathTheorems",
[]
],
"C28_join_assoc": [
"PathTheorems",
[]
],
"C28_join_name": [
"PathTheorems",
[]
],
"C28_make_preferred": [
"PathTheorems",
[]
],
"C28_parts": [
"PathTheorems",
[]
],
"C28_reconstruct_partial": [
"PathTheorems",
[]
],
"C28_reconstruct_refuted": [
"PathTheorems",
[]
],
"C28_replace_extension": [
"PathTheorems",
[]
],
"C28_replace_extension_refuted": [
"PathTheorems",
[]
],
"C28_replace_filename": [
"PathTheorems",
[]
],
"C28_replace_stem": [
"PathTheorems",
[]
],
"C28_stem": [
"PathTheorems",
[]
],
"C28_stem_extension": [
"PathTheorems",
[]
],
"C29_bool": [
"CastTheorems",
[]
],
"C29_int_failure": [
"CastTheorems",
[]
],
"C29_int_limits": [
"CastTheorems",
[]
],
"C29_int_read": [
"CastTheorems",
[]
],
"C29_int_round_trip": [
"CastTheorems",
[]
],
"C29_int_strict_refuted": [
"CastTheorems",
[]
],
"C29_int_written": [
"CastTheorems",
[]
],
"C30_version_level": [
"CastTheorems",
[]
],
"C30_version_order_partial": [
"CastTheorems",
[]
],
"C30_version_total_order_refuted": [
"CastTheorems",
[]
],
"C30_version_transitive_partial": [
"CastTheorems",
[]
],
"C31_bounded": [
"MemoTheorems",
[]
],
"C31_complete": [
"MemoTheorems",
[]
],
"C31_exclusive": [
"MemoTheorems",
[]
],
"C31_failures": [
"MemoTheorems",
[]
],
"C31_once": [
"MemoTheorems",
[]
],
"C31_progress": [
"MemoTheorems",
[]
],
"C31_recursive": [
"MemoTheorems",
[]
],
"C31_size": [
"MemoTheorems",
[]
],
"C31_values": [
"MemoTheorems",
[]
],
"C32_after_failure_refuted": [
"CacheTheorems",
[]
],
"C32_bounded": [
"CacheTheorems",
[]
],
"C32_exclusive": [
"CacheTheorems",
[]
],
"C32_fresh": [
"CacheTheorems",
[]
],
"C32_progress": [
"CacheTheorems",
[]
],
"C32_same_second_refuted": [
"CacheTheorems",
[]
],
"C33_delivery": [
"LogTheorems",
[]
],
"C33_exclusive": [
"LogTheorems",
[]
],
"C33_format_refuted": [
"LogTheorems",
[]
],
"C33_lost_refuted": [
"LogTheorems",
[]
],
"C33_quick_test": [
"LogTheorems",
[]
],
"C33_threads": [
"LogTheorems",
[]
],
"C34_elapsed_partial": [
"TimeTheorems",
[]
],
"C34_pause_twice_refuted": [
"TimeTheorems",
[]
],
"C34_restart_paused_refuted": [
"TimeTheorems",
[]
],
"C34_resume_twice_refuted": [
"TimeTheorems",
[]
],
"C34_set_late_refuted": [
"TimeTheorems",
[]
],
"C35_clear": [
"TimeTheorems",
[]
],
"C35_names": [
"TimeTheorems",
[]
],
"C35_order_refuted": [
"TimeTheorems",
[]
],
"C35_report": [
"TimeTheorems",
[]
],
"C35_splits": [
"TimeTheorems",
[]
],
"C35_total_name_refuted": [
"TimeTheorems",
[]
],
"C36_exclusive": [
"ProfTheorems",
[]
],
"C36_exclusive_nonneg": [
"ProfTheorems",
[]
],
"C36_exclusive_sum": [
"ProfTheorems",
[]
],
"C36_misuse": [
"ProfTheorems",
[]
],
"C36_report_refuted": [
"ProfTheorems",
[]
],
"C36_sections": [
"ProfTheorems",
[]
],
"C36_unbalanced_refuted": [
"ProfTheorems",
[]
],
"C37_allowed_range_refuted": [
"SetTheorems",
[]
],
"C37_get": [
"SetTheorems",
[]
],
"C37_get_group_refuted": [
"SetTheorems",
[]
],
"C37_get_unknown": [
"SetTheorems",
[]
],
"C37_load": [
"SetTheorems",
[]
],
"C37_lowest_int_refuted": [
"SetTheorems",
[]
],
"C37_nan_refuted": [
"SetTheorems",
[]
],
"C37_nested_refuted": [
"SetTheorems",
[]
],
"C37_not_a_number": [
"SetTheorems",
[]
],
"C37_position_refuted": [
"SetTheorems",
[]
],
"C37_range": [
"SetTheorems",
[]
],
"C37_range_int_refuted": [
"SetTheorems",
[]
],
"C37_saved": [
"SetTheorems",
[]
],
"C37_saved_refuted": [
"SetTheorems",
[]
],
"C37_set": [
"SetTheorems",
[]
],
"C37_undefined": [
"SetTheorems",
[]
],
"C37_valid": [
"SetTheorems",
[]
],
"C38_factory_history": [
"AssocTheorems",
[]
],
"C39_dashed_name": [
"CastTheorems",
[]
],
"C39_default_refuted": [
"CastTheorems",
[]
],
"C39_flags": [
"CastTheorems",
[]
],
"C39_positional": [
"CastTheorems",
[]
],
"C40_clamp": [
"NumTheorems",
[]
],
"C40_double_order": [
"NumTheorems",
[]
],
"C40_extend": [
"NumTheorems",
[]
],
"C40_extend_bounds": [
"NumTheorems",
[]
],
"C40_min_max": [
"NumTheorems",
[]
],
"C40_nan_refuted": [
"NumTheorems",
[]
],
"C40_negated": [
"NumTheorems",
[
"ClassicalDedekindReals.sig_forall_dec",
"FunctionalExtensionality.functional_extensionality_dep"
]
],
"C40_smooth_clamp": [
"NumTheorems",
[
"ClassicalDedekindReals.sig_not_dec",
"ClassicalDedekindReals.sig_forall_dec",
"FunctionalExtensionality.functional_extensionality_dep",
"Classical_Prop.classic"
]
],
"C40_soft_clamp": [
"NumTheorems",
[
"ClassicalDedekindReals.sig_forall_dec",
"FunctionalExtensionality.functional_extensionality_dep"
]
],
"C40_violation": [
"NumTheorems",
[
"ClassicalDedekindReals.sig_forall_dec",
"FunctionalExtensionality.functional_extensionality_dep"
]
],
"C40_within": [
"NumTheorems",
[]
],
"C41_count_digits": [
"NumTheorems",
[]
],
"C41_count_digits_refuted": [
"NumTheorems",
[]
],
"C41_gcd": [
"NumTheorems",
[]
],
"C41_gcd_negative_refuted": [
"NumTheorems",
[]
],
"C41_midpoint": [
"NumTheorems",
[]
],
"C41_midpoint_real": [
"NumTheorems",
[
"ClassicalDedekindReals.sig_forall_dec",
"FunctionalExtensionality.functional_extensionality_dep"
]
],
"C41_midpoint_refuted": [
"NumTheorems",
[]
],
"C41_parity": [
"NumTheorems",
[]
],
"C41_power": [
"NumTheorems",
[
"ClassicalDedekindReals.sig_forall_dec",
"FunctionalExtensionality.functional_extensionality_dep"
]
],
"C41_power_of_two": [
"NumTheorems",
[]
],
"C41_sign": [
"NumTheorems",
[]
],
"C42_pos_mod_partial": [
"NumTheorems",
[
"ClassicalDedekindReals.sig_forall_dec",
"FunctionalExtensionality.functional_extensionality_dep"
]
],
"C42_pos_mod_refuted": [
"NumTheorems",
[
"ClassicalDedekindReals.sig_forall_dec",
"FunctionalExtensionality.functional_extensionality_dep"
]
],
"C42_square_wave_partial": [
"NumTheorems",
[
"ClassicalDedekindReals.sig_forall_dec",
"FunctionalExtensionality.functional_extensionality_dep"
]
],
"C42_square_wave_refuted": [
"NumTheorems",
[
"ClassicalDedekindReals.sig_forall_dec",
"FunctionalExtensionality.functional_extensionality_dep"
]
],
"C42_triangle_between": [
"NumTheorems",
[
"ClassicalDedekindReals.sig_forall_dec",
"FunctionalExtensionality.functional_extensionality_dep"
]
],
"C42_triangle_wave": [
"NumTheorems",
[
"ClassicalDedekindReals.sig_forall_dec",
"FunctionalExtensionality.functional_extensionality_dep"
]
],
"C42_wrap_partial": [
"NumTheorems",
[
"ClassicalDedekindReals.sig_forall_dec",
"FunctionalExtensionality.functional_extensionality_dep"
]
],
"C42_wrap_refuted": [
"NumTheorems",
[
"ClassicalDedekindReals.sig_forall_dec",
"FunctionalExtensionality.functional_extensionality_dep"
]
],
"C43_lerp": [
"IplTheorems",
[
"ClassicalDedekindReals.sig_forall_dec",
"FunctionalExtensionality.functional_extensionality_dep"
]
],
"C43_lerp_double_overflow_refuted": [
"IplTheorems",
[]
],
"C43_lerp_double_partial": [
"IplTheorems",
[]
],
"C43_lerp_double_refuted": [
"IplTheorems",
[]
],
"C43_lerp_map": [
"IplTheorems",
[
"ClassicalDedekindReals.sig_forall_dec",
"FunctionalExtensionality.functional_extensionality_dep"
]
],
"C43_lerp_map_int": [
"IplTheorems",
[
"ClassicalDedekindReals.sig_forall_dec",
"FunctionalExtensionality.functional_extensionality_dep"
]
],
"C43_lerp_map_int_refuted": [
"IplTheorems",
[
"ClassicalDedekindReals.sig_forall_dec",
"FunctionalExtensionality.functional_extensionality_dep"
]
],
"C43_lerp_precise_refuted": [
"IplTheorems",
[
"ClassicalDedekindReals.sig_forall_dec",
"FunctionalExtensionality.functional_extensionality_dep"
]
],
"C43_lerp_span": [
"IplTheorems",
[
"ClassicalDedekindReals.sig_forall_dec",
"FunctionalExtensionality.functional_extensionality_dep"
]
],
"C43_lerp_span_far_refuted": [
"IplTheorems",
[
"ClassicalDedekindReals.sig_forall_dec",
"FunctionalExtensionality.functional_extensionality_dep"
]
],
"C43_piecewise_constant": [
"IplTheorems",
[
"ClassicalDedekindReals.sig_forall_dec",
"FunctionalExtensionality.functional_extensionality_dep"
]
],
"C43_piecewise_linear": [
"IplTheorems",
[
"ClassicalDedekindReals.sig_forall_dec",
"FunctionalExtensionality.functional_extensionality_dep"
]
],
"C43_regular": [
"IplTheorems",
[
"ClassicalDedekindReals.sig_forall_dec",
"FunctionalExtensionality.functional_extensionality_dep"
]
],
"C44_delayer_partial": [
"SigTheorems",
[
"ClassicalDedekindReals.sig_forall_dec",
"FunctionalExtensionality.functional_extensionality_dep"
]
],
"C44_initial_refuted": [
"SigTheorems",
[
"ClassicalDedekindReals.sig_forall_dec",
"FunctionalExtensionality.functional_extensionality_dep"
]
],
"C44_long_step_refuted": [
"SigTheorems",
[
"ClassicalDedekindReals.sig_forall_dec",
"FunctionalExtensionality.functional_extensionality_dep"
]
],
"C44_rejected": [
"SigTheorems",
[
"ClassicalDedekindReals.sig_forall_dec",
"FunctionalExtensionality.functional_extensionality_dep"
]
],
"C44_smooth_delayer_partial": [
"SigTheorems",
[
"ClassicalDedekindReals.sig_forall_dec",
"FunctionalExtensionality.functional_extensionality_dep"
]
],
"C45_axes": [
"GeoTheorems",
[
"ClassicalDedekindReals.sig_forall_dec",
"FunctionalExtensionality.functional_extensionality_dep"
]
],
"C45_composition": [
"GeoTheorems",
[
"ClassicalDedekindReals.sig_forall_dec",
"FunctionalExtensionality.functional_extensionality_dep"
]
],
"C45_conjugate": [
"GeoTheorems",
[
"ClassicalDedekindReals.sig_forall_dec",
"FunctionalExtensionality.functional_extensionality_dep"
]
],
"C45_inverse_refuted": [
"GeoTheorems",
[
"ClassicalDedekindReals.sig_forall_dec",
"FunctionalExtensionality.functional_extensionality_dep"
]
],
"C45_positive": [
"GeoTheorems",
[
"ClassicalDedekindReals.sig_forall_dec",
"FunctionalExtensionality.functional_extensionality_dep"
]
],
"C45_representation": [
"GeoTheorems",
[
"ClassicalDedekindReals.sig_forall_dec",
"FunctionalExtensionality.functional_extensionality_dep"
]
],
"C45_rotation": [
"GeoTheorems",
[
"ClassicalDedekindReals.sig_forall_dec",
"FunctionalExtensionality.functional_extensionality_dep"
]
],
"C46_composition": [
"GeoTheorems",
[
"ClassicalDedekindReals.sig_forall_dec",
"FunctionalExtensionality.functional_extensionality_dep"
]
],
"C46_inverse": [
"GeoTheorems",
[
"ClassicalDedekindReals.sig_forall_dec",
"FunctionalExtensionality.functional_extensionality_dep"
]
],
"C46_srt_partial": [
"GeoTheorems",
[
"ClassicalDedekindReals.sig_forall_dec",
"FunctionalExtensionality.functional_extensionality_dep"
]
],
"C46_srt_refuted": [
"GeoTheorems",
[
"ClassicalDedekindReals.sig_forall_dec",
"FunctionalExtensionality.functional_extensionality_dep"
]
],
"C47_frame": [
"GeoTheorems",
[
"ClassicalDedekindReals.sig_not_dec",
"ClassicalDedekindReals.sig_forall_dec",
"FunctionalExtensionality.functional_extensionality_dep"
]
],
"C47_round_trip": [
"GeoTheorems",
[
"ClassicalDedekindReals.sig_not_dec",
"ClassicalDedekindReals.sig_forall_dec",
"FunctionalExtensionality.functional_extensionality_dep"
]
],
"C48_from_quat": [
"EulTheorems",
[
"ClassicalDedekindReals.sig_not_dec",
"ClassicalDedekindReals.sig_forall_dec",
"FunctionalExtensionality.functional_extensionality_dep",
"Classical_Prop.classic"
]
],
"C48_gimbal_refuted": [
"EulTheorems",
[
"ClassicalDedekindReals.sig_not_dec",
"ClassicalDedekindReals.sig_forall_dec",
"FunctionalExtensionality.functional_extensionality_dep",
"Classical_Prop.classic"
]
],
"C48_meaning": [
"EulTheorems",
[
"ClassicalDedekindReals.sig_not_dec",
"ClassicalDedekindReals.sig_forall_dec",
"FunctionalExtensionality.functional_extensionality_dep"
]
],
"C48_round_trip": [
"EulTheorems",
[
"ClassicalDedekindReals.sig_not_dec",
"ClassicalDedekindReals.sig_forall_dec",
"FunctionalExtensionality.functional_extensionality_dep",
"Classical_Prop.classic"
]
],
"C49_bounds": [
"GeoTheorems",
[
"ClassicalDedekindReals.sig_forall_dec",
"FunctionalExtensionality.functional_extensionality_dep"
]
],
"C49_limits": [
"GeoTheorems",
[
"ClassicalDedekindReals.sig_forall_dec",
"FunctionalExtensionality.functional_extensionality_dep"
]
],
"C49_mirror": [
"GeoTheorems",
[
"ClassicalDedekindReals.sig_forall_dec",
"FunctionalExtensionality.functional_extensionality_dep"
]
],
"C49_rotation": [
"GeoTheorems",
[
"ClassicalDedekindReals.sig_not_dec",
"ClassicalDedekindReals.sig_forall_dec",
"FunctionalExtensionality.functional_extensionality_dep"
]
],
"C50_box": [
"ShpTheorems",
[
"ClassicalDedekindReals.sig_forall_dec",
"FunctionalExtensionality.functional_extensionality_dep"
]
],
"C50_join": [
"ShpTheorems",
[
"ClassicalDedekindReals.sig_forall_dec",
"FunctionalExtensionality.functional_extensionality_dep"
]
],
"C50_join_empty": [
"ShpTheorems",
[
"ClassicalDedekindReals.sig_forall_dec",
"FunctionalExtensionality.functional_extensionality_dep"
]
],
"C50_points": [
"ShpTheorems",
[
"ClassicalDedekindReals.sig_forall_dec",
"FunctionalExtensionality.functional_extensionality_dep"
]
],
"C50_sphere": [
"ShpTheorems",
[
"ClassicalDedekindReals.sig_not_dec",
"ClassicalDedekindReals.sig_forall_dec",
"FunctionalExtensionality.functional_extensionality_dep"
]
],
"C51_lines": [
"ShpTheorems",
[
"ClassicalDedekindReals.sig_not_dec",
"ClassicalDedekindReals.sig_forall_dec",
"FunctionalExtensionality.functional_extensionality_dep"
]
],
"C51_lines_refuted": [
"ShpTheorems",
[
"ClassicalDedekindReals.sig_not_dec",
"ClassicalDedekindReals.sig_forall_dec",
"FunctionalExtensionality.functional_extensionality_dep"
]
],
"C51_segment": [
"ShpTheorems",
[
"ClassicalDedekindReals.sig_not_dec",
"ClassicalDedekindReals.sig_forall_dec",
"FunctionalExtensionality.functional_extensionality_dep"
]
],
"C51_zero_direction_refuted": [
"ShpTheorems",
[
"ClassicalDedekindReals.sig_forall_dec",
"FunctionalExtensionality.functional_extensionality_dep"
]
],
"C52_fixed_step": [
"StatTheorems",
[
"ClassicalDedekindReals.sig_forall_dec",
"FunctionalExtensionality.functional_extensionality_dep"
]
],
"C52_least_squares": [
"StatTheorems",
[
"ClassicalDedekindReals.sig_forall_dec",
"FunctionalExtensionality.functional_extensionality_dep"
]
],
"C52_median_line": [
"StatTheorems",
[
"ClassicalDedekindReals.sig_forall_dec",
"FunctionalExtensionality.functional_extensionality_dep"
]
],
"C52_repeated_median": [
"StatTheorems",
[
"ClassicalDedekindReals.sig_forall_dec",
"FunctionalExtensionality.functional_extensionality_dep"
]
],
"C53_average": [
"StatTheorems",
[
"ClassicalDedekindReals.sig_forall_dec",
"FunctionalExtensionality.functional_extensionality_dep"
]
],
"C53_extremes": [
"StatTheorems",
[
"ClassicalDedekindReals.sig_forall_dec",
"FunctionalExtensionality.functional_extensionality_dep"
]
],
"C53_median": [
"StatTheorems",
[
"ClassicalDedekindReals.sig_forall_dec",
"FunctionalExtensionality.functional_extensionality_dep"
]
],
"C53_sorted_indices": [
"StatTheorems",
[]
],
"C53_top_average": [
"StatTheorems",
[
"ClassicalDedekindReals.sig_forall_dec",
"FunctionalExtensionality.functional_extensionality_dep"
]
],
"C53_top_average_refuted": [
"StatTheorems",
[
"ClassicalDedekindReals.sig_forall_dec",
"FunctionalExtensionality.functional_extensionality_dep"
]
],
"C53_variance": [
"StatTheorems",
[
"ClassicalDedekindReals.sig_not_dec",
"ClassicalDedekindReals.sig_forall_dec",
"FunctionalExtensionality.functional_extensionality_dep"
]
],
"C54_hash": [
"UtilTheorems",
[]
],
"C54_high_refuted": [
"UtilTheorems",
[]
],
"C54_one_character": [
"UtilTheorems",
[]
],
"C55_date_from": [
"UtilTheorems",
[]
],
"C55_date_negative_refuted": [
"UtilTheorems",
[]
],
"C55_date_round": [
"UtilTheorems",
[]
],
"C55_enum_from": [
"UtilTheorems",
[]
],
"C55_enum_round": [
"UtilTheorems",
[]
],
"C55_enum_to": [
"UtilTheorems",
[]
],
"C55_explicit_values_refuted": [
"UtilTheorems",
[]
],
"C56_compact": [
"UtilTheorems",
[]
],
"C56_flagged": [
"UtilTheorems",
[]
],
"C56_not_equal_refuted": [
"UtilTheorems",
[]
],
"C56_sentinel_refuted": [
"UtilTheorems",
[]
],
"C56_write_empty_refuted": [
"UtilTheorems",
[]
],
"C57_butterworth_constant": [
"SigTheorems",
[
"ClassicalDedekindReals.sig_not_dec",
"ClassicalDedekindReals.sig_forall_dec",
"FunctionalExtensionality.functional_extensionality_dep"
]
],
"C57_butterworth_gain": [
"SigTheorems",
[
"ClassicalDedekindReals.sig_not_dec",
"ClassicalDedekindReals.sig_forall_dec",
"FunctionalExtensionality.functional_extensionality_dep"
]
],
"C57_equation": [
"SigTheorems",
[
"ClassicalDedekindReals.sig_forall_dec",
"FunctionalExtensionality.functional_extensionality_dep"
]
],
"C57_linear": [
"SigTheorems",
[
"ClassicalDedekindReals.sig_forall_dec",
"FunctionalExtensionality.functional_extensionality_dep"
]
],
"C57_time_invariant": [
"SigTheorems",
[
"ClassicalDedekindReals.sig_forall_dec",
"FunctionalExtensionality.functional_extensionality_dep"
]
],
"C57_velocity": [
"SigTheorems",
[
"ClassicalDedekindReals.sig_forall_dec"
]
],
"C58_insert": [
"ShpTheorems",
[
"ClassicalDedekindReals.sig_not_dec",
"ClassicalDedekindReals.sig_forall_dec",
"FunctionalExtensionality.functional_extensionality_dep"
]
],
"C58_length": [
"ShpTheorems",
[
"ClassicalDedekindReals.sig_not_dec",
"ClassicalDedekindReals.sig_forall_dec",
"FunctionalExtensionality.functional_extensionality_dep"
]
],
"C58_too_short": [
"ShpTheorems",
[
"ClassicalDedekindReals.sig_not_dec",
"ClassicalDedekindReals.sig_forall_dec",
"FunctionalExtensionality.functional_extensionality_dep"
]
],
"C59_concurrent": [
"FsTheorems",
[]
],
"C59_create_unique": [
"FsTheorems",
[]
],
"C59_existing_refuted": [
"FsTheorems",
[]
],
"C59_find_unique": [
"FsTheorems",
[]
],
"C59_find_unique_refuted": [
"FsTheorems",
[]
],
"C59_first_free": [
"FsTheorems",
[]
],
"C59_parents": [
"FsTheorems",
[]
],
"C60_cached": [
"TimeTheorems",
[]
],
"C60_interval": [
"TimeTheorems",
[]
],
"C60_interval_count": [
"TimeTheorems",
[]
],
"C61_forever": [
"UtilTheorems",
[]
],
"C61_moved_refuted": [
"UtilTheorems",
[]
],
"C61_requested": [
"UtilTheorems",
[]
],
"C62_erase_one": [
"BoxTheorems",
[]
],
"C62_handle_erase_update": [
"AssocTheorems",
[]
],
"C62_handle_push_back": [
"AssocTheorems",
[]
],
"C62_invalid_handle_stays_invalid": [
"AssocTheorems",
[]
],
"C63_storage_add_channel_refuted": [
"GridTheorems",
[]
],
"C63_table_add_column_refuted": [
"GridTheorems",
[]
],
"C64_append": [
"StrTheorems",
[]
],
"C64_concat": [
"StrTheorems",
[]
],
"C64_split_concat": [
"StrTheorems",
[]
],
"C65_key_value": [
"StrTheorems",
[]
],
"C66_extension": [
"StrTheorems",
[]
],
"C66_folder_partial": [
"StrTheorems",
[]
],
"C66_folder_refuted": [
"StrTheorems",
[]
],
"C67_version_read": [
"CastTheorems",
[]
],
"C67_version_text_partial": [
"CastTheorems",
[]
],
"C67_version_text_refuted": [
"CastTheorems",
[]
],
"C68_equality": [
"PnTheorems",
[]
],
"C69_array_refuted": [
"PnTheorems",
[]
],
"C69_node_query_partial": [
"PnTheorems",
[]
],
"C70_get": [
"PnTheorems",
[]
],
"C70_get_all": [
"PnTheorems",
[]
],
"C70_get_any": [
"PnTheorems",
[]
],
"C70_set_get": [
"PnTheorems",
[]
],
"C70_vector": [
"PnTheorems",
[]
],
"C71_from_arg_partial": [
"PnTheorems",
[]
],
"C71_from_arg_refuted": [
"PnTheorems",
[]
],
"C72_agree_refuted": [
"FsTheorems",
[]
],
"C72_find_file": [
"FsTheorems",
[]
],
"C72_try_find_file": [
"FsTheorems",
[]
],
"C73_search": [
"FsTheorems",
[]
],
"C73_search_relative": [
"FsTheorems",
[]
],
"C73_terminates_refuted": [
"FsTheorems",
[]
],
"C74_distance": [
"TimeTheorems",
[]
],
"C74_division_partial": [
"TimeTheorems",
[]
],
"C74_division_refuted": [
"TimeTheorems",
[]
],
"C74_seconds_partial": [
"TimeTheorems",
[]
],
"C74_seconds_refuted": [
"TimeTheorems",
[]
],
"C75_allowed_range_refuted": [
"SetTheorems",
[]
],
"C75_reload_partial": [
"SetTheorems",
[]
],
"C75_version_refuted": [
"SetTheorems",
[]
],
"C76_mirror": [
"UtilTheorems",
[]
],
"C76_set": [
"UtilTheorems",
[]
],
"C76_set_none_refuted": [
"UtilTheorems",
[]
],
"C76_side": [
"UtilTheorems",
[]
],
"C77_range": [
"UtilTheorems",
[]
],
"C77_step": [
"UtilTheorems",
[]
],
"C78_empty_error_refuted": [
"UtilTheorems",
[]
],
"C78_result": [
"UtilTheorems",
[]
],
"C79_equal": [
"NumTheorems",
[
"ClassicalDedekindReals.sig_forall_dec",
"FunctionalExtensionality.functional_extensionality_dep"
]
],
"C79_symmetric_refuted": [
"NumTheorems",
[
"ClassicalDedekindReals.sig_forall_dec",
"FunctionalExtensionality.functional_extensionality_dep"
]
],
"C80_bounded_refuted": [
"NumTheorems",
[]
],
"C81_accurate": [
"SigTheorems",
[
"ClassicalDedekindReals.sig_not_dec",
"ClassicalDedekindReals.sig_forall_dec",
"FunctionalExtensionality.functional_extensionality_dep",
"Classical_Prop.classic"
]
],
"C81_fast": [
"SigTheorems",
[
"ClassicalDedekindReals.sig_forall_dec",
"FunctionalExtensionality.functional_extensionality_dep"
]
],
"C81_fast_refuted": [
"SigTheorems",
[
"ClassicalDedekindReals.sig_forall_dec",
"FunctionalExtensionality.functional_extensionality_dep"
]
],
"C82_average": [
"SigTheorems",
[
"ClassicalDedekindReals.sig_forall_dec",
"FunctionalExtensionality.functional_extensionality_dep"
]
],
"C82_delta": [
"SigTheorems",
[
"ClassicalDedekindReals.sig_forall_dec",
"FunctionalExtensionality.functional_extensionality_dep"
]
],
"C83_intersect": [
"SigTheorems",
[
"ClassicalDedekindReals.sig_forall_dec",
"FunctionalExtensionality.functional_extensionality_dep"
]
],
"C83_minimum_jerk": [
"SigTheorems",
[
"ClassicalDedekindReals.sig_forall_dec",
"FunctionalExtensionality.functional_extensionality_dep"
]
],
"C83_polynomial": [
"SigTheorems",
[
"ClassicalDedekindReals.sig_forall_dec",
"FunctionalExtensionality.functional_extensionality_dep"
]
],
"C84_covariance": [
"StatTheorems",
[
"ClassicalDedekindReals.sig_not_dec",
"ClassicalDedekindReals.sig_forall_dec",
"FunctionalExtensionality.functional_extensionality_dep"
]
],
"C85_normalize": [
"GeoTheorems",
[
"ClassicalDedekindReals.sig_not_dec",
"ClassicalDedekindReals.sig_forall_dec",
"FunctionalExtensionality.functional_extensionality_dep"
]
],
"C85_normalize_fast": [
"GeoTheorems",
[
"ClassicalDedekindReals.sig_not_dec",
"ClassicalDedekindReals.sig_forall_dec",
"FunctionalExtensionality.functional_extensionality_dep"
]
],
"C85_normalize_vec": [
"GeoTheorems",
[
"ClassicalDedekindReals.sig_not_dec",
"ClassicalDedekindReals.sig_forall_dec",
"FunctionalExtensionality.functional_extensionality_dep"
]
],
"C85_try_fast": [
"GeoTheorems",
[
"ClassicalDedekindReals.sig_not_dec",
"ClassicalDedekindReals.sig_forall_dec",
"FunctionalExtensionality.functional_extensionality_dep"
]
],
"C86_metric": [
"GeoTheorems",
[
"ClassicalDedekindReals.sig_not_dec",
"ClassicalDedekindReals.sig_forall_dec",
"FunctionalExtensionality.functional_extensionality_dep"
]
],
"C86_projection": [
"GeoTheorems",
[
"ClassicalDedekindReals.sig_not_dec",
"ClassicalDedekindReals.sig_forall_dec",
"FunctionalExtensionality.functional_extensionality_dep"
]
],
"C86_squared": [
"GeoTheorems",
[
"ClassicalDedekindReals.sig_not_dec",
"ClassicalDedekindReals.sig_forall_dec",
"FunctionalExtensionality.functional_extensionality_dep"
]
],
"C87_axis_angle": [
"GeoTheorems",
[
"ClassicalDedekindReals.sig_not_dec",
"ClassicalDedekindReals.sig_forall_dec",
"FunctionalExtensionality.functional_extensionality_dep"
]
],
"C87_from_quat": [
"GeoTheorems",
[
"ClassicalDedekindReals.sig_not_dec",
"ClassicalDedekindReals.sig_forall_dec",
"FunctionalExtensionality.functional_extensionality_dep",
"Classical_Prop.classic"
]
],
"C87_from_vector": [
"GeoTheorems",
[
"ClassicalDedekindReals.sig_not_dec",
"ClassicalDedekindReals.sig_forall_dec",
"FunctionalExtensionality.functional_extensionality_dep",
"Classical_Prop.classic"
]
],
"C87_rotation_vector": [
"GeoTheorems",
[
"ClassicalDedekindReals.sig_not_dec",
"ClassicalDedekindReals.sig_forall_dec",
"FunctionalExtensionality.functional_extensionality_dep",
"Classical_Prop.classic"
]
],
"C87_short_vector": [
"GeoTheorems",
[
"ClassicalDedekindReals.sig_not_dec",
"ClassicalDedekindReals.sig_forall_dec",
"FunctionalExtensionality.functional_extensionality_dep"
]
],
"C88_directions": [
"GeoTheorems",
[
"ClassicalDedekindReals.sig_not_dec",
"ClassicalDedekindReals.sig_forall_dec",
"FunctionalExtensionality.functional_extensionality_dep"
]
],
"C88_opposite_refuted": [
"GeoTheorems",
[
"ClassicalDedekindReals.sig_not_dec",
"ClassicalDedekindReals.sig_forall_dec",
"FunctionalExtensionality.functional_extensionality_dep"
]
],
"C89_main_axes": [
"GeoTheorems",
[
"ClassicalDedekindReals.sig_not_dec",
"ClassicalDedekindReals.sig_forall_dec",
"FunctionalExtensionality.functional_extensionality_dep",
"Classical_Prop.classic"
]
],
"C89_no_twist": [
"GeoTheorems",
[
"ClassicalDedekindReals.sig_not_dec",
"ClassicalDedekindReals.sig_forall_dec",
"FunctionalExtensionality.functional_extensionality_dep",
"Classical_Prop.classic"
]
],
"C89_quat_angle": [
"GeoTheorems",
[
"ClassicalDedekindReals.sig_not_dec",
"ClassicalDedekindReals.sig_forall_dec",
"FunctionalExtensionality.functional_extensionality_dep",
"Classical_Prop.classic"
]
],
"C89_recover": [
"GeoTheorems",
[
"ClassicalDedekindReals.sig_not_dec",
"ClassicalDedekindReals.sig_forall_dec",
"FunctionalExtensionality.functional_extensionality_dep",
"Classical_Prop.classic"
]
],
"C89_twist": [
"GeoTheorems",
[
"ClassicalDedekindReals.sig_not_dec",
"ClassicalDedekindReals.sig_forall_dec",
"FunctionalExtensionality.functional_extensionality_dep",
"Classical_Prop.classic"
]
],
"C90_degrees": [
"EulTheorems",
[
"ClassicalDedekindReals.sig_not_dec",
"ClassicalDedekindReals.sig_forall_dec",
"FunctionalExtensionality.functional_extensionality_dep",
"Classical_Prop.classic"
]
],
"C90_heading": [
"EulTheorems",
[
"ClassicalDedekindReals.sig_not_dec",
"ClassicalDedekindReals.sig_forall_dec",
"FunctionalExtensionality.functional_extensionality_dep",
"Classical_Prop.classic"
]
],
"C90_polar": [
"EulTheorems",
[
"ClassicalDedekindReals.sig_not_dec",
"ClassicalDedekindReals.sig_forall_dec",
"FunctionalExtensionality.functional_extensionality_dep"
]
],
"C90_single": [
"EulTheorems",
[
"ClassicalDedekindReals.sig_not_dec",
"ClassicalDedekindReals.sig_forall_dec",
"FunctionalExtensionality.functional_extensionality_dep"
]
],
"C91_box": [
"VolTheorems",
[
"ClassicalDedekindReals.sig_not_dec",
"ClassicalDedekindReals.sig_forall_dec",
"FunctionalExtensionality.functional_extensionality_dep",
"Classical_Prop.classic"
]
],
"C91_capsule_density_refuted": [
"VolTheorems",
[
"ClassicalDedekindReals.sig_not_dec",
"ClassicalDedekindReals.sig_forall_dec",
"FunctionalExtensionality.functional_extensionality_dep"
]
],
"C91_capsule_excess": [
"VolTheorems",
[
"ClassicalDedekindReals.sig_not_dec",
"ClassicalDedekindReals.sig_forall_dec",
"FunctionalExtensionality.functional_extensionality_dep",
"Classical_Prop.classic"
]
],
"C91_capsule_partial": [
"VolTheorems",
[
"ClassicalDedekindReals.sig_not_dec",
"ClassicalDedekindReals.sig_forall_dec",
"FunctionalExtensionality.functional_extensionality_dep",
"Classical_Prop.classic"
]
],
"C91_capsule_refuted": [
"VolTheorems",
[
"ClassicalDedekindReals.sig_not_dec",
"ClassicalDedekindReals.sig_forall_dec",
"FunctionalExtensionality.functional_extensionality_dep",
"Classical_Prop.classic"
]
],
"C91_cone": [
"VolTheorems",
[
"ClassicalDedekindReals.sig_not_dec",
"ClassicalDedekindReals.sig_forall_dec",
"FunctionalExtensionality.functional_extensionality_dep",
"Classical_Prop.classic"
]
],
"C91_cylinder": [
"VolTheorems",
[
"ClassicalDedekindReals.sig_not_dec",
"ClassicalDedekindReals.sig_forall_dec",
"FunctionalExtensionality.functional_extensionality_dep",
"Classical_Prop.classic"
]
],
"C91_density": [
"VolTheorems",
[
"ClassicalDedekindReals.sig_not_dec",
"ClassicalDedekindReals.sig_forall_dec",
"FunctionalExtensionality.functional_extensionality_dep"
]
],
"C91_made_box": [
"VolTheorems",
[
"ClassicalDedekindReals.sig_not_dec",
"ClassicalDedekindReals.sig_forall_dec",
"FunctionalExtensionality.functional_extensionality_dep"
]
],
"C91_sphere": [
"VolTheorems",
[
"ClassicalDedekindReals.sig_not_dec",
"ClassicalDedekindReals.sig_forall_dec",
"FunctionalExtensionality.functional_extensionality_dep",
"Classical_Prop.classic"
]
],
"C92_by_vector": [
"VolTheorems",
[
"ClassicalDedekindReals.sig_not_dec",
"ClassicalDedekindReals.sig_forall_dec",
"FunctionalExtensionality.functional_extensionality_dep"
]
],
"C92_capsule_inertia_refuted": [
"VolTheorems",
[
"ClassicalDedekindReals.sig_not_dec",
"ClassicalDedekindReals.sig_forall_dec",
"FunctionalExtensionality.functional_extensionality_dep"
]
],
"C92_capsule_refuted": [
"VolTheorems",
[
"ClassicalDedekindReals.sig_not_dec",
"ClassicalDedekindReals.sig_forall_dec",
"FunctionalExtensionality.functional_extensionality_dep"
]
],
"C92_inertia_partial": [
"VolTheorems",
[
"ClassicalDedekindReals.sig_not_dec",
"ClassicalDedekindReals.sig_forall_dec",
"FunctionalExtensionality.functional_extensionality_dep"
]
],
"C92_uniform": [
"VolTheorems",
[
"ClassicalDedekindReals.sig_not_dec",
"ClassicalDedekindReals.sig_forall_dec",
"FunctionalExtensionality.functional_extensionality_dep"
]
],
"C92_volume": [
"VolTheorems",
[
"ClassicalDedekindReals.sig_not_dec",
"ClassicalDedekindReals.sig_forall_dec",
"FunctionalExtensionality.functional_extensionality_dep"
]
],
"C93_centers": [
"VolTheorems",
[
"ClassicalDedekindReals.sig_not_dec",
"ClassicalDedekindReals.sig_forall_dec",
"FunctionalExtensionality.functional_extensionality_dep"
]
],
"C93_centers_refuted": [
"VolTheorems",
[
"ClassicalDedekindReals.sig_forall_dec",
"FunctionalExtensionality.functional_extensionality_dep"
]
],
"C93_cylinder_refuted": [
"VolTheorems",
[
"ClassicalDedekindReals.sig_not_dec",
"ClassicalDedekindReals.sig_forall_dec",
"FunctionalExtensionality.functional_extensionality_dep"
]
],
"C93_dim_partial": [
"VolTheorems",
[
"ClassicalDedekindReals.sig_not_dec",
"ClassicalDedekindReals.sig_forall_dec",
"FunctionalExtensionality.functional_extensionality_dep"
]
],
"C93_dim_refuted": [
"VolTheorems",
[
"ClassicalDedekindReals.sig_forall_dec",
"FunctionalExtensionality.functional_extensionality_dep"
]
],
"C93_distance_partial": [
"VolTheorems",
[
"ClassicalDedekindReals.sig_not_dec",
"ClassicalDedekindReals.sig_forall_dec",
"FunctionalExtensionality.functional_extensionality_dep"
]
],
"C93_intersection": [
"VolTheorems",
[
"ClassicalDedekindReals.sig_not_dec",
"ClassicalDedekindReals.sig_forall_dec",
"FunctionalExtensionality.functional_extensionality_dep"
]
],
"C93_unsupported": [
"VolTheorems",
[
"ClassicalDedekindReals.sig_not_dec",
"ClassicalDedekindReals.sig_forall_dec",
"FunctionalExtensionality.functional_extensionality_dep"
]
],
"C94_plane": [
"VolTheorems",
[
"ClassicalDedekindReals.sig_forall_dec",
"FunctionalExtensionality.functional_extensionality_dep"
]
],
"C95_alpha": [
"SplTheorems",
[
"ClassicalDedekindReals.sig_not_dec",
"ClassicalDedekindReals.sig_forall_dec",
"FunctionalExtensionality.functional_extensionality_dep"
]
],
"C95_alpha_refuted": [
"SplTheorems",
[
"ClassicalDedekindReals.sig_not_dec",
"ClassicalDedekindReals.sig_forall_dec",
"FunctionalExtensionality.functional_extensionality_dep"
]
],
"C95_alpha_smooth": [
"SpaTheorems",
[
"ClassicalDedekindReals.sig_not_dec",
"ClassicalDedekindReals.sig_forall_dec",
"FunctionalExtensionality.functional_extensionality_dep",
"Classical_Prop.classic"
]
],
"C95_alpha_velocity_refuted": [
"SpaTheorems",
[
"ClassicalDedekindReals.sig_not_dec",
"ClassicalDedekindReals.sig_forall_dec",
"FunctionalExtensionality.functional_extensionality_dep",
"Classical_Prop.classic"
]
],
"C95_alpha_zero": [
"SpaTheorems",
[
"ClassicalDedekindReals.sig_not_dec",
"ClassicalDedekindReals.sig_forall_dec",
"FunctionalExtensionality.functional_extensionality_dep"
]
],
"C95_line": [
"SplTheorems",
[
"ClassicalDedekindReals.sig_forall_dec",
"FunctionalExtensionality.functional_extensionality_dep"
]
],
"C95_segment": [
"SplTheorems",
[
"ClassicalDedekindReals.sig_not_dec",
"ClassicalDedekindReals.sig_forall_dec",
"FunctionalExtensionality.functional_extensionality_dep",
"Classical_Prop.classic"
]
],
"C95_smooth": [
"SplTheorems",
[
"ClassicalDedekindReals.sig_not_dec",
"ClassicalDedekindReals.sig_forall_dec",
"FunctionalExtensionality.functional_extensionality_dep",
"Classical_Prop.classic"
]
],
"C95_spline": [
"SplTheorems",
[
"ClassicalDedekindReals.sig_not_dec",
"ClassicalDedekindReals.sig_forall_dec",
"FunctionalExtensionality.functional_extensionality_dep",
"Classical_Prop.classic"
]
],
"C96_length": [
"SplTheorems",
[
"ClassicalDedekindReals.sig_not_dec",
"ClassicalDedekindReals.sig_forall_dec",
"FunctionalExtensionality.functional_extensionality_dep"
]
],
"C96_refine": [
"SplTheorems",
[
"ClassicalDedekindReals.sig_not_dec",
"ClassicalDedekindReals.sig_forall_dec",
"FunctionalExtensionality.functional_extensionality_dep"
]
],
"C96_straight": [
"SplTheorems",
[
"ClassicalDedekindReals.sig_not_dec",
"ClassicalDedekindReals.sig_forall_dec",
"FunctionalExtensionality.functional_extensionality_dep"
]
],
"C97_back_index": [
"CtTheorems",
[]
],
"C97_contains": [
"CtTheorems",
[]
],
"C97_count": [
"CtTheorems",
[]
],
"C97_count_if": [
"CtTheorems",
[]
],
"C97_find": [
"CtTheorems",
[]
],
"C97_find_again": [
"CtTheorems",
[]
],
"C97_find_if": [
"CtTheorems",
[]
],
"C97_find_index": [
"CtTheorems",
[]
],
"C97_find_index_if": [
"CtTheorems",
[]
],
"C97_find_ref": [
"CtTheorems",
[]
],
"C97_for_each": [
"CtTheorems",
[]
],
"C97_tests": [
"CtTheorems",
[]
],
"C98_copy_container": [
"CtTheorems",
[]
],
"C98_copy_partial": [
"CtTheorems",
[]
],
"C98_copy_refuted": [
"CtTheorems",
[]
],
"C98_copy_to_range_partial": [
"CtTheorems",
[]
],
"C99_view": [
"CtTheorems",
[]
],
"C99_zip_partial": [
"CtTheorems",
[]
],
"C99_zip_refuted": [
"CtTheorems",
[]
]
}