{
 "claims": [
  {
   "property": "C01",
   "status": "proved",
   "theorems": [
    "C01_shortest",
    "C01_varint_roundtrip",
    "C01_varint_reader_exact"
   ],
   "note": "Round trip, length bound, shortest encoding (C01_shortest), and exact characterisation of the reader on arbitrary bytes."
  },
  {
   "property": "C02",
   "status": "proved",
   "theorems": [
    "C02_signed_roundtrip",
    "C02_zigzag_order"
   ],
   "note": "Full int64 range."
  },
  {
   "property": "C03",
   "status": "proved",
   "theorems": [
    "C03_field_roundtrip",
    "C03_fuel_suffices"
   ],
   "note": "All wire tags; any nesting; fuel shown to be irrelevant."
  },
  {
   "property": "C04",
   "status": "proved",
   "theorems": [
    "C04_stack_roundtrip",
    "C04_long_stack_rejected",
    "C04_bad_file_reference_rejected",
    "C04_bad_function_reference_rejected",
    "C04_stack_reader_exact"
   ],
   "note": "Round trip for stacks up to 2048 frames, rejection of longer ones and of bad references, exact grammar."
  },
  {
   "property": "C05",
   "status": "proved",
   "theorems": [
    "C05_messages_delivered",
    "C05_requests_determine_messages",
    "C05_point_stream",
    "C05_state_message",
    "C05_answers"
   ],
   "note": "Through the HTTP layer (endpoint choice, method, status) for all four message kinds; C05_answers says how any other request is answered."
  },
  {
   "property": "C06",
   "status": "proved",
   "theorems": [
    "C06_any_message",
    "C06_cut_message_is_rejected"
   ],
   "note": "Every strict prefix of every message is answered with status 400; C06_any_message for messages of any sender."
  },
  {
   "property": "C07",
   "status": "proved",
   "theorems": [
    "C07_accepted_is_within_limits",
    "C07_state_decoder_exact",
    "C07_decoder_never_runs_out_of_fuel",
    "C07_other_decoders_total",
    "C07_struct_count_unchecked_refuted"
   ],
   "note": "Acceptance implies the limits; finding: struct entry counts are unchecked (handler panic), shown by the _refuted theorem."
  },
  {
   "property": "C08",
   "status": "proved",
   "theorems": [
    "C08_emitted_within_limits",
    "C08_server_accepts",
    "C08_snapshot_terminates",
    "C08_unwrap_loop_diverges_refuted",
    "C08_unshared_values_are_exact",
    "C08_truncation_note_keeps_length",
    "C08_cut_slices_unmarked_refuted",
    "C08_shared_pointer_called_cycle_refuted"
   ],
   "note": "Limits, acceptance by the server, termination and fidelity; findings: endless unwrap loop on self-referential interfaces, shared pointers reported as cycles, cut slices unmarked."
  },
  {
   "property": "C09",
   "status": "proved",
   "theorems": [
    "C09_mem_store_is_a_map"
   ],
   "note": "memStorage with an arbitrary map visiting order; any history."
  },
  {
   "property": "C10",
   "status": "proved",
   "theorems": [
    "C10_views_do_not_interfere",
    "C10_view_is_a_map",
    "C10_before_after_independent_in_memory",
    "C10_before_after_independent_persistent",
    "C10_nested_names_interfere_refuted"
   ],
   "note": "Over any store that behaves as a map; instances for both stores; the excluded nested-name case is shown to interfere."
  },
  {
   "property": "C11",
   "status": "proved",
   "theorems": [
    "C11_persistent_store_is_a_map",
    "C11_no_residue",
    "C11_all_deleted_is_empty",
    "C11_empty_blob_is_lost_refuted",
    "C11_marker_like_blob_is_lost_refuted",
    "C11_reserved_key_corrupts_refuted"
   ],
   "note": "Any history, any limit, transactions may be refused; the three conditions (non-empty, not marker-like, not reserved) are shown necessary by refutations."
  },
  {
   "property": "C12",
   "status": "proved",
   "theorems": [
    "C12_split_pieces",
    "C12_small_blob_whole",
    "C12_writes_are_stored"
   ],
   "note": "Arithmetic of the split for every length and limit; pieces also differ by at most one byte."
  },
  {
   "property": "C13",
   "status": "proved",
   "theorems": [
    "C13_load_is_atomic_for_equal_sizes",
    "C13_small_blob_load_is_atomic",
    "C13_load_never_panics_never_mixes",
    "C13_torn_load_refuted"
   ],
   "note": "Statement corrected: the unconditional claim is refuted (C13_torn_load_refuted); the two-view load is characterised exactly."
  },
  {
   "property": "C14",
   "status": "proved",
   "theorems": [
    "C14_flatten_lists_exactly_the_leaves",
    "C14_leaf_names_are_distinct",
    "C14_dotted_names_collide_refuted"
   ],
   "note": "Flattening lists exactly the leaves under their dotted paths, which are distinct when names are non-empty and dot-free; a collision without that proviso is exhibited."
  },
  {
   "property": "C15",
   "status": "proved",
   "theorems": [
    "C15_decoding_exact",
    "C15_decoding_one_outcome",
    "C15_stacks_once",
    "C15_small_in_place",
    "C15_tables_small",
    "C15_saved_results_load_back",
    "C15_flat_results_load_back",
    "C15_identifiers_confuse_nesting_refuted",
    "C15_identifiers_ignore_inner_values_refuted",
    "C15_confusion_changes_results_refuted",
    "C15_cyclic_dictionary_never_decodes"
   ],
   "note": "Round trip for every result and sharing pattern given that identifiers do not confuse trees of that result; for flat fields this is derived from absence of hash collisions. C15_decoding_exact states independently what an encoded result means and shows that decoding finds exactly that and rejects the rest. The msgpack byte format itself is trusted. Refutations show confusing trees and endless decoding of cyclic dictionaries."
  },
  {
   "property": "C16",
   "status": "proved",
   "theorems": [
    "C16_keys",
    "C16_nil_empty_others_apart",
    "C16_frame_key_is_faithful",
    "C16_frame_key_refuted",
    "C16_identifier_ignores_map_order",
    "C16_flat_identifier_is_faithful",
    "C16_same_shape_faithful",
    "C16_identifier_exact"
   ],
   "note": "Identifiers depend only on the tree, for any hash function; what is hashed is characterised exactly (C16_identifier_exact) and tells trees of one shape apart (C16_same_shape_faithful); for flat fields it determines the tree. Keys, nil and empty maps and frame identifiers are characterised in DecodeProps.v."
  },
  {
   "property": "C17",
   "status": "proved",
   "theorems": [
    "C17_never_over_limit",
    "C17_release_never_blocks",
    "C17_join_returns_only_when_all_done",
    "C17_waiting_can_always_run",
    "C17_join_can_always_return",
    "C17_join_with_waiters_strands_them_refuted"
   ],
   "note": "Transition system over one limiting wait group: workers take, run and release; joins drain the permits. Liveness is stated as reachability (a waiting worker can always get to run when nobody is joining, a join can always return once workers finish). C17_join_with_waiters_strands_them_refuted: a Take still waiting when Join has drained the permits never runs."
  },
  {
   "property": "C18",
   "status": "proved",
   "theorems": [
    "C18_one_section_per_key",
    "C18_only_own_stripe_blocks"
   ],
   "note": "For every hash function, number of stripes, number of threads and interleaving; Go's pooled hasher is modelled including its reset."
  },
  {
   "property": "C19",
   "status": "proved",
   "theorems": [
    "C19_contents_are_a_true_tail",
    "C19_size_is_bounded",
    "C19_write_always_succeeds"
   ],
   "note": "Limit as a natural number; a limit below 6 may exceed itself by the marker, which C19_size_is_bounded states."
  },
  {
   "property": "C20",
   "status": "proved",
   "theorems": [
    "C20_tee_write_reaches_all",
    "C20_tee_close_closes_all",
    "C20_empty_tee_panics_refuted",
    "C20_equally_short_sinks_unnoticed_refuted"
   ],
   "note": "Sinks answer by an arbitrary function of everything that happened before. The statement now names the io.Writer contract; two refutations show what happens without it and with no writers."
  },
  {
   "property": "C21",
   "status": "proved",
   "theorems": [
    "C21_child_environment",
    "C21_custom_entries_win"
   ],
   "note": "bulk.SliceFilterInPlace is taken to be an order-preserving filter."
  },
  {
   "property": "C22",
   "status": "proved",
   "theorems": [
    "C22_within_dir_exact",
    "C22_never_yes_outside",
    "C22_dotdot_names_rejected_refuted"
   ],
   "note": "filepath.Abs, Clean and Rel modelled at the level of path elements (Unix). Stronger than asked: any two paths, relative ones taken below the working directory. C22_dotdot_names_rejected_refuted is the wrong answer for names that begin with two dots."
  },
  {
   "property": "C23",
   "status": "proved",
   "theorems": [
    "C23_diff_is_exact",
    "C23_added_and_removed_are_not_reported"
   ],
   "note": "Added and removed modules proved unreported; duplicates in a file: the last requirement counts."
  },
  {
   "property": "C24",
   "status": "proved",
   "theorems": [
    "C24_covers_exactly_the_reachable",
    "C24_results_are_complete",
    "C24_terminates",
    "C24_workspace_duplicates_lose_changes_refuted"
   ],
   "note": "Termination, exactness of the analysed set, breadth-first preference and completeness of the results; a start list with a duplicated name (a workspace whose modules raise the same dependency) loses the results, proved as a refutation."
  },
  {
   "property": "C25",
   "status": "proved",
   "theorems": [
    "C25_old_bits_exact",
    "C25_new_bits_exact",
    "C25_unmarked_lines_survive",
    "C25_pure_insertions_unmarked_refuted"
   ],
   "note": "Edit scripts are any valid opcode list (the diff library is an oracle); pure insertions at radius 0 proved unmarked."
  },
  {
   "property": "C26",
   "status": "proved",
   "theorems": [
    "C26_versions_are_extreme",
    "C26_oldest_go_version"
   ],
   "note": "Versions compared with the modelled semver order."
  },
  {
   "property": "C27",
   "status": "proved",
   "theorems": [
    "C27_valid_is_the_grammar",
    "C27_precedence",
    "C27_invalid_sorts_lowest",
    "C27_compare_is_a_total_order",
    "C27_releases_compare_numerically",
    "C27_older_is_a_minimum",
    "C27_filter_is_exact",
    "C27_go_prereleases_sort_lowest_refuted"
   ],
   "note": "Order laws proved for the modelled x/mod/semver Compare; the accepted texts are the published version grammar and the order is its precedence, stated independently of the parser (SemverGrammarProps); Go pre-release versions sort lowest, proved as a refutation."
  },
  {
   "property": "C28",
   "status": "proved",
   "theorems": [
    "C28_caller_errors",
    "C28_test_errors",
    "C28_search_visits_exactly_the_callers",
    "C28_search_terminates",
    "C28_callers_exact",
    "C28_tests_exact",
    "C28_analyses_terminate",
    "C28_shared_identifier_misses_callers_refuted",
    "C28_test_through_test_not_selected_refuted"
   ],
   "note": "The search, the caller analysis and the test analysis are exact on every finite call graph for every interleaving; functions sharing an identifier and tests reached only through other tests are missed, proved as refutations. The call graph is an input."
  },
  {
   "property": "C29",
   "status": "proved",
   "theorems": [
    "C29_ast_call_counts",
    "C29_ssa_call_counts",
    "C29_merge_is_exact",
    "C29_independent_of_the_sort",
    "C29_ssa_return_points",
    "C29_ast_return_points"
   ],
   "note": "In-place merge modelled with its shared array; counts are 32-bit."
  },
  {
   "property": "C30",
   "status": "proved",
   "theorems": [
    "C30_main_iff",
    "C30_init_iff",
    "C30_tests_are_recognised",
    "C30_recognised_iff",
    "C30_more_than_tests_recognised_refuted",
    "C30_aliased_parameter_missed_refuted"
   ],
   "note": "The original claim (exactly the go tool's tests) is refuted in three ways."
  },
  {
   "property": "C31",
   "status": "proved",
   "theorems": [
    "C31_ids_consecutive",
    "C31_refused_only_when_used_up",
    "C31_retry_means_progress",
    "C31_alone_finishes"
   ],
   "note": "Compare-and-swap steps of any number of threads: ids are 1,2,3,... in swap order, refusal only when all are used, retry implies another's progress, solo termination."
  },
  {
   "property": "C32",
   "status": "proved",
   "theorems": [
    "C32_stable_fields_exact",
    "C32_fields_symmetric_and_idempotent",
    "C32_many_runs_fields",
    "C32_stable_result_exact",
    "C32_frames_in_time_order",
    "C32_run_order_irrelevant",
    "C32_filtering_again_changes_nothing",
    "C32_post_filter_exact"
   ],
   "note": "Whole testResultStableFields and applyStableFilter. Nested children of a kept field are not filtered in the later run (shown in C32_example_post)."
  },
  {
   "property": "C33",
   "status": "proved",
   "theorems": [
    "C33_panics_multiset_intersection"
   ],
   "note": "Multiset intersection in the first run's order, for both panic maps."
  },
  {
   "property": "C34",
   "status": "proved",
   "theorems": [
    "C34_stored_fields_exact",
    "C34_bounded_verbatim_comparable",
    "C34_strings_unbounded_refuted",
    "C34_spelled_digest_confused_refuted"
   ],
   "note": "Exact stored text per type; bound, verbatim and comparability for non-string types; strings unbounded and digest-spelling values refuted."
  },
  {
   "property": "C35",
   "status": "proved",
   "theorems": [
    "C35_frames_where",
    "C35_frame_made",
    "C35_reached",
    "C35_every_execution_completes",
    "C35_counter_exact",
    "C35_everything_accounted",
    "C35_collected_result_complete",
    "C35_unknown_point_hangs_refuted",
    "C35_pending_requests_missed_refuted"
   ],
   "note": "Transition system of connections, striped locks and asynchronous workers; termination, progress, exact counter, exact accounting per connection and key, completeness at collection; hang on unknown ids and missed pending requests refuted."
  },
  {
   "property": "C36",
   "status": "proved",
   "theorems": [
    "C36_contents_put_back",
    "C36_backups_removed",
    "C36_original_never_lost",
    "C36_new_sum_stays_refuted",
    "C36_failed_backup_left_refuted",
    "C36_user_backup_destroyed_refuted",
    "C36_linked_mod_not_restored_refuted",
    "C36_mode_lost_refuted",
    "C36_commands_exact",
    "C36_backup_failure_fails",
    "C36_files_named"
   ],
   "note": "File system model with failing copies and renames and arbitrary command effects; restored contents, removed backups, never lost; six exceptions refuted."
  },
  {
   "property": "C37",
   "status": "proved",
   "theorems": [
    "C37_restored",
    "C37_only_these_differ",
    "C37_original_never_lost",
    "C37_stale_backup_refuted",
    "C37_broken_backup_loses_original_refuted",
    "C37_linked_source_refuted",
    "C37_failed_injection_left_refuted",
    "C37_failed_restore_forgotten_refuted",
    "C37_commit_writes",
    "C37_commit_file_writes"
   ],
   "note": "Editor model over the file system with failing writes, copies and removals; whole file system restored, only edited/generated paths differ, originals never lost; five exceptions refuted."
  },
  {
   "property": "C38",
   "status": "proved",
   "theorems": [
    "C38_errors_exact",
    "C38_mixed_refused",
    "C38_module_points_exact",
    "C38_batches_exact",
    "C38_clients_exact",
    "C38_consistency_check_passes",
    "C38_points_known",
    "C38_no_file_no_client_refuted",
    "C38_sorting_needed"
   ],
   "note": "Exact batches for every sorted list, clients once per directory, consistency check never fires, point tables exact for every finishing order."
  },
  {
   "property": "C39",
   "status": "proved",
   "theorems": [
    "C39_key_is_project_call_path",
    "C39_lines_never_matter",
    "C39_separators_confuse_refuted"
   ],
   "note": "Exact for names without the separators; the hypothesis that SHA-1 separates the two texts is explicit; refutation with separators."
  },
  {
   "property": "C40",
   "status": "proved",
   "theorems": [
    "C40_empty_iff_equal",
    "C40_digests_bounded",
    "C40_text_tells_values_apart_refuted"
   ],
   "note": ""
  },
  {
   "property": "C41",
   "status": "proved",
   "theorems": [
    "C41_matching_one_to_one",
    "C41_field_changes_exact",
    "C41_callers_listed",
    "C41_counts_exact",
    "C41_no_difference_iff",
    "C41_identical_results",
    "C41_regression_exact",
    "C41_outcomes_kept",
    "C41_time_changes_real",
    "C41_all_tests",
    "C41_additions_reported_refuted",
    "C41_most_significant_refuted",
    "C41_lost_tests_ignored_refuted"
   ],
   "note": ""
  },
  {
   "property": "C42",
   "status": "proved",
   "theorems": [
    "C42_undone_in_reverse",
    "C42_stages_in_order",
    "C42_failure_ends_run",
    "C42_one_report",
    "C42_execution_iff",
    "C42_mutation_iff",
    "C42_full_report_numbers",
    "C42_failed_execution_cleaned_refuted",
    "C42_early_report_numbers_refuted",
    "C42_success_has_report_refuted"
   ],
   "note": ""
  },
  {
   "property": "C43",
   "status": "proved",
   "theorems": [
    "C43_accepted_iff_valid",
    "C43_prepared_once",
    "C43_chart_path_checked_refuted",
    "C43_targets_are_those_given_refuted"
   ],
   "note": ""
  },
  {
   "property": "C44",
   "status": "proved",
   "theorems": [
    "C44_target_exact"
   ],
   "note": ""
  },
  {
   "property": "C45",
   "status": "proved",
   "theorems": [
    "C45_text_never_ranks",
    "C45_text_cut",
    "C45_text_lines",
    "C45_comparison_is_order",
    "C45_table_exact",
    "C45_table_exists",
    "C45_table_determined_refuted",
    "C45_text_determined_refuted",
    "C45_more_fields_counted_refuted"
   ],
   "note": ""
  },
  {
   "property": "C46",
   "status": "proved",
   "theorems": [
    "C46_root_exact",
    "C46_single_direct_name_refuted"
   ],
   "note": ""
  },
  {
   "property": "C47",
   "status": "proved",
   "theorems": [
    "C47_insertions_exact",
    "C47_source_kept",
    "C47_file_lines",
    "C47_code_lines",
    "C47_other_lines_untouched",
    "C47_brace_lines_are_code_refuted",
    "C47_literals_kept_refuted"
   ],
   "note": ""
  },
  {
   "property": "C48",
   "status": "proved",
   "theorems": [
    "C48_refines",
    "C48_realised",
    "C48_behaviour_kept",
    "C48_messages",
    "C48_at_most_one",
    "C48_in_place_order_refuted",
    "C48_every_return_reported_refuted",
    "C48_end_reported_refuted",
    "C48_reserved_names_needed",
    "C48_type_names_refuted"
   ],
   "note": "Simulation in both directions over an abstract user program. Refuted: keeping the in-place reading order of variables, reporting of every return, reporting of the end beside other returns, freedom of name capture, compilability of typed declarations. goto is not modelled; divergence is covered as far as may-terminate equivalence."
  },
  {
   "property": "C49",
   "status": "proved",
   "theorems": [
    "C49_refines",
    "C49_realised",
    "C49_behaviour_kept",
    "C49_call_announced",
    "C49_message_means_call",
    "C49_which_call",
    "C49_every_call_refuted",
    "C49_short_circuit_refuted",
    "C49_order_refuted",
    "C49_loop_condition_refuted",
    "C49_defer_refuted",
    "C49_recover_refuted",
    "C49_receiver_copied_refuted",
    "C49_selection_twice_refuted",
    "C49_in_place_order_refuted",
    "C49_labelled_refuted",
    "C49_package_name_refuted",
    "C49_hidden_package_refuted",
    "C49_guessed_package_name"
   ],
   "note": "Simulation in both directions over an abstract user program with nondeterministic reading order. Refuted by concrete programs: short-circuit operators, order with what stands before the call, loop conditions, deferred calls and recover, copied receivers, selections with effects, in-place reading order, every call reported, labelled statements, guessed package names. goto and go statements are not modelled; divergence is covered as far as may-terminate equivalence, and C49_loop_condition_refuted."
  },
  {
   "property": "C50",
   "status": "proved",
   "theorems": [
    "C50_tests_of_file",
    "C50_tests_of_file_error",
    "C50_targets",
    "C50_nothing_to_mutate",
    "C50_changed_selected",
    "C50_only_changed_refuted",
    "C50_unchanged_lines_disabled",
    "C50_changed_lines_mutated_refuted",
    "C50_run_pattern",
    "C50_summary_sound",
    "C50_summary_read",
    "C50_squashed_counts_survivors",
    "C50_score_bounded",
    "C50_killed_reported_refuted"
   ],
   "note": "Selection, tests per file, directives and summary reading; three stronger readings refuted. The tool itself (go-mutesting) and its counting are an assumption stated beside the theorem."
  },
  {
   "property": "C51",
   "status": "proved",
   "theorems": [
    "C51_keeps_whole_lines",
    "C51_lines_unique"
   ],
   "note": "A count of zero or below is outside (a negative one panics in Go)."
  },
  {
   "property": "C52",
   "status": "proved",
   "theorems": [
    "C52_changed_functions_exact",
    "C52_earlier_init_changes_missed_refuted"
   ],
   "note": "Package loading is an oracle."
  },
  {
   "property": "C53",
   "status": "proved",
   "theorems": [
    "C53_workspace_differences_exact",
    "C53_first_requirement_found"
   ],
   "note": "Reading and parsing the module files is an oracle."
  },
  {
   "property": "C54",
   "status": "proved",
   "theorems": [
    "C54_identifiers_are_injective",
    "C54_edges_exact",
    "C54_shared_identifier_loses_calls_refuted",
    "C54_generated_files"
   ],
   "note": "Shared identifiers (several init functions) lose calls, proved as a refutation."
  },
  {
   "property": "C55",
   "status": "proved",
   "theorems": [
    "C55_project_files_marked",
    "C55_project_frames_exact",
    "C55_no_panic_for_clean_go_path",
    "C55_unclean_go_path_panics_refuted",
    "C55_module_files"
   ],
   "note": "Exact marking; no slice panic for clean Go paths, refuted for one with repeated separators."
  },
  {
   "property": "C56",
   "status": "proved",
   "theorems": [
    "C56_targets_selected",
    "C56_files_selected",
    "C56_missing_target_is_error_refuted"
   ],
   "note": ""
  },
  {
   "property": "C57",
   "status": "proved",
   "theorems": [
    "C57_copy_complete",
    "C57_cache_copied_refuted",
    "C57_project_separate_refuted",
    "C57_modes_kept_refuted"
   ],
   "note": ""
  },
  {
   "property": "C58",
   "status": "proved",
   "theorems": [
    "C58_rows_kept",
    "C58_times_kept",
    "C58_flags",
    "C58_totals",
    "C58_times_always_kept_refuted"
   ],
   "note": ""
  },
  {
   "property": "C59",
   "status": "proved",
   "theorems": [
    "C59_lists_exact",
    "C59_order_irrelevant"
   ],
   "note": ""
  },
  {
   "property": "C60",
   "status": "proved",
   "theorems": [
    "C60_sources_back",
    "C60_original_kept",
    "C60_other_files_kept_refuted",
    "C60_exit_means"
   ],
   "note": "Restoring by the script's trap; killing the script is not modelled."
  },
  {
   "property": "C61",
   "status": "proved",
   "theorems": [
    "C61_names_at_return",
    "C61_names_at_end",
    "C61_end_refuted",
    "C61_select_refuted"
   ],
   "note": "Full for returns outside select (the rewriting does not enter select) and function literals; C61_end_refuted: with `}}` touching, the implicit end point refers to names out of scope (`n.End() < retPos` should be `<=`); the receiver is never recorded."
  },
  {
   "property": "C62",
   "status": "proved",
   "theorems": [
    "C62_servers_exclusive",
    "C62_messages_own",
    "C62_first_alone",
    "C62_return",
    "C62_totals",
    "C62_stored",
    "C62_progress",
    "C62_bounded",
    "C62_started",
    "C62_late_message_refuted"
   ],
   "note": "Transition system of the loop, the goroutines, the channel, the handlers and the store; outcomes of processes and storage are arbitrary parts of the steps. Exclusive servers, own messages, first test alone, return value, totals, stored results, progress and a bound on the steps are proved for every trace; late messages are refuted."
  },
  {
   "property": "C63",
   "status": "proved",
   "theorems": [
    "C63_order",
    "C63_less_is_strict_weak",
    "C63_chosen_deterministic",
    "C63_nan_refuted",
    "C63_type_name_refuted",
    "C63_addresses_refuted"
   ],
   "note": "Keys by kind with floats as their 64 bits; the comparison is shown to agree with the lexicographic order of a flattening of the keys. Stated for every sorting function with the contract of sort.Slice. NaN keys, equal type names and pointer keys are refuted."
  },
  {
   "property": "C64",
   "status": "proved",
   "theorems": [
    "C64_mod_files",
    "C64_errors",
    "C64_patterns",
    "C64_graph_patterns",
    "C64_tested_trees_loaded",
    "C64_absolute_tree_refuted",
    "C64_tree_compared_with_itself_refuted",
    "C64_relative_compared_across",
    "C64_missing_module_loaded_refuted"
   ],
   "note": "Unix paths and an absolute project directory (engine.go:1066-1070 makes it so). filepath.Clean, Join, Dir and Rel are modelled; FileExists, Stat, Glob, WalkDir and the parser of work files are arbitrary functions, of which only absolute answers to absolute questions are assumed. Symbolic links are not followed. False for absolute tree entries, and tree entries defeat the workspace diff: both stated as refuted theorems."
  },
  {
   "property": "C65",
   "status": "proved",
   "theorems": [
    "C65_created_exactly",
    "C65_order_irrelevant",
    "C65_no_graph",
    "C65_untyped_package_cuts_off_refuted"
   ],
   "note": "packages.Load, ssa and cha are outside: the theorem is about which packages are created for the program and which are reported as module packages. Types are pointers; no two packages share one. Recursion is bounded by fuel, which is proved sufficient."
  },
  {
   "property": "C66",
   "status": "proved",
   "theorems": [
    "C66_recovered_once",
    "C66_panic_point",
    "C66_nil_panic_swallowed_refuted",
    "C66_entry_point",
    "C66_finish_point",
    "C66_module_points",
    "C66_callers_unchanged",
    "C66_contexts",
    "C66_injected_exactly",
    "C66_equal_names_refuted"
   ],
   "note": "Functions are given by their runs, with Go's rules for defer, recover, panic and Goexit in the trusted base; sending a message returns (C08 has the encoder). goto and the panic trace printed on a crash are outside. False for nil panics and for functions of equal name: both stated as refuted theorems."
  },
  {
   "property": "C67",
   "status": "proved",
   "theorems": [
    "C67_select_data",
    "C67_quotes_refuted",
    "C67_packages_exactly",
    "C67_select_files",
    "C67_all_files",
    "C67_all_unquoted_refuted",
    "C67_all_text",
    "C67_select_lines",
    "C67_all_lines",
    "C67_all_copy",
    "C67_one_word"
   ],
   "note": "bash is modelled as far as the data goes: double quotes, field splitting with the default IFS, file name expansion as an arbitrary function; the text of the scripts is copied from the source. The exact condition on quoted texts is sufficient (no quote, backquote, dollar sign, backslash), the conditions on unquoted ones are exact. What the script does to the files is C60, the pattern of test names C50."
  },
  {
   "property": "C68",
   "status": "proved",
   "theorems": [
    "C68_package_exactly",
    "C68_files_exactly",
    "C68_only_tests_refuted",
    "C68_constants_replaced",
    "C68_variables_replaced",
    "C68_others_untouched",
    "C68_file_replaced",
    "C68_repeated_refuted",
    "C68_hole_refuted",
    "C68_client_configured",
    "C68_api_package_only"
   ],
   "note": "go/build's file matching and go/parser are given per entry; the values of expressions are compared as expressions. C68_file_replaced states the replacement for the whole file"
  },
  {
   "property": "C69",
   "status": "proved",
   "theorems": [
    "C69_port_known",
    "C69_ipv6_port_refuted",
    "C69_servers_apart",
    "C69_own_server",
    "C69_cleared_environment_refuted",
    "C69_stack_within_limit",
    "C69_requests_bounded",
    "C69_accepted_once"
   ],
   "note": "HTTP transport and the network are arbitrary; addresses are compared as text."
  },
  {
   "property": "C70",
   "status": "proved",
   "theorems": [
    "C70_read_back",
    "C70_maps_same",
    "C70_names_in_any_case",
    "C70_other_names",
    "C70_counts_fit",
    "C70_charts_from_file",
    "C70_large_counts_refuted",
    "C70_equal_after_cleaning_refuted",
    "C70_extension_in_the_way_refuted"
   ],
   "note": "JSON as values: the text is not modelled, floats are exact up to 2^53 by hypothesis."
  },
  {
   "property": "C71",
   "status": "proved",
   "theorems": [
    "C71_numbers_shown",
    "C71_impact",
    "C71_coverage",
    "C71_stability",
    "C71_squashed",
    "C71_impact_full_refuted",
    "C71_untracked_covered_refuted",
    "C71_units",
    "C71_speed",
    "C71_speed_bar",
    "C71_slower_sign_refuted",
    "C71_no_time_refuted",
    "C71_axis",
    "C71_axis_many_refuted",
    "C71_colours",
    "C71_table_colours",
    "C71_render",
    "C71_file",
    "C71_figures_from_file",
    "C71_order"
   ],
   "note": "Floats as rationals; one decimal is any nearest tenth; drawing itself is the library's."
  },
  {
   "property": "C72",
   "status": "proved",
   "theorems": [
    "C72_read",
    "C72_readable",
    "C72_flags",
    "C72_accepted",
    "C72_outcome",
    "C72_usage",
    "C72_rest_ignored",
    "C72_order",
    "C72_defaults",
    "C72_truth_values",
    "C72_false_refuted",
    "C72_custom_defined_refuted",
    "C72_cache_refuted",
    "C72_picture_kind_refuted",
    "C72_picture"
   ],
   "note": "FlagsProps.v: the parser is characterised both ways by a relation of spellings; outcomes for all argument lists"
  },
  {
   "property": "C74",
   "status": "proved",
   "theorems": [
    "C74_nil_all",
    "C74_error_cause",
    "C74_limit",
    "C74_quiet_after",
    "C74_ends",
    "C74_progress",
    "C74_chmod_states",
    "C74_chmod_complete",
    "C74_chmod_succeeds",
    "C74_copy_complete",
    "C74_copy_outside",
    "C74_copy_succeeds",
    "C74_dots",
    "C74_copy_quiet_refuted",
    "C74_chmod_race_refuted"
   ],
   "note": "WalkProps.v: transition system of walk, tasks and context; all interleavings"
  },
  {
   "property": "C73",
   "status": "proved",
   "theorems": [
    "C73_bounded",
    "C73_all_closed",
    "C73_requests_over",
    "C73_stop_time",
    "C73_tests_need_all",
    "C73_error_stays",
    "C73_can_return",
    "C73_all_accepting_refuted",
    "C73_late_failure_refuted",
    "C73_quiet_refuted",
    "C73_ports_usable",
    "C73_port_range_refuted",
    "C73_wait_exact",
    "C73_wait_ends",
    "C73_wait_in_time",
    "C73_wait_forever_refuted",
    "C73_wait_gone_refuted"
   ],
   "note": "Transition system of the server goroutines, their requests and the analysis; the 100 ms of a start are a moment of any length. Refuted: all accepting, no late failure, quiet after return, port range, wait without timeout."
  },
  {
   "property": "C75",
   "status": "proved",
   "theorems": [
    "C75_limit",
    "C75_sources_back",
    "C75_tool_sees_marks",
    "C75_early_return_refuted"
   ],
   "note": "Transition system over the editor of C37; the tool is taken to leave files as it found them (C60). Refuted: early return with an unset bitmap leaves a marked source."
  },
  {
   "property": "C76",
   "status": "proved",
   "theorems": [
    "C76_nothing_else",
    "C76_json_first",
    "C76_one_order",
    "C76_trimmed",
    "C76_files_agree",
    "C76_no_paths",
    "C76_same_path_refuted",
    "C76_same_report_refuted",
    "C76_one_store",
    "C76_parts",
    "C76_hook"
   ],
   "note": "Over the file system of FsModel with every write able to fail or to stop half way. The JSON text is any text that parses back; drawing is an oracle given figures and tests. Numbers within 2^53 and texts that are UTF-8, as in C70. Refuted: one path for both, equal files for equal results."
  },
  {
   "property": "C77",
   "status": "proved",
   "theorems": [
    "C77_buffer",
    "C77_view_kept",
    "C77_view_lost_refuted",
    "C77_captured",
    "C77_any_order",
    "C77_summary_found_refuted",
    "C77_quiet",
    "C77_test_output",
    "C77_two_writers",
    "C77_clean_empty",
    "C77_clean_between",
    "C77_clean_end_refuted",
    "C77_one_test"
   ],
   "note": "Spaces beyond ASCII are not modelled. That os/exec uses one goroutine when both writers are the same is part of the trusted base."
  },
  {
   "property": "C78",
   "status": "proved",
   "theorems": [
    "C78_terminates",
    "C78_one_message",
    "C78_ids_differ",
    "C78_ids_differ_refuted",
    "C78_before_call",
    "C78_reached",
    "C78_missed_refuted",
    "C78_literal_operand_refuted",
    "C78_idempotent_refuted",
    "C78_declared_refuted",
    "C78_declared",
    "C78_visits_refuted"
   ],
   "note": "Terminates; one message per drawn id; each message directly in front of its call; reached statements get a point; names stay declared unless a condition call stands behind a declaring init statement. Refuted: ids always differ, every matching call reached, names always declared, idempotence, visits linear."
  },
  {
   "property": "C79",
   "status": "proved",
   "theorems": [
    "C79_package_right",
    "C79_detect_undisturbed",
    "C79_detect_race_refuted",
    "C79_types_panic",
    "C79_no_panic",
    "C79_types_files",
    "C79_second_function",
    "C79_shown",
    "C79_schedule_refuted",
    "C79_client_race_refuted",
    "C79_same_without",
    "C79_same_without_refuted"
   ],
   "note": "Directory contents over time with two-step writes; package detection, type information and their dependence on the schedule; C79_client_race_refuted, C79_same_without and its refutation say what missing type information changes."
  },
  {
   "property": "C80",
   "status": "proved",
   "theorems": [
    "C80_once_documented",
    "C80_once_before_commit",
    "C80_again_nothing",
    "C80_once_refuted",
    "C80_points_exactly",
    "C80_ids_distinct",
    "C80_commit_writes",
    "C80_mentioned_refuted",
    "C80_error_refuted"
   ],
   "note": "C80_once_documented, C80_once_before_commit, C80_again_nothing, C80_points_exactly, C80_ids_distinct, C80_commit_writes; C80_once_refuted, C80_mentioned_refuted and C80_error_refuted show where the claim fails"
  },
  {
   "property": "C81",
   "status": "proved",
   "theorems": [
    "C81_recorded",
    "C81_reported",
    "C81_noticed",
    "C81_unchanged",
    "C81_types_refuted",
    "C81_nil_refuted",
    "C81_map_order_refuted"
   ],
   "note": "C81_recorded, C81_reported, C81_noticed, C81_unchanged; C81_types_refuted, C81_nil_refuted and C81_map_order_refuted show where the claim fails"
  },
  {
   "property": "C82",
   "status": "proved",
   "theorems": [
    "C82_same_ident",
    "C82_one_declaration",
    "C82_program_ident",
    "C82_lookup",
    "C82_any_order",
    "C82_init_order_refuted",
    "C82_listed",
    "C82_order",
    "C82_documentation_refuted",
    "C82_error_of_last",
    "C82_print_error_lost_refuted",
    "C82_receiver_rewritten_refuted",
    "C82_short",
    "C82_short_refuted"
   ],
   "note": "C82_same_ident, C82_one_declaration, C82_program_ident, C82_lookup, C82_any_order, C82_listed, C82_order, C82_error_of_last, C82_short; C82_init_order_refuted, C82_documentation_refuted, C82_print_error_lost_refuted, C82_receiver_rewritten_refuted and C82_short_refuted show where the code falls short"
  },
  {
   "property": "C83",
   "status": "proved",
   "theorems": [
    "C83_servers",
    "C83_result",
    "C83_files",
    "C83_nothing_else",
    "C83_failed_restore_refuted"
   ],
   "note": "C83_servers, C83_result, C83_files, C83_nothing_else; C83_failed_restore_refuted shows where the code falls short"
  },
  {
   "property": "C84",
   "status": "proved",
   "theorems": [
    "C84_return_names",
    "C84_capture",
    "C84_call_names",
    "C84_last_kept",
    "C84_stored",
    "C84_variable_lost_refuted",
    "C84_receiver_lost_refuted"
   ],
   "note": "C84_return_names, C84_call_names, C84_last_kept, C84_stored; C84_variable_lost_refuted and C84_receiver_lost_refuted show where the code falls short. Closes the hypothesis of C81 that the names of a message are different"
  },
  {
   "property": "C85",
   "status": "proved",
   "theorems": [
    "C85_one_table",
    "C85_attributed",
    "C85_hook_takes_values_refuted"
   ],
   "note": "AttrProps: C85_one_table, C85_attributed; ids and hook maps are specified on their own (drawn_for, hooked_for); a hook's id wins over a function's (C85_hook_takes_values_refuted)"
  },
  {
   "property": "C86",
   "status": "proved",
   "theorems": [
    "C86_reported",
    "C86_noticed",
    "C86_unchanged",
    "C86_only_changes",
    "C86_every_change",
    "C86_order_refuted"
   ],
   "note": "RunsProps: C86_reported (exactly, both directions), C86_noticed, C86_unchanged, C86_only_changes and C86_every_change from the instrumented program; calls are paired by time before the update and by arrival after it (C86_order_refuted)"
  },
  {
   "property": "C87",
   "status": "proved",
   "theorems": [
    "C87_read_back",
    "C87_damaged",
    "C87_results_compared",
    "C87_tested",
    "C87_only_changes",
    "C87_every_change",
    "C87_in_memory",
    "C87_on_disk",
    "C87_old_results_refuted"
   ],
   "note": "StoredProps: C87_read_back, C87_results_compared (one report per test, from what was stored), C87_tested, C87_only_changes, C87_every_change (with the programs of C86), C87_in_memory and C87_on_disk meet the store's conditions; two tests worked through in memory; C87_old_results_refuted for a store used before"
  },
  {
   "property": "C88",
   "status": "proved",
   "theorems": [
    "C88_times",
    "C88_order",
    "C88_explained",
    "C88_module_is_missing_refuted",
    "C88_error_kept_refuted",
    "C88_run_twice",
    "C88_hook",
    "C88_one_store",
    "C88_store_is_open_refuted",
    "C88_fed",
    "C88_same_calls"
   ],
   "note": "C88_fed and C88_same_calls for arbitrary providers; panics of providers are not modelled (the deferred calls would still run). C88_times assumes that no provider turns the clock back. C88_run_twice assumes that the set-up of the copy changes directories only (setupTempEnvironment)."
  },
  {
   "property": "C89",
   "status": "proved",
   "theorems": [
    "C89_saved_again",
    "C89_elsewhere",
    "C89_leaves_nothing",
    "C89_directory_kept_refuted",
    "C89_as_before_refuted",
    "C89_closed_twice_refuted",
    "C89_one_at_a_time",
    "C89_open_apart",
    "C89_others_go_on",
    "C89_default_places",
    "C89_by_hand",
    "C89_by_hand_damaged",
    "C89_by_hand_refuted"
   ],
   "note": "Removal of files is taken to succeed (os.RemoveAll); badger is taken to write below its directory only and to lock it while open; zstd's DecodeAll is taken to append to its destination, as its documentation says."
  },
  {
   "property": "C90",
   "status": "proved",
   "theorems": [
    "C90_exactly",
    "C90_compiles",
    "C90_hidden_type",
    "C90_no_types",
    "C90_still_ends",
    "C90_nil_after_variable_refuted",
    "C90_shared_name_refuted",
    "C90_large_constant_refuted"
   ],
   "note": "C90_exactly is an equivalence for the whole function; C90_compiles gives conditions on the program alone; four refutations show each condition is needed."
  },
  {
   "property": "C91",
   "status": "proved",
   "theorems": [
    "C91_zero",
    "C91_needed",
    "C91_return",
    "C91_return_compiles",
    "C91_always_refuted"
   ],
   "note": "C91_zero, C91_return and C91_return_compiles; C91_needed is the converse; the conditions are shown necessary by C91_always_refuted."
  },
  {
   "property": "C92",
   "status": "proved",
   "theorems": [
    "C92_exactly",
    "C92_compiles",
    "C92_several_results",
    "C92_package",
    "C92_constant",
    "C92_every_call_refuted",
    "C92_names_apart"
   ],
   "note": "Generic functions whose type arguments follow from the arguments are left out (parameters have types). Refuted for all calls: C92_every_call_refuted."
  },
  {
   "property": "C93",
   "status": "proved",
   "theorems": [
    "C93_panic_point",
    "C93_entry_point",
    "C93_finish_point",
    "C93_hidden_does_not_compile",
    "C93_hidden_nil_does_not_compile",
    "C93_hidden_recover_refuted",
    "C93_hidden_panic_refuted"
   ],
   "note": "Names looked up in the scopes of the function, file, package and Go; hiding by something that fits is refuted by two theorems."
  },
  {
   "property": "C94",
   "status": "proved",
   "theorems": [
    "C94_nothing_new",
    "C94_nothing_lost",
    "C94_own_message",
    "C94_statement",
    "C94_later_value_refuted",
    "C94_panic_refuted"
   ],
   "note": "Simulation in both directions (C94_nothing_new, C94_nothing_lost), messages and calls (C94_own_message), the statement made by the rewriting (C94_statement, operands without function literals); later values and panics of operands as refutations. One operand is evaluated in one step."
  },
  {
   "property": "C95",
   "status": "proved",
   "theorems": [
    "C95_class",
    "C95_escaped",
    "C95_class_start",
    "C95_error_seen",
    "C95_match",
    "C95_glob",
    "C95_client",
    "C95_client_unclosed",
    "C95_once",
    "C95_work",
    "C95_client_missed_refuted",
    "C95_client_elsewhere_refuted",
    "C95_work_refuted"
   ],
   "note": "Match and Glob modelled from the published source of the standard library (classes, ranges, escapes and errors included); exactness proved for patterns of characters and stars, C95_class for classes, C95_escaped, C95_class_start and C95_error_seen for backslashes and errors, special characters in the path as refutations."
  },
  {
   "property": "C96",
   "status": "proved",
   "theorems": [
    "C96_serial",
    "C96_left",
    "C96_restored",
    "C96_never_lost",
    "C96_twice_refuted",
    "C96_started",
    "C96_started_shared_refuted",
    "C96_session"
   ],
   "note": "C96_serial (every interleaving as calls of C37), C96_left, C96_restored, C96_never_lost; C96_twice_refuted for one directory in two goroutines; C96_example"
  },
  {
   "property": "C97",
   "status": "proved",
   "theorems": [
    "C97_commit",
    "C97_no_deadlock",
    "C97_ends",
    "C97_exclusive",
    "C97_nothing_lost",
    "C97_on_disk",
    "C97_commit_loses_refuted"
   ],
   "note": "C97_no_deadlock, C97_ends, C97_exclusive, C97_nothing_lost, C97_on_disk, C97_commit (a Commit after the edits); C97_commit_loses_refuted shows what a Commit beside an edit does. Files parse and functions are found; an edit of a parsed file is one step."
  },
  {
   "property": "C98",
   "status": "proved",
   "theorems": [
    "C98_read_back",
    "C98_apart",
    "C98_one_line",
    "C98_snapshot",
    "C98_difference"
   ],
   "note": "Quote and the decoding of UTF-8 after the published source of the standard library, the reading of literals after the language specification (octal escapes, which Quote never writes, left out); the table of printable characters is any one without the byte order mark. C98_read_back, C98_apart, C98_one_line, C98_snapshot, C98_difference."
  }
 ]
}