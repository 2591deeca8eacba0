{
 "claims": [
  {
   "property": "C01",
   "status": "proved",
   "theorems": [
    "C01_merge_is_deep_merge",
    "C01_mapping_merge_by_key"
   ],
   "note": "deep merge on abstract values for marker-free overlays; key-by-key effect on full nodes, overlay values may contain markers"
  },
  {
   "property": "C02",
   "status": "proved",
   "theorems": [
    "C02_merge_key_order"
   ],
   "note": "overlay keys distinct and marker-free"
  },
  {
   "property": "C03",
   "status": "proved",
   "theorems": [
    "C03_merge_sequence"
   ],
   "note": ""
  },
  {
   "property": "C04",
   "status": "proved",
   "theorems": [
    "C04_merge_scalar",
    "C04_merge_scalar_without_markers"
   ],
   "note": "text after substitution is stated with SpecFormat.expected, under C09's side conditions"
  },
  {
   "property": "C05",
   "status": "proved",
   "theorems": [
    "C05_merge_idempotent"
   ],
   "note": ""
  },
  {
   "property": "C06",
   "status": "proved",
   "theorems": [
    "C06_edits_stay_inside_the_documents",
    "C06_separate_values_stay_separate",
    "C06_no_dangling_pointers"
   ],
   "note": "path queries are assumed to return nodes reachable from the document they are asked about"
  },
  {
   "property": "C07",
   "status": "proved",
   "theorems": [
    "C07_merge_total",
    "C07_merge_fails_only_with_unsupported_type",
    "C07_merge_document_refuted"
   ],
   "note": "also shown: merging a document node into an emptied document crashes"
  },
  {
   "property": "C08",
   "status": "proved",
   "theorems": [
    "C08_marker_key_edits_every_entry",
    "C08_marker_key_exact",
    "C08_marker_key_text",
    "C08_marker_key_succeeds",
    "C08_marker_key_empty_map_refuted"
   ],
   "note": "non-empty mappings; for empty mappings a bogus entry appears (refuted theorem)"
  },
  {
   "property": "C09",
   "status": "proved",
   "theorems": [
    "C09_every_string_has_pieces",
    "C09_format_is_simultaneous",
    "C09_format_is_simultaneous_refuted",
    "C09_plain_text_is_copied"
   ],
   "note": "exact boundary in the statement; refuted theorem shows the defect outside it"
  },
  {
   "property": "C10",
   "status": "proved",
   "theorems": [
    "C10_percent_v_keeps_value_iff",
    "C10_marker_keeps_text_iff",
    "C10_percent_v_keeps_value_refuted"
   ],
   "note": "both directions"
  },
  {
   "property": "C11",
   "status": "proved",
   "theorems": [
    "C11_added_entry_has_no_marker",
    "C11_added_elements_have_no_marker",
    "C11_plain_content_added_verbatim",
    "C11_markers_leak_refuted"
   ],
   "note": "exact boundary; refuted theorem for %%vv"
  },
  {
   "property": "C12",
   "status": "proved",
   "theorems": [
    "C12_merge_scalar_comments",
    "C12_merge_entry_comments",
    "C12_merge_sequence_comments",
    "C12_merge_mapping_comments",
    "C12_merge_key_comments",
    "C12_replace_comments",
    "C12_combine_comments",
    "C12_comments_kept_without_gap",
    "C12_comments_kept_refuted"
   ],
   "note": "exact rule, with the counterexample to the documented rule"
  },
  {
   "property": "C13",
   "status": "proved",
   "theorems": [
    "C13_delete_removes_exactly_the_selection",
    "C13_meaning_of_prune"
   ],
   "note": "documents whose mappings pair every key with a value and whose inner nodes are mappings/sequences"
  },
  {
   "property": "C14",
   "status": "proved",
   "theorems": [
    "C14_selection_order_irrelevant",
    "C14_delete_again_changes_nothing"
   ],
   "note": "same document hypotheses as C13"
  },
  {
   "property": "C15",
   "status": "proved",
   "theorems": [
    "C15_delete_never_crashes"
   ],
   "note": "same document hypotheses as C13"
  },
  {
   "property": "C16",
   "status": "proved",
   "theorems": [
    "C16_replace_installs_the_value"
   ],
   "note": "selected nodes independent of each other; the value and the document do not share nodes"
  },
  {
   "property": "C17",
   "status": "proved",
   "theorems": [
    "C17_combine_adds",
    "C17_combine_rejects_non_integers",
    "C17_combine_overflow_refuted"
   ],
   "note": "sum in range; wrap-around outside (refuted theorem)"
  },
  {
   "property": "C18",
   "status": "proved",
   "theorems": [
    "C18_combine_booleans",
    "C18_combine_rejects_non_booleans"
   ],
   "note": ""
  },
  {
   "property": "C19",
   "status": "proved",
   "theorems": [
    "C19_combine_text",
    "C19_combine_non_scalar",
    "C19_combine_frame"
   ],
   "note": ""
  },
  {
   "property": "C20",
   "status": "proved",
   "theorems": [
    "C20_applied_iff_document_qualifies",
    "C20_qualification_decided",
    "C20_refuted_one_result_suffices"
   ],
   "note": "path finder abstract; condition values are finite trees"
  },
  {
   "property": "C21",
   "status": "proved",
   "theorems": [
    "C21_document_selection"
   ],
   "note": ""
  },
  {
   "property": "C22",
   "status": "proved",
   "theorems": [
    "C22_disqualified_document_untouched",
    "C22_nothing_found_and_ignored"
   ],
   "note": "path finder abstract"
  },
  {
   "property": "C23",
   "status": "proved",
   "theorems": [
    "C23_explicit_action_wins",
    "C23_default_used_only_without_action",
    "C23_history_irrelevant"
   ],
   "note": ""
  },
  {
   "property": "C24",
   "status": "proved",
   "theorems": [
    "C24_injected_path_resolves",
    "C24_inject_path_resolves",
    "C24_marker_names_refuted",
    "C24_several_paths_resolve",
    "C24_several_inject_paths_resolve"
   ],
   "note": "names free of format markers (refuted theorem without); both the missing query and injectPath; C24_several_paths_resolve and C24_several_inject_paths_resolve: any number of queries or injectPaths, pairwise parting ways."
  },
  {
   "property": "C25",
   "status": "proved",
   "theorems": [
    "C25_inject_changes_only_its_path",
    "C25_exact_result"
   ],
   "note": "same setting as C24; exact result also given; a sequence or scalar on the way is lost (example)"
  },
  {
   "property": "C26",
   "status": "proved",
   "theorems": [
    "C26_dotted_path_builds_its_keys",
    "C26_empty_path_has_no_document",
    "C26_escaped_dot_splits_the_key",
    "C26_backslash_lost_refuted"
   ],
   "note": ""
  },
  {
   "property": "C27",
   "status": "proved",
   "theorems": [
    "C27_bracketed_names_build_their_keys",
    "C27_bracketed_names_at_the_start",
    "C27_embedded_quote_refuted",
    "C27_final_backslash_refuted",
    "C27_white_space"
   ],
   "note": ""
  },
  {
   "property": "C28",
   "status": "proved",
   "theorems": [
    "C28_path_parsing_total",
    "C28_path_lists_total"
   ],
   "note": ""
  },
  {
   "property": "C29",
   "status": "proved",
   "theorems": [
    "C29_accepted_paths_are_keys",
    "C29_expressions_rejected"
   ],
   "note": ""
  },
  {
   "property": "C30",
   "status": "proved",
   "theorems": [
    "C30_documented_order"
   ],
   "note": ""
  },
  {
   "property": "C31",
   "status": "proved",
   "theorems": [
    "C31_common_then_own",
    "C31_right_when_not_overwritten",
    "C31_exact_list",
    "C31_refuted_command_line_overlay"
   ],
   "note": "full when the shared list has no spare capacity; C31_exact_list says what happens in general; counterexample to the unrestricted claim"
  },
  {
   "property": "C32",
   "status": "proved",
   "theorems": [
    "C32_duplicates_merged",
    "C32_each_path_once"
   ],
   "note": ""
  },
  {
   "property": "C33",
   "status": "proved",
   "theorems": [
    "C33_directories_expanded",
    "C33_no_directory_left",
    "C33_errors_reported",
    "C33_where_files_are"
   ],
   "note": ""
  },
  {
   "property": "C34",
   "status": "proved",
   "theorems": [
    "C34_expansion_terminates",
    "C34_refuted_symlink",
    "C34_every_yaml_link_loops"
   ],
   "note": ""
  },
  {
   "property": "C35",
   "status": "proved",
   "theorems": [
    "C35_longest_common_directory",
    "C35_refuted_relative",
    "C35_refuted_root"
   ],
   "note": "with counterexamples at the boundary"
  },
  {
   "property": "C36",
   "status": "proved",
   "theorems": [
    "C36_structure_kept",
    "C36_distinct_outputs",
    "C36_distinct_files",
    "C36_refuted_relative"
   ],
   "note": "with counterexample"
  },
  {
   "property": "C37",
   "status": "proved",
   "theorems": [
    "C37_inside_output_directory",
    "C37_refuted_root",
    "C37_refuted_unclean"
   ],
   "note": "with counterexamples"
  },
  {
   "property": "C38",
   "status": "proved",
   "theorems": [
    "C38_exactly_live_documents",
    "C38_empty_file_not_written",
    "C38_written_whole"
   ],
   "note": ""
  },
  {
   "property": "C39",
   "status": "proved",
   "theorems": [
    "C39_style_is_union",
    "C39_style_names",
    "C39_refuted_duplicate_style"
   ],
   "note": "with counterexample"
  },
  {
   "property": "C40",
   "status": "proved",
   "theorems": [
    "C40_comments_removed_below_root",
    "C40_all_comments_removed",
    "C40_refuted_document_comment",
    "C40_in_memory"
   ],
   "note": "with counterexample; also on the heap the program works on (C40_in_memory), used by C67 and C70"
  },
  {
   "property": "C41",
   "status": "proved",
   "theorems": [
    "C41_same_output_as_sequential",
    "C41_same_documents_as_sequential"
   ],
   "note": "workers interleave at single heap operations (Fine.v); documents of different files and overlay values share no node initially (set_up); path library assumed well-behaved (good_finder)"
  },
  {
   "property": "C42",
   "status": "proved",
   "theorems": [
    "C42_success_means_no_failure",
    "C42_failed_file_never_written",
    "C42_error_is_genuine",
    "C42_other_files_depend_on_schedule"
   ],
   "note": "workers interleave at single heap operations (Fine.v); documents of different files and overlay values share no node initially (set_up); path library assumed well-behaved (good_finder)"
  },
  {
   "property": "C43",
   "status": "proved",
   "theorems": [
    "C43_bounded",
    "C43_never_stuck",
    "C43_always_ends"
   ],
   "note": "workers interleave at single heap operations (Fine.v); documents of different files and overlay values share no node initially (set_up); path library assumed well-behaved (good_finder)"
  },
  {
   "property": "C44",
   "status": "proved",
   "theorems": [
    "C44_every_file_exactly_once"
   ],
   "note": "workers interleave at single heap operations (Fine.v); documents of different files and overlay values share no node initially (set_up); path library assumed well-behaved (good_finder)"
  },
  {
   "property": "C45",
   "status": "proved",
   "theorems": [
    "C45_values_merge_in_order",
    "C45_last_scalar_wins",
    "C45_single_definition_kept"
   ],
   "note": "marker-free and alias-free values"
  },
  {
   "property": "C46",
   "status": "proved",
   "theorems": [
    "C46_flag_then_file_then_default",
    "C46_environment_has_no_effect",
    "C46_refuted_environment"
   ],
   "note": "viper's lookup order is an assumption of the model (documented behaviour of the library); values are texts"
  },
  {
   "property": "C47",
   "status": "proved",
   "theorems": [
    "C47_accepted_actions",
    "C47_printed_names",
    "C47_missing_actions"
   ],
   "note": "letter case is Go's ToLower: two non-ASCII capitals (U+0130, U+212A) also fold to ASCII letters and are accepted (stated)"
  },
  {
   "property": "C48",
   "status": "proved",
   "theorems": [
    "C48_omitted_action_is_merge",
    "C48_given_action_kept"
   ],
   "note": ""
  },
  {
   "property": "C49",
   "status": "proved",
   "theorems": [
    "C49_merge_keeps_pairs",
    "C49_documents_stay_well_formed"
   ],
   "note": "whole histories of overlays"
  },
  {
   "property": "C50",
   "status": "proved",
   "theorems": [
    "C50_replace_keeps_links",
    "C50_merge_keeps_links",
    "C50_combine_keeps_links",
    "C50_delete_keeps_links",
    "C50_inject_keeps_links",
    "C50_anchors_lost_refuted",
    "C50_value_anchors_lost_refuted"
   ],
   "note": "Five positive theorems with the exact condition per action; two refutations of the unconditional statement."
  },
  {
   "property": "C51",
   "status": "proved",
   "theorems": [
    "C51_exactly_the_planned_files",
    "C51_colliding_locations_depend_on_schedule"
   ],
   "note": "workers interleave at single heap operations (Fine.v); documents of different files and overlay values share no node initially (set_up); path library assumed well-behaved (good_finder)"
  },
  {
   "property": "C52",
   "status": "proved",
   "theorems": [
    "C52_log_flag_never_crashes",
    "C52_refuted_log_level_in_file"
   ],
   "note": ""
  },
  {
   "property": "C53",
   "status": "proved",
   "theorems": [
    "C53_env_command_shows_settings"
   ],
   "note": ""
  },
  {
   "property": "C54",
   "status": "proved",
   "theorems": [
    "C54_merge_edits_only_the_selection",
    "C54_combine_edits_only_the_selection",
    "C54_first_error_is_reported"
   ],
   "note": ""
  },
  {
   "property": "C55",
   "status": "proved",
   "theorems": [
    "C55_exact_files",
    "C55_no_file_twice",
    "C55_errors_reported",
    "C55_walks_files",
    "C55_expansion_terminates",
    "C55_linked_directory_ignored"
   ],
   "note": "filepath.Walk over an oracle of lstat, stat and directory listings. Links: a linked directory is silently ignored."
  },
  {
   "property": "C56",
   "status": "proved",
   "theorems": [
    "C56_inputs_loaded_once",
    "C56_output_paths",
    "C56_relative_paths"
   ],
   "note": "Composition of decoding (parameter), expansion, duplicate merging, reading, -p and output paths."
  },
  {
   "property": "C57",
   "status": "proved",
   "theorems": [
    "C57_overlays_in_order",
    "C57_exact_overlays",
    "C57_slices_faithful"
   ],
   "note": "In order when no room is left behind the common list; exact result in general; refuted with two common overlays and -q (same defect as C31). The slices of the code are shown to have the modelled contents."
  },
  {
   "property": "C58",
   "status": "proved",
   "theorems": [
    "C58_all_or_error",
    "C58_on_a_file_system"
   ],
   "note": "Both directions, under the same assumptions on the surroundings as C33/C34; C58_on_a_file_system derives them from the os oracle."
  },
  {
   "property": "C59",
   "status": "proved",
   "theorems": [
    "C59_documents_independent",
    "C59_rendered_documents"
   ],
   "note": "Assumes that the decoder gives documents nodes of their own (docs_apart) and set_up as in C41."
  },
  {
   "property": "C60",
   "status": "proved",
   "theorems": [
    "C60_whole_run"
   ],
   "note": "Composition of C56, C57, C42, C51 and C59; the overlays in force are those meant unless -q leaves room behind the common ones (C57, C90)."
  },
  {
   "property": "C61",
   "status": "proved",
   "theorems": [
    "C61_accepts_exactly_the_format",
    "C61_unambiguous"
   ],
   "note": "Decoder of yaml.v3 into structs modelled from its source (see DESIGN); merge keys and the key nodes count as unknown."
  },
  {
   "property": "C62",
   "status": "proved",
   "theorems": [
    "C62_wrong_action_refused",
    "C62_malformed_query_refused"
   ],
   "note": "For every place an overlay or query can stand in the file."
  },
  {
   "property": "C63",
   "status": "proved",
   "theorems": [
    "C63_ways_of_writing",
    "C63_one_overlay",
    "C63_single_query"
   ],
   "note": "Overlay values are the same nodes in both documents; `alike` is the independent notion of saying the same."
  },
  {
   "property": "C64",
   "status": "proved",
   "theorems": [
    "C64_flags_as_common_overlay",
    "C64_bad_flags_refused",
    "C64_no_query_no_overlay"
   ],
   "note": "An omitted action stays omitted on the command line (treated as merge, C48); the name is used in messages only."
  },
  {
   "property": "C65",
   "status": "proved",
   "theorems": [
    "C65_null_entry_never_succeeds",
    "C65_null_entry_crashes",
    "C65_no_null_entries"
   ],
   "note": "A finding: null entries crash. The crash theorem assumes earlier entries expand without error."
  },
  {
   "property": "C66",
   "status": "proved",
   "theorems": [
    "C66_no_values_no_template",
    "C66_rendered_with_merged_values",
    "C66_sprig_functions_refused",
    "C66_sprig_makes_no_difference"
   ],
   "note": "text/template is a parameter; template.go's order of calls makes sprig unusable (finding)."
  },
  {
   "property": "C67",
   "status": "proved",
   "theorems": [
    "C67_from_texts_to_files"
   ],
   "note": "Composition of C45, C55-C66 and C41-C44. Conditions: no null entries; documents apart; directories walkable."
  },
  {
   "property": "C68",
   "status": "proved",
   "theorems": [
    "C68_output_file_as_given",
    "C68_output_directory",
    "C68_where_it_is_written"
   ],
   "note": "together with C36 and C37 this covers every entry"
  },
  {
   "property": "C69",
   "status": "proved",
   "theorems": [
    "C69_overlays_are_functions_on_trees",
    "C69_every_run_that_ends",
    "C69_one_overlay",
    "C69_only_the_tree_matters",
    "C69_key_paths_are_queries_on_trees",
    "C69_key_paths_find_the_node"
   ],
   "note": "apply_each (the program) refined by t_apply_each (SpecMeaning.v), a function on trees. Two side conditions: a merging overlay that finds a node and one around it finds the inner one first (all_plainly; nothing is asked of replace, combine, delete and inject), and document queries with values only in heaps without Alias pointers."
  },
  {
   "property": "C70",
   "status": "proved",
   "theorems": [
    "C70_files_hold_the_meaning"
   ],
   "note": "C67 with C69: the rendered trees are the function's values. The assumptions of C67 (documents of different files and overlay values apart) and of C69."
  },
  {
   "property": "C71",
   "status": "proved",
   "theorems": [
    "C71_any_order",
    "C71_each_path_by_itself",
    "C71_nested_paths_refuted"
   ],
   "note": "key paths (dot notation); refuted theorem when one path lies inside the other; inject excluded: the order of two injections is the order of the new keys"
  },
  {
   "property": "C72",
   "status": "proved",
   "theorems": [
    "C72_again_changes_nothing",
    "C72_double_key_refuted"
   ],
   "note": "refuted theorem for a key present twice; sequences and combine excluded (C05)"
  },
  {
   "property": "C73",
   "status": "proved",
   "theorems": [
    "C73_status_zero_means_done",
    "C73_refused_before_writing",
    "C73_failing_overlay_shows",
    "C73_ends_with_a_status",
    "C73_negative_indent_crashes"
   ],
   "note": "Composition of C46, C67, C41-C43 and the process (Main.v). cobra's and viper's behaviour are part of the model (order of calls, precedence, casts); instructions with nil pointers are refused at once (in Go a nil overlay crashes a worker later)."
  },
  {
   "property": "C74",
   "status": "proved",
   "theorems": [
    "C74_style_flag_reaches_output",
    "C74_what_the_flag_takes",
    "C74_names_accepted",
    "C74_refuted_single_quote"
   ],
   "note": "enumflag's parsing and printing are modelled after its documentation (external). Refuted theorem for the documented spelling singleQuote."
  },
  {
   "property": "C75",
   "status": "proved",
   "theorems": [
    "C75_flag_decides",
    "C75_file_decides_without_flag",
    "C75_unknown_words_accepted"
   ],
   "note": "yaml.v3's parsing of the flag's text is a parameter (sr_parse), as in C64."
  },
  {
   "property": "C76",
   "status": "proved",
   "theorems": [
    "C76_step_paths_are_queries_on_trees",
    "C76_step_paths_are_good_finders",
    "C76_key_paths_are_paths_of_names",
    "C76_never_nested",
    "C76_each_found_node_rewritten_once"
   ],
   "note": "The path language's evaluation (github.com/vmware-labs/yaml-jsonpath) is not in /repo: its behaviour on these steps is assumed as written in Steps.v; filters compare texts."
  },
  {
   "property": "C77",
   "status": "proved",
   "theorems": [
    "C77_understood",
    "C77_forms_and_order",
    "C77_dashdash_ignored",
    "C77_words_refused",
    "C77_refuted_letters",
    "C77_help",
    "C77_help_then_word",
    "C77_unknown_flag",
    "C77_refuted_help_first",
    "C77_process",
    "C77_process_words",
    "C77_process_help"
   ],
   "note": "How cobra v1.1.3 and pflag scan arguments is not in /repo: modelled from their documentation and source in Argv.v. Refuted expectations: `-si file`, `--help -i file`."
  },
  {
   "property": "C78",
   "status": "proved",
   "theorems": [
    "C78_expression_without_inject_path",
    "C78_inject_path_must_be_keys",
    "C78_refuted_documented_inject_path",
    "C78_keys_need_no_inject_path",
    "C78_inject_path_instead_of_query",
    "C78_refuted_action_matters",
    "C78_refuted_empty_lists"
   ],
   "note": "Three documented or natural expectations are refuted by general theorems."
  },
  {
   "property": "C79",
   "status": "proved",
   "theorems": [
    "C79_every_file_ends",
    "C79_every_schedule_ends",
    "C79_process_ends",
    "C79_refuted_self_containing_value"
   ],
   "note": "The budget ('fuel') of the heap model is discharged: from some budget on nothing depends on it. Preparing the instructions (symbolic links in a circle) is the remaining source of runs that do not end, C34."
  },
  {
   "property": "C80",
   "status": "proved",
   "theorems": [
    "C80_env",
    "C80_env_ends",
    "C80_env_one",
    "C80_takes_no_flags",
    "C80_one_name_only",
    "C80_refuted_environment"
   ],
   "note": "With refuted theorem for the documented effect of the environment variables. How cobra dispatches is modelled from its documentation."
  },
  {
   "property": "C81",
   "status": "proved",
   "theorems": [
    "C81_completion",
    "C81_completion_refused",
    "C81_write_no_file"
   ],
   "note": "The texts completion and help print (cobra's) are arbitrary in the model."
  },
  {
   "property": "C82",
   "status": "proved",
   "theorems": [
    "C82_entry_by_entry",
    "C82_overlays_compose",
    "C82_refuted_change_of_kind"
   ],
   "note": "Keys of the two values must be distinct within each mapping for the second part; first part exact on nodes, second on values."
  },
  {
   "property": "C83",
   "status": "proved",
   "theorems": [
    "C83_killed_at_any_point",
    "C83_stdout_touches_no_file",
    "C83_other_files_kept",
    "C83_run_again",
    "C83_uninterrupted",
    "C83_parts_do_not_matter",
    "C83_refuted_old_text_kept",
    "C83_refuted_close_errors_reported"
   ],
   "note": "A kill is between system calls; a write is applied in order (no reordering of disk blocks by a power failure). Creating the output directory is not modelled."
  },
  {
   "property": "C84",
   "status": "proved",
   "theorems": [
    "C84_no_file_panics",
    "C84_crash_is_genuine",
    "C84_no_schedule_crashes",
    "C84_always_returns",
    "C84_process_status",
    "C84_refuted_no_query",
    "C84_refuted_no_inject_path",
    "C84_refuted_emptied_document"
   ],
   "note": "Set up and tidy as in C41 and C79. Panics inside the libraries (yaml.v3 encoder, yaml-jsonpath) are outside the model, except SetIndent on a negative number."
  },
  {
   "property": "C85",
   "status": "proved",
   "theorems": [
    "C85_no_race_between_workers",
    "C85_no_race_with_rendering",
    "C85_documents_are_private",
    "C85_accessed_nodes_exist",
    "C85_only_shared_write",
    "C85_race_free_unless_default_inject",
    "C85_refuted_for_default_inject"
   ],
   "note": "A race is stated on the next operations of two goroutines: node accesses are whole nodes; the path library may read anything reachable from the node it is given. Accesses to the logger, the errgroup and the channels (synchronised libraries) are not modelled."
  },
  {
   "property": "C86",
   "status": "proved",
   "theorems": [
    "C86_error_is_a_first_failure",
    "C86_one_place_per_file",
    "C86_the_only_failing_file"
   ],
   "note": "The text of the message is not modelled: the document number is that of the failing workload (workstream.go:49 prints it with the path of the file the workload belongs to). Set up as in C41."
  },
  {
   "property": "C87",
   "status": "proved",
   "theorems": [
    "C87_reading_keeps_documents_apart",
    "C87_reading_is_tidy",
    "C87_files_hold_the_meaning",
    "C87_reading_ends",
    "C87_reading_does_not_crash",
    "C87_process_ends",
    "C87_process_does_not_crash",
    "C87_status_zero_means_done"
   ],
   "note": "The conditions on yaml.v3 and yaml-jsonpath (SpecRead.v: fresh_nodes, well_formed, finds_reachable, finds_in_document) are assumptions about external code, stated as hypotheses; RepoTests.v and the examples show that they can be met. The overlays in force with -q are those of C90."
  },
  {
   "property": "C88",
   "status": "proved",
   "theorems": [
    "C88_one_place",
    "C88_place_given",
    "C88_places_differ",
    "C88_place_inside",
    "C88_files",
    "C88_standard_output"
   ],
   "note": "texts_written is the conclusion of C60, C67, C70, C73 and C87 (which say what the texts are); the theorems here say what it means for single files and for standard output."
  },
  {
   "property": "C89",
   "status": "proved",
   "theorems": [
    "C89_same_trees_same_text",
    "C89_result_is_local",
    "C89_running_again"
   ],
   "note": "For documents and overlays in the scope of C69/C70 (situated, all_plainly)."
  },
  {
   "property": "C90",
   "status": "proved",
   "theorems": [
    "C90_meant_unless_overwritten",
    "C90_meant_without_room",
    "C90_room_of_a_doubling_runtime",
    "C90_own_or_of_a_later_input",
    "C90_taken_over",
    "C90_written_as_meant",
    "C90_written_with_anothers_overlays"
   ],
   "note": "The end-to-end theorems C60, C67, C70, C73, C87 and C89 say what is written in terms of the overlays in force (overlays_for), with no condition on the runtime; C90 relates these to the ones meant."
  },
  {
   "property": "C91",
   "status": "proved",
   "theorems": [
    "C91_one_entry_after_the_other",
    "C91_empty_mapping",
    "C91_plain_entry",
    "C91_marker_entry",
    "C91_marker_entry_empty_mapping",
    "C91_target_not_a_mapping"
   ],
   "note": "Generalises C01, C02 and C08, which are about overlays with distinct plain keys and with one marker key."
  },
  {
   "property": "C92",
   "status": "proved",
   "theorems": [
    "C92_idle_overlays_change_nothing",
    "C92_idle_inputs_pass_through",
    "C92_idle_overlay_may_be_left_out"
   ],
   "note": ""
  },
  {
   "property": "C93",
   "status": "proved",
   "theorems": [
    "C93_nodes_not_selected_stay",
    "C93_other_paths_stay"
   ],
   "note": ""
  }
 ]
}