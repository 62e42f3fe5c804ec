{
 "claims": [
  {
   "property": "C01",
   "status": "proved",
   "theorems": [
    "C01_stack_is_list"
   ],
   "note": ""
  },
  {
   "property": "C02",
   "status": "proved",
   "theorems": [
    "C02_astack_is_plain_stack"
   ],
   "note": ""
  },
  {
   "property": "C03",
   "status": "proved",
   "theorems": [
    "C03_astack_refines_atoms",
    "C03_next_archive_drains"
   ],
   "note": ""
  },
  {
   "property": "C04",
   "status": "proved",
   "theorems": [
    "C04_archive_effect"
   ],
   "note": ""
  },
  {
   "property": "C05",
   "status": "proved",
   "theorems": [
    "C05_active_len",
    "C05_active_len_doc_refuted"
   ],
   "note": "The doc comment's claim is refuted by a witness."
  },
  {
   "property": "C06",
   "status": "proved",
   "theorems": [
    "C06_iter_drains",
    "C06_iter_groups"
   ],
   "note": ""
  },
  {
   "property": "C07",
   "status": "proved",
   "theorems": [
    "C07_raz_is_zipper",
    "C07_lists_unique",
    "C07_new_is_empty",
    "C07_focus_cuts"
   ],
   "note": ""
  },
  {
   "property": "C08",
   "status": "proved",
   "theorems": [
    "C08_unfocus_keeps_sequence"
   ],
   "note": ""
  },
  {
   "property": "C09",
   "status": "proved",
   "theorems": [
    "C09_count_focus",
    "C09_usize_max_is_end",
    "C09_empty_any_index"
   ],
   "note": ""
  },
  {
   "property": "C10",
   "status": "proved",
   "theorems": [
    "C10_count_focus_out_of_range"
   ],
   "note": ""
  },
  {
   "property": "C11",
   "status": "proved",
   "theorems": [
    "C11_focus_unfocus_identity",
    "C11_focus_left_unfocus_identity",
    "C11_library_metas_lawful"
   ],
   "note": ""
  },
  {
   "property": "C12",
   "status": "proved",
   "theorems": [
    "C12_canonical_form"
   ],
   "note": ""
  },
  {
   "property": "C13",
   "status": "proved",
   "theorems": [
    "C13_archive_points_survive",
    "C13_from_new",
    "C13_at_most_one_dropped",
    "C18_focus_left_is_start"
   ],
   "note": ""
  },
  {
   "property": "C14",
   "status": "proved",
   "theorems": [
    "C14_count_meta"
   ],
   "note": ""
  },
  {
   "property": "C15",
   "status": "proved",
   "theorems": [
    "C15_names_meta"
   ],
   "note": ""
  },
  {
   "property": "C16",
   "status": "proved",
   "theorems": [
    "C16_focus_by_name",
    "C16_absent_name",
    "C16_duplicate_name_refuted"
   ],
   "note": "Without uniqueness of the name the claim is refuted by a witness."
  },
  {
   "property": "C17",
   "status": "proved",
   "theorems": [
    "C17_unit_ends",
    "C17_names_ends"
   ],
   "note": ""
  },
  {
   "property": "C18",
   "status": "proved",
   "theorems": [
    "C18_focus_left_is_start"
   ],
   "note": ""
  },
  {
   "property": "C19",
   "status": "proved",
   "theorems": [
    "C19_peek_is_pop"
   ],
   "note": ""
  },
  {
   "property": "C20",
   "status": "proved",
   "theorems": [
    "C20_push_counts_run",
    "C20_every_reached_has_session"
   ],
   "note": ""
  },
  {
   "property": "C21",
   "status": "proved",
   "theorems": [
    "C21_fold_up"
   ],
   "note": ""
  },
  {
   "property": "C22",
   "status": "proved",
   "theorems": [
    "C22_fold_up_gauged",
    "C22_fold_up_nl"
   ],
   "note": ""
  },
  {
   "property": "C23",
   "status": "proved",
   "theorems": [
    "C23_fold_lr"
   ],
   "note": ""
  },
  {
   "property": "C24",
   "status": "proved",
   "theorems": [
    "C24_fold_lr_meta"
   ],
   "note": ""
  },
  {
   "property": "C25",
   "status": "proved",
   "theorems": [
    "C25_fold_lr_archive"
   ],
   "note": ""
  },
  {
   "property": "C26",
   "status": "proved",
   "theorems": [
    "C26_map"
   ],
   "note": ""
  },
  {
   "property": "C27",
   "status": "proved",
   "theorems": [
    "C27_at_tail",
    "C27_u32_max_panics_refuted"
   ],
   "note": ""
  },
  {
   "property": "C28",
   "status": "proved",
   "theorems": [
    "C28_at_head",
    "C28_level_zero_panics_refuted"
   ],
   "note": ""
  },
  {
   "property": "C29",
   "status": "proved",
   "theorems": [
    "C29_just_archived_panics",
    "C29_pop_stops_early_refuted"
   ],
   "note": ""
  },
  {
   "property": "C30",
   "status": "proved",
   "theorems": [
    "C30_join",
    "C30_join_empty"
   ],
   "note": ""
  },
  {
   "property": "C31",
   "status": "proved",
   "theorems": [
    "C31_from_vec",
    "C31_empty",
    "C31_is_empty"
   ],
   "note": ""
  },
  {
   "property": "C32",
   "status": "proved",
   "theorems": [
    "C32_level_zero_loses_data_refuted"
   ],
   "note": ""
  },
  {
   "property": "C33",
   "status": "proved",
   "theorems": [
    "C33_level_range",
    "C33_level_distribution"
   ],
   "note": ""
  },
  {
   "property": "C34",
   "status": "proved",
   "theorems": [
    "C34_good_levels_checks_mirror",
    "C34_rejects_joined_refuted",
    "C34_accepted_tree_mangled_refuted"
   ],
   "note": ""
  },
  {
   "property": "C35",
   "status": "proved",
   "theorems": [
    "C35_moves_keep_tree",
    "C35_moves_keep_nodes"
   ],
   "note": ""
  },
  {
   "property": "C36",
   "status": "proved",
   "theorems": [
    "C36_up_undoes_down",
    "C36_up_undoes_down_reached",
    "C36_down_undoes_up"
   ],
   "note": ""
  },
  {
   "property": "C37",
   "status": "proved",
   "theorems": [
    "C37_bad_levels_refuted"
   ],
   "note": "The comment in the source is refuted by a witness."
  },
  {
   "property": "C38",
   "status": "proved",
   "theorems": [
    "C38_join",
    "C38_split",
    "C38_split_join"
   ],
   "note": ""
  },
  {
   "property": "C39",
   "status": "proved",
   "theorems": [
    "C39_right_iterator"
   ],
   "note": ""
  },
  {
   "property": "C40",
   "status": "proved",
   "theorems": [
    "C40_discard"
   ],
   "note": ""
  },
  {
   "property": "C41",
   "status": "proved",
   "theorems": [
    "C41_fold_lr",
    "C41_fold_lr_meta",
    "C41_fold_up",
    "C41_map"
   ],
   "note": ""
  },
  {
   "property": "C42",
   "status": "proved",
   "theorems": [
    "C42_skiplist_is_a_map"
   ],
   "note": ""
  },
  {
   "property": "C43",
   "status": "proved",
   "theorems": [
    "C43_length_zero_panics",
    "C43_length_64_debug_panics_refuted",
    "C42_skiplist_is_a_map"
   ],
   "note": ""
  },
  {
   "property": "C44",
   "status": "proved",
   "theorems": [
    "C44_find",
    "C44_union_empty"
   ],
   "note": ""
  },
  {
   "property": "C45",
   "status": "proved",
   "theorems": [
    "C45_union_panics",
    "C45_made_tries",
    "C45_equality_ignores_contents"
   ],
   "note": ""
  },
  {
   "property": "C46",
   "status": "proved",
   "theorems": [
    "C46_list",
    "C46_vec_list",
    "C46_vec",
    "C46_archive_stack",
    "C46_raz"
   ],
   "note": ""
  },
  {
   "property": "C47",
   "status": "proved",
   "theorems": [
    "C47_reverse",
    "C47_reverse_twice",
    "C47_empty",
    "C47_convention_refuted"
   ],
   "note": ""
  },
  {
   "property": "C48",
   "status": "proved",
   "theorems": [
    "C48_filter",
    "C48_filter_points",
    "C48_empty"
   ],
   "note": ""
  },
  {
   "property": "C49",
   "status": "proved",
   "theorems": [
    "C49_init",
    "C49_elements",
    "C49_zero"
   ],
   "note": ""
  },
  {
   "property": "C50",
   "status": "proved",
   "theorems": [
    "C50_insert_iraz",
    "C50_insert_vec",
    "C50_insert_agrees_refuted"
   ],
   "note": "Both insertions are characterised for all inputs; equality is refuted for batches 1 and 2."
  },
  {
   "property": "C51",
   "status": "proved",
   "theorems": [
    "C51_unnamed_stack_writes_nothing",
    "C51_unnamed_stack_is_list",
    "C51_unnamed_raz_is_persistent"
   ],
   "note": "Programs without names, clones allowed. The Raz theorem covers programs that start from the empty set of values."
  },
  {
   "property": "C52",
   "status": "proved",
   "theorems": [
    "C52_push_overwrites",
    "C52_push_onto_itself",
    "C52_stack_persistence_refuted",
    "C52_peek_persistence_refuted",
    "C52_up_discard_refuted"
   ],
   "note": ""
  },
  {
   "property": "C53",
   "status": "proved",
   "theorems": [
    "C53_raz_agrees",
    "C53_raz_agrees_live",
    "C53_any_bound",
    "C53_other_handles",
    "C53_stack_agrees"
   ],
   "note": ""
  },
  {
   "property": "C54",
   "status": "proved",
   "theorems": [
    "C54_to_list"
   ],
   "note": ""
  },
  {
   "property": "C55",
   "status": "proved",
   "theorems": [
    "C55_unique_elms"
   ],
   "note": ""
  },
  {
   "property": "C56",
   "status": "proved",
   "theorems": [
    "C56_max",
    "C56_max_empty"
   ],
   "note": ""
  },
  {
   "property": "C57",
   "status": "proved",
   "theorems": [
    "C57_any_accumulator",
    "C57_panics_exactly_on_invalid"
   ],
   "note": ""
  },
  {
   "property": "C58",
   "status": "proved",
   "theorems": [
    "C58_tokens",
    "C58_overlong",
    "C58_reference_drops_last",
    "C58_equal_reference_refuted"
   ],
   "note": "Equality with the reference tokenizer is refuted by witnesses; the positive part holds up to 99999."
  },
  {
   "property": "C59",
   "status": "proved",
   "theorems": [
    "C59_pipeline",
    "C59_evaluates",
    "C59_small_numbers"
   ],
   "note": ""
  },
  {
   "property": "C60",
   "status": "proved",
   "theorems": [
    "C60_total",
    "C60_adder_total"
   ],
   "note": ""
  },
  {
   "property": "C61",
   "status": "proved",
   "theorems": [
    "C61_history"
   ],
   "note": ""
  },
  {
   "property": "C62",
   "status": "proved",
   "theorems": [
    "C62_append",
    "C62_start",
    "C62_start_empty",
    "C62_gauge_kept_refuted"
   ],
   "note": ""
  },
  {
   "property": "C63",
   "status": "proved",
   "theorems": [
    "C63_append_agrees",
    "C63_extend"
   ],
   "note": ""
  },
  {
   "property": "C64",
   "status": "proved",
   "theorems": [
    "C64_insert_at_name",
    "C64_no_names",
    "C64_append"
   ],
   "note": ""
  },
  {
   "property": "C65",
   "status": "proved",
   "theorems": [
    "C65_name_history",
    "C65_too_small"
   ],
   "note": ""
  },
  {
   "property": "C66",
   "status": "proved",
   "theorems": [
    "C66_names_distinct",
    "C66_inc_from_distinct_refuted"
   ],
   "note": ""
  },
  {
   "property": "C67",
   "status": "proved",
   "theorems": [
    "C67_computations",
    "C67_structured"
   ],
   "note": ""
  },
  {
   "property": "C68",
   "status": "proved",
   "theorems": [
    "C68_extend",
    "C68_extend_rev",
    "C68_extend_rev_adds_refuted"
   ],
   "note": ""
  },
  {
   "property": "C69",
   "status": "proved",
   "theorems": [
    "C69_tree_fold_up_meta",
    "C69_tree_fold_lr_meta",
    "C69_tree_map",
    "C69_fold_up",
    "C69_fold_up_nl",
    "C69_fold_up_gauged",
    "C69_fold_lr",
    "C69_fold_lr_meta",
    "C69_fold_lr_archive",
    "C69_map"
   ],
   "note": ""
  },
  {
   "property": "C70",
   "status": "proved",
   "theorems": [
    "C70_rerun_fold_up",
    "C70_rerun_map",
    "C70_rerun_unchanged",
    "C70_rerun_tree",
    "C70_unnamed_reruns_all"
   ],
   "note": "C70_rerun_fold_up holds for every node function, so for fold_up, fold_up_nl and fold_up_gauged."
  },
  {
   "property": "C71",
   "status": "proved",
   "theorems": [
    "C71_rerun_fold_lr_meta",
    "C71_rerun_fold_lr_archive",
    "C71_rerun_unchanged"
   ],
   "note": "fold_lr is fold_lr_meta with a function that ignores the metadata."
  },
  {
   "property": "C72",
   "status": "proved",
   "theorems": [
    "C72_two_folds_one_namespace_refuted",
    "C72_two_maps_one_namespace_refuted"
   ],
   "note": "Relies on Adapton not comparing the arguments after ;; of memo!."
  },
  {
   "property": "C73",
   "status": "proved",
   "theorems": [
    "C73_isolated",
    "C73_stack_isolated",
    "C73_original_unaffected",
    "C73_version",
    "C73_two_versions",
    "C73_version_keeps_refuted",
    "C73_same_namespace_refuted"
   ],
   "note": "Relies on Adapton keeping the cells of different namespaces apart."
  },
  {
   "property": "C74",
   "status": "proved",
   "theorems": [
    "C74_sequence",
    "C74_entries"
   ],
   "note": "Durations are not modelled."
  },
  {
   "property": "C75",
   "status": "proved",
   "theorems": [
    "C75_answers",
    "C75_filter",
    "C75_reverse",
    "C75_max",
    "C75_to_list",
    "C75_unique",
    "C75_adder",
    "C75_to_string",
    "C75_find_max"
   ],
   "note": "C75_answers applies to any computation; the others show that the computations of the examples meet its hypothesis."
  },
  {
   "property": "C76",
   "status": "proved",
   "theorems": [
    "C76_vec",
    "C76_answers",
    "C76_adder",
    "C76_appends",
    "C76_same_data_refuted"
   ],
   "note": ""
  },
  {
   "property": "C77",
   "status": "proved",
   "theorems": [
    "C77_builds",
    "C77_prefixes"
   ],
   "note": "The sizes are given by any function."
  },
  {
   "property": "C78",
   "status": "proved",
   "theorems": [
    "C78_fold_up",
    "C78_fold_lr"
   ],
   "note": ""
  },
  {
   "property": "C79",
   "status": "proved",
   "theorems": [
    "C79_tree_fold_up_meta",
    "C79_tree_fold_lr_meta",
    "C79_fold_up",
    "C79_fold_up_nl",
    "C79_fold_up_gauged",
    "C79_fold_lr_meta",
    "C79_fold_lr",
    "C79_fold_lr_archive",
    "C79_program_fold_up",
    "C79_program_fold_lr_meta"
   ],
   "note": "An entry depends on all cells read below it; Adapton may reuse more."
  },
  {
   "property": "C80",
   "status": "proved",
   "theorems": [
    "C80_rerun_fold_up",
    "C80_rerun_unchanged",
    "C80_rerun_fold_lr_meta",
    "C80_programs_stay_home"
   ],
   "note": ""
  },
  {
   "property": "C81",
   "status": "proved",
   "theorems": [
    "C81_map_agrees",
    "C81_isolated",
    "C81_map_elsewhere",
    "C81_map_in_place",
    "C81_map_keeps_source_refuted"
   ],
   "note": "Element type and metadata type of argument and result are the same."
  },
  {
   "property": "C82",
   "status": "proved",
   "theorems": [
    "C82_from_tail",
    "C82_from_head",
    "C82_isolated",
    "C82_from_keeps_stack_refuted"
   ],
   "note": ""
  },
  {
   "property": "C83",
   "status": "proved",
   "theorems": [
    "C83_count_wraps",
    "C83_refused",
    "C83_beside",
    "C83_count_exact_refuted"
   ],
   "note": ""
  },
  {
   "property": "C84",
   "status": "proved",
   "theorems": [
    "C84_report",
    "C84_short",
    "C84_ahead_since",
    "C84_off_chart",
    "C84_stays_ahead_refuted",
    "C84_off_chart_behind_refuted"
   ],
   "note": "Exact arithmetic on nanoseconds; f64 rounding is not modelled."
  },
  {
   "property": "C85",
   "status": "proved",
   "theorems": [
    "C85_rows",
    "C85_last_change_missing",
    "C85_last_row_total_refuted"
   ],
   "note": "Exact arithmetic on nanoseconds; f64 rounding is not modelled."
  },
  {
   "property": "C86",
   "status": "proved",
   "theorems": [
    "C86_layout",
    "C86_names",
    "C86_documented_names_refuted"
   ],
   "note": ""
  },
  {
   "property": "C87",
   "status": "proved",
   "theorems": [
    "C87_inc",
    "C87_dec",
    "C87_next_greater_refuted"
   ],
   "note": ""
  },
  {
   "property": "C88",
   "status": "proved",
   "theorems": [
    "C88_range",
    "C88_small",
    "C88_10k",
    "C88_sum",
    "C88_hash"
   ],
   "note": ""
  },
  {
   "property": "C89",
   "status": "proved",
   "theorems": [
    "C89_find",
    "C89_split",
    "C89_union_branches_panics",
    "C89_union_finds_refuted",
    "C89_union_pairs"
   ],
   "note": "By C45 no client can make such tries; the theorems are about the private functions."
  },
  {
   "property": "C90",
   "status": "proved",
   "theorems": [
    "C90_at_tail",
    "C90_at_head"
   ],
   "note": ""
  },
  {
   "property": "C91",
   "status": "proved",
   "theorems": [
    "C91_at_tail",
    "C91_at_head",
    "C91_at_tail_added",
    "C91_at_head_added",
    "C91_unchanged",
    "C91_first",
    "C91_unnamed_runs_all"
   ],
   "note": ""
  },
  {
   "property": "C92",
   "status": "proved",
   "theorems": [
    "C92_path",
    "C92_count_path",
    "C92_right_path_short",
    "C92_left_path_short_refuted"
   ],
   "note": ""
  },
  {
   "property": "C93",
   "status": "proved",
   "theorems": [
    "C93_seen_from_right",
    "C93_seen_from_left",
    "C93_logarithmic",
    "C93_path"
   ],
   "note": "The random generator is modelled by all 64-bit words being equally likely."
  },
  {
   "property": "C94",
   "status": "proved",
   "theorems": [
    "C94_rerun_fold_up",
    "C94_rerun_map",
    "C94_convert"
   ],
   "note": "The random generator is modelled by all 64-bit words being equally likely, independently of everything else."
  },
  {
   "property": "C95",
   "status": "proved",
   "theorems": [
    "C95_cells_changed",
    "C95_average"
   ],
   "note": "For the average all 64-bit words are equally likely, independently of everything else."
  },
  {
   "property": "C96",
   "status": "proved",
   "theorems": [
    "C96_trie_equivalence",
    "C96_trie_hash",
    "C96_trie_compares",
    "C96_same_map_equal_refuted",
    "C96_names_equivalence",
    "C96_names_sets",
    "C96_names_order"
   ],
   "note": "That tries made from one map are equal is refuted."
  },
  {
   "property": "C97",
   "status": "proved",
   "theorems": [
    "C97_counting",
    "C97_edit",
    "C97_edit_count",
    "C97_focus_left",
    "C97_peek",
    "C97_peeks_cheap_refuted"
   ],
   "note": "Moves of tree cursors are counted, as are failing ones; stack operations and the copying of leaf vectors are not. That repeated peeks are cheap is refuted."
  },
  {
   "property": "C98",
   "status": "proved",
   "theorems": [
    "C98_average"
   ],
   "note": "For the average all 64-bit words are equally likely, independently of everything else. Scripts without peeks."
  },
  {
   "property": "C99",
   "status": "proved",
   "theorems": [
    "C99_map"
   ],
   "note": "Trusted: memo entries know the cells read and written, and a result that was overwritten is made again."
  },
  {
   "property": "C100",
   "status": "proved",
   "theorems": [
    "C100_rerun_map"
   ],
   "note": "Same engine as C99."
  },
  {
   "property": "C101",
   "status": "proved",
   "theorems": [
    "C101_names_many_edits",
    "C101_name_indexes",
    "C101_name_indexes_every_element_refuted",
    "C101_skiplist_vs_hashmap"
   ],
   "note": "The tests are modelled with what they draw and their constants as parameters; HashMap of the standard library is an association list."
  },
  {
   "property": "C102",
   "status": "proved",
   "theorems": [
    "C102_at_tail",
    "C102_at_head"
   ],
   "note": "Same engine as C99; the two conversions have their own tables, as they have their own functions."
  },
  {
   "property": "C103",
   "status": "proved",
   "theorems": [
    "C103_at_tail",
    "C103_at_head"
   ],
   "note": "Same engine as C99; the bound is that of C91 for the pure memo table."
  },
  {
   "property": "C104",
   "status": "proved",
   "theorems": [
    "C104_tail_fold_up",
    "C104_head_fold_up",
    "C104_tail_fold_lr",
    "C104_tail_map",
    "C104_head_map"
   ],
   "note": "Same engines as C79, C99 and C102. That map answers right is C99."
  },
  {
   "property": "C105",
   "status": "proved",
   "theorems": [
    "C105_answers",
    "C105_alone",
    "C105_writes",
    "C105_no_panic",
    "C105_was_bound",
    "C105_clones_refuted",
    "C105_names_refuted",
    "C105_lengths_refuted"
   ],
   "note": "The refuted theorems show the scripts that overwrite."
  },
  {
   "property": "C106",
   "status": "proved",
   "theorems": [
    "C106_unique_elms_store",
    "C106_names_refuted"
   ],
   "note": "One run from any store; memo is a call."
  },
  {
   "property": "C107",
   "status": "proved",
   "theorems": [
    "C107_tfold",
    "C107_tfoldnl",
    "C107_tfoldg",
    "C107_fold_meta",
    "C107_fold_archive",
    "C107_list_fold",
    "C107_list_max",
    "C107_work_tfold",
    "C107_work_tfoldg",
    "C107_work_fold_meta",
    "C107_two_refuted",
    "C107_from_refuted",
    "C107_apart"
   ],
   "note": "Engines as in C79; the bounds are those of C78. A left-to-right fold runs all nodes after the batch again."
  },
  {
   "property": "C108",
   "status": "proved",
   "theorems": [
    "C108_unique_elms_inc"
   ],
   "note": "Entries record the cells read and written; trees and skiplists are in two stores."
  },
  {
   "property": "C109",
   "status": "proved",
   "theorems": [
    "C109_rerun_unique_elms"
   ],
   "note": "Two runs, the first with an empty table; the bound is that of a left-to-right fold (C71, C80)."
  },
  {
   "property": "C110",
   "status": "proved",
   "theorems": [
    "C110_fold_out_memo",
    "C110_fold_out_rerun",
    "C110_fold_out_later",
    "C110_edit_refuted"
   ],
   "note": "Entries are recorded when a call returns, as in C69; the hope that a change to the left costs nothing is refuted."
  },
  {
   "property": "C111",
   "status": "proved",
   "theorems": [
    "C111_reverse",
    "C111_filter",
    "C111_in_place_refuted"
   ],
   "note": "Entries record the cells read and written; that the argument stays in place when it lies where the result is made is refuted."
  },
  {
   "property": "C112",
   "status": "proved",
   "theorems": [
    "C112_rerun_reverse",
    "C112_rerun_filter"
   ],
   "note": "Bound as in C70; the trees keep the level convention."
  },
  {
   "property": "C113",
   "status": "proved",
   "theorems": [
    "C113_list",
    "C113_vec_list",
    "C113_stack",
    "C113_plain_stack",
    "C113_kept_refuted"
   ],
   "note": "Cells of accumulators are kept apart from those of trees."
  },
  {
   "property": "C114",
   "status": "proved",
   "theorems": [
    "C114_rerun_list",
    "C114_rerun_vec_list",
    "C114_rerun_stack"
   ],
   "note": "Bound as in C70; the trees keep the level convention."
  },
  {
   "property": "C115",
   "status": "proved",
   "theorems": [
    "C115_tokens"
   ],
   "note": "Cells of the token stack are kept apart from those of trees."
  },
  {
   "property": "C116",
   "status": "proved",
   "theorems": [
    "C116_rerun",
    "C116_no_sign_refuted"
   ],
   "note": "Bound as in C70; the trees keep the level convention."
  },
  {
   "property": "C117",
   "status": "proved",
   "theorems": [
    "C117_parse"
   ],
   "note": "Cells of the number stack are kept apart from those of trees."
  },
  {
   "property": "C118",
   "status": "proved",
   "theorems": [
    "C118_adder"
   ],
   "note": "Cells of the stacks are kept apart from those of trees."
  },
  {
   "property": "C119",
   "status": "proved",
   "theorems": [
    "C119_adder_experiment"
   ],
   "note": "Timing is dropped; cells of the stacks and of token trees are kept apart from those of texts."
  },
  {
   "property": "C120",
   "status": "proved",
   "theorems": [
    "C120_list",
    "C120_vec_list",
    "C120_stack",
    "C120_plain_stack"
   ],
   "note": "Timing is dropped; cells of accumulators are kept apart from those of trees."
  },
  {
   "property": "C121",
   "status": "proved",
   "theorems": [
    "C121_list",
    "C121_vec_list",
    "C121_stack",
    "C121_plain_stack"
   ],
   "note": "Timing is dropped; cells of accumulators are kept apart from those of trees."
  }
 ]
}