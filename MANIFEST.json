{
 "claims": [
  {
   "property": "C01",
   "status": "proved",
   "theorems": [
    "C01_gcov_round_trip",
    "C01_gcov_round_trip_long_string_refuted"
   ],
   "note": "Proved for all strings whose encoded payload is below the reader's 16 KiB block; longer strings abort the reader (refuted theorem)."
  },
  {
   "property": "C02",
   "status": "proved",
   "theorems": [
    "C02_buffered_reads_are_stream_reads"
   ],
   "note": ""
  },
  {
   "property": "C03",
   "status": "partial",
   "theorems": [
    "C03_offset_round_trip_iff",
    "C03_offset_fields_recovered",
    "C03_offset_injective",
    "C03_offset_injective_all_refuted",
    "C03_offset_accessors"
   ],
   "note": "Holds exactly on line < 2^16 and discriminator < 2^16 (iff theorem); the unrestricted claim is false (refuted theorem: colliding locations)."
  },
  {
   "property": "C04",
   "status": "proved",
   "theorems": [
    "C04_afdo_round_trip",
    "C04_afdo_round_trip_empty",
    "C04_reading_twice_adds_everything_refuted"
   ],
   "note": "Whole-file round trip (header, summary, name table, functions, modules, working set), any version, into any existing profile. Findings: targets are overwritten, not added, by a second read; callsites without any location vanish; totals are recomputed."
  },
  {
   "property": "C05",
   "status": "proved",
   "theorems": [
    "C05_function_section_length",
    "C05_skip_lands_on_next_tag",
    "C05_default_version_refuted",
    "C05_name_table_length",
    "C05_name_table_length_refuted",
    "C05_module_length_refuted",
    "C05_working_set_length"
   ],
   "note": "Byte-level, every symbol map; holds for version < 3 and the exact shortfall is proved from version 3 on (refuted for the default version)."
  },
  {
   "property": "C06",
   "status": "proved",
   "theorems": [
    "C06_table",
    "C06_indices_resolve",
    "C06_writer_succeeds",
    "C06_written_names_distinct_refuted",
    "C06_file_names",
    "C06_rewritten_names"
   ],
   "note": "Index/table consistency for every symbol map, writer succeeds iff all names non-empty, FileIndexMap. Finding: rewriting of C4Ev/D4Ev names can make two written names equal."
  },
  {
   "property": "C07",
   "status": "proved",
   "theorems": [
    "C07_merge_adds_pointwise",
    "C07_merge_well_formed",
    "C07_merge_order_independent"
   ],
   "note": "Counters are 64-bit and wrap: sums are modulo 2^64."
  },
  {
   "property": "C08",
   "status": "proved",
   "theorems": [
    "C08_add_source_count",
    "C08_add_indirect_call_target",
    "C08_leaf_in_its_own_function_refuted"
   ],
   "note": "The selected node is the stack path cut at the first frame without line information; the refuted theorem shows the resulting misattribution."
  },
  {
   "property": "C09",
   "status": "proved",
   "theorems": [
    "C09_head_estimate",
    "C09_head_estimate_unique",
    "C09_call_left",
    "C09_flatten",
    "C09_merged",
    "C09_no_limit",
    "C09_totals_refuted",
    "C09_number_refuted"
   ],
   "note": "Flattening on address-based model of FlattenNestedInlineCallsites (EstimateHeadCount, FlattenCallsite, Merge, AddSymbolToMap, the std::map iteration with insertion). C09_flatten: succeeds, bound, functions kept, callees within the limit kept, removed callsites become call targets and outline functions; C09_merged: conservation of counts over all copies modulo 2^64. C09_totals_refuted / C09_number_refuted record that totals and the returned number are not what one would expect."
  },
  {
   "property": "C10",
   "status": "proved",
   "theorems": [
    "C10_throttle_keeps_hottest",
    "C10_negative_limit_keeps_all"
   ],
   "note": ""
  },
  {
   "property": "C11",
   "status": "proved",
   "theorems": [
    "C11_trim_call_targets"
   ],
   "note": ""
  },
  {
   "property": "C12",
   "status": "partial",
   "theorems": [
    "C12_elision_merges_when_idempotent",
    "C12_elision_merges_by_original_name",
    "C12_all_policy_names_have_no_suffix",
    "C12_elision_loses_no_sample",
    "C12_selected_policy_isra_refuted",
    "C12_selected_policy_not_idempotent_refuted"
   ],
   "note": "By-name merge proved for every naming rule that is idempotent on the map's names (always so for the policies all and none), conservation of samples for every policy and sharing. The 'carries no elidable suffix' part is false for the policy selected (two refuted theorems)."
  },
  {
   "property": "C13",
   "status": "partial",
   "theorems": [
    "C13_grouping",
    "C13_order_partial",
    "C13_self_recursion_only",
    "C13_no_abort_refuted"
   ],
   "note": "Termination, soundness of the grouping, and an exact dichotomy are proved for every graph: either every group comes once, callees first and mutually recursive functions share a group, or the computation aborts and two mutually recursive functions are in different groups. The claim that it never aborts is false: C13_no_abort_refuted (index passed by value in StrongConnect). Not modelled: the inclusive counts themselves."
  },
  {
   "property": "C14",
   "status": "proved",
   "theorems": [
    "C14_working_set_buckets",
    "C14_working_set_monotone",
    "C14_no_samples"
   ],
   "note": "ComputeWorkingSets and AddSymbolProfileToHistogram are modelled with 64/32-bit arithmetic; holds for profiles whose total fits 64 bits and whose number of counters fits 32 bits."
  },
  {
   "property": "C15",
   "status": "proved",
   "theorems": [
    "C15_summary",
    "C15_ascending_cutoffs"
   ],
   "note": "Profile summary (ProfileSummaryComputer) modelled with wrap-around arithmetic. A name whose symbol is aliased in the map is visited once per name, as in the code."
  },
  {
   "property": "C16",
   "status": "proved",
   "theorems": [
    "C16_offset_vaddr_inverse",
    "C16_segments_of_program_headers",
    "C16_segments_of_kernel_headers"
   ],
   "note": ""
  },
  {
   "property": "C17",
   "status": "proved",
   "theorems": [
    "C17_first_symbol_kept",
    "C17_aliases",
    "C17_symbol_containing_address",
    "C17_no_symbol",
    "C17_instruction_lookup"
   ],
   "note": ""
  },
  {
   "property": "C18",
   "status": "proved",
   "theorems": [
    "C18_round_trip",
    "C18_append_adds"
   ],
   "note": "Byte-level model of fprintf/fscanf formats; holds for maps with fewer than 2^31 entries (the reader's int loop variable); file system calls assumed to succeed."
  },
  {
   "property": "C19",
   "status": "proved",
   "theorems": [
    "C19_merge_pointwise",
    "C19_order_independent",
    "C19_total",
    "C19_total_mixed_refuted",
    "C19_total_count",
    "C19_total_count_merge"
   ],
   "note": "Pointwise sums and order independence proved. The sum-of-totals clause holds when both inputs carry branch-stack ranges or neither does; C19_total_mixed_refuted shows the mixed case loses the address samples."
  },
  {
   "property": "C20",
   "status": "partial",
   "theorems": [
    "C20_exact_counts",
    "C20_recorded_range",
    "C20_recorded_branch",
    "C20_range_end_valid_partial",
    "C20_wrong_path_range_refuted",
    "C20_match_cache_transparent",
    "C20_match_cache_across_files_refuted"
   ],
   "note": "Exact range/branch counts proved for every event list. The clause that wrong-path entries contribute nothing is refuted for ranges: the end of a range is taken from the adjacent entry even if it is wrong-path (C20_wrong_path_range_refuted); it holds when wrong-path entries are only at the top of the stack (_partial). The DSO match cache is transparent within a file and refuted across files when a pointer is reused."
  },
  {
   "property": "C21",
   "status": "partial",
   "theorems": [
    "C21_aggregation_per_function",
    "C21_counts",
    "C21_entry_counts",
    "C21_call_targets",
    "C21_call_target_sum_refuted",
    "C21_branches_without_ranges_are_dropped"
   ],
   "note": "Aggregation, instruction counts, totals, instruction numbers and entry counts proved in full. The target clause ('sum of the branch samples') is false when several instructions of a location call the same function: proved as stated for one branch per target, C21_call_target_sum_refuted shows the failure; what the code does (last branch wins) is C21_call_targets."
  },
  {
   "property": "C22",
   "status": "partial",
   "theorems": [
    "C22_stored_ranges_disjoint",
    "C22_find_is_containing_range",
    "C22_insert_inside_overrides",
    "C22_insert_fills_gaps",
    "C22_rejected_iff",
    "C22_partial_overlap_accepted_refuted",
    "C22_inverted_range_corrupts_refuted"
   ],
   "note": "Disjointness, lookup, override, gap filling proved for every history; 'any partial overlap is rejected' holds exactly as characterised by C22_rejected_iff and is otherwise false (refuted theorem)."
  },
  {
   "property": "C23",
   "status": "proved",
   "theorems": [
    "C23_unsigned_leb128",
    "C23_unsigned_leb128_roundtrip",
    "C23_signed_leb128",
    "C23_signed_leb128_roundtrip",
    "C23_overlong_encoding_refuted",
    "C23_signed_nine_bytes_refuted"
   ],
   "note": "At most ten bytes; longer padding is undefined behaviour (refuted theorem)."
  },
  {
   "property": "C24",
   "status": "proved",
   "theorems": [
    "C24_fixed_width",
    "C24_initial_length"
   ],
   "note": ""
  },
  {
   "property": "C25",
   "status": "partial",
   "theorems": [
    "C25_range_list_denotation",
    "C25_range_list_in_bounds",
    "C25_rnglist_exact",
    "C25_rnglist_denotation_partial",
    "C25_absolute_entry_relocated_refuted",
    "C25_rnglist_out_of_bounds_refuted"
   ],
   "note": "DWARF<=4 lists fully proved. DWARF 5: exact characterisation proved; it differs from DWARF for start-by-index/start-length entries under a non-zero base, and out-of-bounds reads are possible (refuted theorems)."
  },
  {
   "property": "C26",
   "status": "partial",
   "theorems": [
    "C26_paths",
    "C26_entry_first_partial",
    "C26_entry_first_refuted"
   ],
   "note": "Proved for every CFG: no abort, simple vertex-disjoint paths of forced edges only, every forced edge used unless it closes a cycle (then cut at the smallest block index). The entry clause is false: C26_entry_first_refuted; proved when no hot branch goes to the entry block (C26_entry_first_partial)."
  },
  {
   "property": "C27",
   "status": "proved",
   "theorems": [
    "C27_assembly_total",
    "C27_merge",
    "C27_entry_first",
    "C27_entry_behind_refuted"
   ],
   "note": "For every state of every history of merges. The entry block is first in the result of the builder if no forced edge and no initial chain puts a block before it (refuted theorem: a forced edge into the entry)."
  },
  {
   "property": "C28",
   "status": "proved",
   "theorems": [
    "C28_edge_score",
    "C28_gain",
    "C28_gain_whole",
    "C28_chain_score",
    "C28_initial_chains_refuted",
    "C28_zero_shortcut_refuted"
   ],
   "note": "Scores are exact integers, the scoring function is arbitrary. Edge distances are right for every assembly; the gain is exact for every assembly that is accepted, unless an initial chain of several blocks was given (refuted theorem: InitChainEdges leaves its edges unsorted); an assembly without score between the two chains counts as without gain (refuted theorem)."
  },
  {
   "property": "C29",
   "status": "proved",
   "theorems": [
    "C29_books",
    "C29_looked_at",
    "C29_merge_total"
   ],
   "note": "Edges inside one bundle are dropped by design; every other edge the layout looks at is recorded exactly once."
  },
  {
   "property": "C30",
   "status": "proved",
   "theorems": [
    "C30_partition",
    "C30_laid_out"
   ],
   "note": "Blocks with a frequency occur exactly once; further blocks (entry, landing pads, all blocks without function splitting) as laid_out says. Edges between functions that leave the given graphs are excluded by hypothesis."
  },
  {
   "property": "C31",
   "status": "proved",
   "theorems": [
    "C31_partition",
    "C31_greedy",
    "C31_off",
    "C31_abort_refuted",
    "C31_overflow_refuted"
   ],
   "note": "The whole of ChainClusterBuilder. The double freq/max(size,1) is an arbitrary function of both (no rounding assumption); overflow of int is undefined behaviour in the model, and the theorems assume total size and frequency below 2^31, ten times a weight below 2^31 and a limit of at most 2^27. Refuted without those: C31_overflow_refuted; and the CHECK that a chain starts with an entry can fail: C31_abort_refuted. int64_t sums of weights are unbounded."
  },
  {
   "property": "C32",
   "status": "proved",
   "theorems": [
    "C32_layout",
    "C32_each_block_once",
    "C32_indices",
    "C32_entry_and_together"
   ],
   "note": "OrderAll is modelled from the control flow graphs of a section (chains, clusters, scores, walk, sorting). C32_layout gives existence and the full description of the result; the corollaries state the user-level facts. Hypotheses (section_ok): consistent graphs, hot edges of the section stay inside the given functions, int bounds."
  },
  {
   "property": "C33",
   "status": "proved",
   "theorems": [
    "C33_symbol_file",
    "C33_no_symbol_twice",
    "C33_from_layout",
    "C33_entry_clone_refuted",
    "C33_name_clash_refuted"
   ],
   "note": "The whole symbol ordering file is described (C33_symbol_file); no symbol twice given distinct names that do not look like parts of each other (C33_no_symbol_twice; without that, C33_name_clash_refuted; with a clone of the entry block in the clusters, C33_entry_clone_refuted); the hypotheses follow from C32 for the output of the code layout (C33_from_layout)."
  },
  {
   "property": "C34",
   "status": "proved",
   "theorems": [
    "C34_inside",
    "C34_source",
    "C34_target",
    "C34_outside",
    "C34_found",
    "C34_blocks",
    "C34_build_succeeds",
    "C34_empty_source_refuted"
   ],
   "note": "Full characterisation of the lookup for both directions on every address-ordered disjoint block list, and that Build produces such a list from a well-formed binary (binary_ok) and never aborts on it. Binary search modelled as the halving loop. C34_empty_source_refuted: a branch source at the end of a function whose last block is empty is mapped to that empty block (or aborts with DCHECKs)."
  },
  {
   "property": "C35",
   "status": "proved",
   "theorems": [
    "C35_fallthrough"
   ],
   "note": "CanFallThrough is exactly the declarative fall-through path condition (blk indices inside the list; logging left out)."
  },
  {
   "property": "C36",
   "status": "proved",
   "theorems": [
    "C36_weights",
    "C36_one_edge_and_totals",
    "C36_kind",
    "C36_order_independent",
    "C36_succeeds",
    "C36_kind_order_refuted",
    "C36_on_top_refuted"
   ],
   "note": "Quantified over every iteration order of the three hash maps (branch counters, fall-through counters, mapped fall-throughs). Counts non-negative with total below 2^31 (weights are C++ ints). The two floating-point plausibility tests are an arbitrary predicate. C36_kind_order_refuted: the kind of an edge does depend on iteration order. C36_on_top_refuted: building on top of existing CFGs aborts on the first repeated intra-function edge."
  },
  {
   "property": "C37",
   "status": "proved",
   "theorems": [
    "C37_frequency_value",
    "C37_frequency_bounds",
    "C37_frequency_order_independent",
    "C37_cold_iff"
   ],
   "note": "CalculateFrequency modelled with int overflow as UB; theorems assume non-negative weights with in/out totals in int range"
  },
  {
   "property": "C38",
   "status": "proved",
   "theorems": [
    "C38_flow",
    "C38_ranges_valid",
    "C38_total",
    "C38_endpoints",
    "C38_empty_block_double_count_refuted"
   ],
   "note": "Flow equations (C38_flow), validity of every recorded range, totality of release builds, endpoint set. int64 counters are unbounded in the model. Finding: an empty end block makes the CFG builder count its fall-through edge twice (C38_empty_block_double_count_refuted)."
  },
  {
   "property": "C39",
   "status": "proved",
   "theorems": [
    "C39_selected",
    "C39_errors",
    "C39_disjoint",
    "C39_translate",
    "C39_distance",
    "C39_injective",
    "C39_map_at_end_refuted"
   ],
   "note": "Selection succeeds/conflicts exactly as stated for every event history (C39_selected, C39_errors), maps never overlap, translation is exactly the specified relation (C39_translate), distances and injectivity. Finding: a map ending exactly at 2^64 is selected but never used (C39_map_at_end_refuted)."
  },
  {
   "property": "C40",
   "status": "proved",
   "theorems": [
    "C40_lbr",
    "C40_spe",
    "C40_range_to_outside_refuted"
   ],
   "note": "Exact counts for LBR (C40_lbr) and SPE (C40_spe) as functions of the samples; int64 counters unbounded. Finding: ranges to untranslatable sources are counted (C40_range_to_outside_refuted)."
  },
  {
   "property": "C41",
   "status": "proved",
   "theorems": [
    "C41_merged_profile",
    "C41_strip_all",
    "C41_keep_sole",
    "C41_keep_cold",
    "C41_order_independent",
    "C41_keep_cold_threshold_refuted"
   ],
   "note": "Merging always succeeds; the output is characterised name by name for all four kinds. Finding: with --sample_threshold_frac large enough keep-cold symbols are dropped (C41_keep_cold_threshold_refuted). Not covered: --max_inline_callsite_nesting_level, which runs after the removal and can bring a removed symbol back."
  },
  {
   "property": "C42",
   "status": "proved",
   "theorems": [
    "C42_latest_process",
    "C42_unknown_thread",
    "C42_out_of_order_refuted",
    "C42_no_context"
   ],
   "note": "events of a thread in chronological order; refuted without that order"
  },
  {
   "property": "C43",
   "status": "proved",
   "theorems": [
    "C43_upward_closed",
    "C43_coverage",
    "C43_threshold_accuracy",
    "C43_ratio_zero",
    "C43_ratio_one",
    "C43_ratio_one_all_refuted",
    "C43_bad_ratio_aborts"
   ],
   "note": "double arithmetic via Flocq rounding, total size below 2^53; refuted: with ratio 1 zero-size symbols are not listed"
  },
  {
   "property": "C44",
   "status": "proved",
   "theorems": [
    "C44_threshold_is_percentile",
    "C44_threshold_unique",
    "C44_threshold_total",
    "C44_threshold_bad_percentile"
   ],
   "note": "nth_element modelled by its contract; hash map order arbitrary"
  },
  {
   "property": "C45",
   "status": "proved",
   "theorems": [
    "C45_evaluated_once",
    "C45_value",
    "C45_lazy"
   ],
   "note": "any number of evaluators, any history; adapters are arbitrary state-changing functions that do not re-enter the same evaluator"
  },
  {
   "property": "C46",
   "status": "proved",
   "theorems": [
    "C46_progress_range",
    "C46_done_is_100",
    "C46_set_done",
    "C46_progress_monotone",
    "C46_zero_weight_refuted"
   ],
   "note": "binary32 arithmetic via Flocq rounding; monotonicity for weight sums up to 167772 per node (exact float sums); refuted: all-zero weights report 100 before being done"
  },
  {
   "property": "C47",
   "status": "proved",
   "theorems": [
    "C47_unique_names",
    "C47_unconflicted_kept",
    "C47_one_copy_kept",
    "C47_order_independent",
    "C47_duplicate_count",
    "C47_self_alias_refuted",
    "C47_exactly_one_refuted"
   ],
   "note": "Quantified over every hash iteration order. C47_self_alias_refuted and C47_exactly_one_refuted show the stronger reading (exactly one copy always kept / only conflicts between different functions drop a function) is false of the code."
  },
  {
   "property": "C48",
   "status": "partial",
   "theorems": [
    "C48_parts_emitted_together",
    "C48_huge_count_dropped_refuted"
   ],
   "note": "Proved for every naming rule idempotent on the collected names and no symbol aliases; false for aggregated counts of 2^63 and more (C48_huge_count_dropped_refuted)."
  },
  {
   "property": "C49",
   "status": "proved",
   "theorems": [
    "C49_time_conversion_exact",
    "C49_time_conversion_monotone",
    "C49_short_counter"
   ],
   "note": ""
  },
  {
   "property": "C50",
   "status": "proved",
   "theorems": [
    "C50_hot_functions",
    "C50_total"
   ],
   "note": "Under binary_ok (functions address-ordered, disjoint, in 64 bits); total when every function has a block."
  },
  {
   "property": "C51",
   "status": "proved",
   "theorems": [
    "C51_same_text",
    "C51_injective",
    "C51_names",
    "C51_match_absolute",
    "C51_match_relative",
    "C51_match_kernel",
    "C51_mixed_names_refuted",
    "C51_note_type_refuted",
    "C51_build_id"
   ],
   "note": "LLVM path functions are arbitrary parameters. Findings: mixed absolute/relative names make the match depend on hash order; any GNU note, whatever its type, is taken for the build id."
  },
  {
   "property": "C52",
   "status": "proved",
   "theorems": [
    "C52_roundtrip",
    "C52_only_wellformed"
   ],
   "note": "Parser accepts exactly the well-formed sections; round trip."
  },
  {
   "property": "C53",
   "status": "proved",
   "theorems": [
    "C53_read_back"
   ],
   "note": "The reader is part of the specification (WriterSpec.v); it follows LLVM's BasicBlockSectionsProfileReader, which is not part of the repository."
  },
  {
   "property": "C54",
   "status": "proved",
   "theorems": [
    "C54_counts_add_up",
    "C54_order_independent",
    "C54_targets_add_refuted",
    "C54_total_order_refuted"
   ],
   "note": "Parsing the profile file is LLVM's. Findings: call targets are overwritten, not added (C54_targets_add_refuted); a total without samples counts or is lost depending on order (C54_total_order_refuted)."
  },
  {
   "property": "C55",
   "status": "proved",
   "theorems": [
    "C55_queues",
    "C55_no_ties"
   ],
   "note": "both queue implementations against the set of candidates left by the history; gains are integers in the model (doubles in the code: no NaN), a pair of chain pointers is the pair of ids"
  },
  {
   "property": "C56",
   "status": "proved",
   "theorems": [
    "C56_selective_keeps_functions_refuted",
    "C56_flat",
    "C56_selective"
   ],
   "note": "C56_flat, C56_selective (exact), C56_selective_keeps_functions_refuted: selective mode drops samples of callees inlined in cold functions."
  },
  {
   "property": "C57",
   "status": "proved",
   "theorems": [
    "C57_counters",
    "C57_inlined_hot",
    "C57_source_kept_refuted",
    "C57_hybrid"
   ],
   "note": "C57_hybrid, C57_counters, C57_inlined_hot; C57_source_kept_refuted: the const source is modified."
  },
  {
   "property": "C58",
   "status": "proved",
   "theorems": [
    "C58_one_to_one",
    "C58_narrow_never_stops",
    "C58_write_then_read",
    "C58_wide_lines_refuted",
    "C58_llvm_profile"
   ],
   "note": "Exact description of the profile handed to LLVM's writer (its serialisation is LLVM's); C58_write_then_read composes it with the model of the LLVM reader (C54). C58_wide_lines_refuted: lines above 65535 are merged."
  },
  {
   "property": "C59",
   "status": "proved",
   "theorems": [
    "C59_ranges",
    "C59_no_target",
    "C59_branches",
    "C59_misaligned_refuted"
   ],
   "note": "Exact characterisation of the ranges and branches for aligned targets; misaligned targets give reversed ranges (theorem). The int64 additions are unbounded in the model."
  },
  {
   "property": "C60",
   "status": "proved",
   "theorems": [
    "C60_consumed",
    "C60_any",
    "C60_sequences",
    "C60_lookup",
    "C60_late_end_refuted",
    "C60_version5_refuted",
    "C60_endless_refuted"
   ],
   "note": "Versions 2-4 in full generality (every encoding of every program); C60_any characterises the lookup for arbitrary overlapping rows; version 5, late ends and wrapping lengths are refuted by theorems. Not modelled: two-level (0xf006) tables, strx forms."
  },
  {
   "property": "C61",
   "status": "proved",
   "theorems": [
    "C61_stack",
    "C61_nowhere",
    "C61_no_position",
    "C61_functions_disjoint",
    "C61_merge",
    "C61_nested_function_refuted",
    "C61_call_file_zero_refuted",
    "C61_implicit_line_refuted",
    "C61_spanning_call_refuted",
    "C61_high_first_refuted",
    "C61_cyclic_refuted"
   ],
   "note": "C61_stack, C61_nowhere and C61_no_position for well formed entries (spec in DwTreeSpec.v, independent of the handler's state); C61_functions_disjoint and C61_merge for arbitrary input. Entries are decoded trees (bytes of .debug_info are not modelled here). The _refuted theorems show DWARF that is legal but mishandled: nested out-of-line functions, call file 0, implicit_const decl_line, calls spanning adjacent ranges, high_pc before low_pc, cyclic references."
  },
  {
   "property": "C62",
   "status": "proved",
   "theorems": [
    "C62_section",
    "C62_unit",
    "C62_skip",
    "C62_terminates",
    "C62_terminates_entries",
    "C62_terminates_abbrevs",
    "C62_addrx_refuted",
    "C62_addrx2_refuted",
    "C62_implicit_const_refuted",
    "C62_line_strp_refuted",
    "C62_abbrev_code_refuted"
   ],
   "note": "whole section, unit, skipping and termination proved for all encodings and handlers; the exceptions in the statement are _refuted theorems"
  },
  {
   "property": "C63",
   "status": "proved",
   "theorems": [
    "C63_stack",
    "C63_nowhere",
    "C63_no_position",
    "C63_lines_only",
    "C63_strx_refuted"
   ],
   "note": "The bytes of the sections of a binary to inline stacks, composing C22, C24, C25, C60, C61 and C62. Version 5 range lists are an arbitrary function; C63_strx_refuted shows that indexed strings end the program."
  },
  {
   "property": "C64",
   "status": "proved",
   "theorems": [
    "C64_gcov_file",
    "C64_succeeds"
   ],
   "note": "symbols may occur twice (.symtab and .dynsym); succeeds if functions have names"
  },
  {
   "property": "C65",
   "status": "proved",
   "theorems": [
    "C65_recognised",
    "C65_segments",
    "C65_section_by_name",
    "C65_symbols",
    "C65_function_symbols",
    "C65_build_id",
    "C65_short_name_refuted",
    "C65_empty_section_refuted",
    "C65_no_section_headers_refuted"
   ],
   "note": "for files whose sections are all named; the exceptions in brackets are the _refuted theorems"
  },
  {
   "property": "C66",
   "status": "proved",
   "theorems": [
    "C66_from_the_binary"
   ],
   "note": "from ELF bytes + text samples to the profile GCC reads, existence and contents; extras, v5 range lists, .dwo arbitrary"
  },
  {
   "property": "C67",
   "status": "proved",
   "theorems": [
    "C67_counts",
    "C67_refuses",
    "C67_ranges_disjoint",
    "C67_every_target",
    "C67_every_fall_through",
    "C67_append_adds",
    "C67_executions_refuted"
   ],
   "note": "closed form of the ranges; assumes four-byte aligned addresses below 2^64 - 4096. C67_executions_refuted: the count of a range at a target omits fall-throughs into it"
  },
  {
   "property": "C68",
   "status": "proved",
   "theorems": [
    "C68_sum",
    "C68_sum_perf",
    "C68_incremental",
    "C68_order",
    "C68_failure_changes_nothing",
    "C68_missing_input_fails"
   ],
   "note": "the file that is written reads back as the sum if it has fewer than 2^31 entries per section (fits_file, as C18)"
  },
  {
   "property": "C69",
   "status": "proved",
   "theorems": [
    "C69_addresses",
    "C69_cluster_file",
    "C69_symbols",
    "C69_sampled_is_executed",
    "C69_sampled_functions",
    "C69_jumps_stay",
    "C69_edges",
    "C69_layout_input"
   ],
   "note": "Sum of transitions times ten must be below 2^31 (the run adds and multiplies in int); cloning and initial chains are not part of the run; the score function, the density comparison and the edge check are parameters."
  },
  {
   "property": "C70",
   "status": "proved",
   "theorems": [
    "C70_used",
    "C70_errors",
    "C70_counters",
    "C70_spe_counters",
    "C70_order",
    "C70_stats",
    "C70_disassembly",
    "C70_type",
    "C70_lbr_run",
    "C70_spe_run",
    "C70_refuses",
    "C70_no_build_id_refuted",
    "C70_counter_stat_refuted"
   ],
   "note": "All of the run from options and files. Opaque: the content of the files (a world), the disassembler, the score functions. No cloning, no initial chains."
  },
  {
   "property": "C71",
   "status": "proved",
   "theorems": [
    "C71_maps",
    "C71_result",
    "C71_aborts",
    "C71_executions",
    "C71_branches"
   ],
   "note": "Counts at offsets are stated for binaries with one executable segment (C71_executions, C71_branches); result, maps and aborts for all. What quipper reads from a file, the disassembler and the regular expression are parameters."
  },
  {
   "property": "C72",
   "status": "proved",
   "theorems": [
    "C72_accepts",
    "C72_observe",
    "C72_ids",
    "C72_weights",
    "C72_queries",
    "C72_program_hot_join",
    "C72_copy",
    "C72_address",
    "C72_clone_of_clone_refuted"
   ],
   "note": "History of calls on the cfg objects; documented precondition of ClonePath (original blocks) is a hypothesis, and its necessity is C72_clone_of_clone_refuted. Queries assume weights whose totals fit an int."
  },
  {
   "property": "C73",
   "status": "proved",
   "theorems": [
    "C73_read",
    "C73_malformed_rejected_refuted",
    "C73_missing_file_reported_refuted",
    "C73_long_type_overflows_refuted",
    "C73_profile",
    "C73_hint_kept",
    "C73_written",
    "C73_all_kept",
    "C73_each_hint_kept_refuted",
    "C73_deltas_separate_refuted",
    "C73_located_hints_written_refuted"
   ],
   "note": "C73_profile, C73_hint_kept, C73_all_kept, C73_read, C73_written; symbol aliases left out; the refuted theorems are the limits of the promise"
  },
  {
   "property": "C74",
   "status": "proved",
   "theorems": [
    "C74_names_of_profile",
    "C74_list",
    "C74_disjoint",
    "C74_overlap_only_by_suffix",
    "C74_disjoint_refuted"
   ],
   "note": "C74_names_of_profile, C74_list, C74_disjoint, C74_overlap_only_by_suffix; C74_disjoint_refuted: not disjoint when suffixes are elided"
  },
  {
   "property": "C75",
   "status": "proved",
   "theorems": [
    "C75_symbol_info",
    "C75_named_functions",
    "C75_all_aliases",
    "C75_order_independent_refuted",
    "C75_absolute_symbol_refuted"
   ],
   "note": "C75_symbol_info, C75_named_functions, C75_all_aliases; LLVM's answers about symbols are inputs"
  },
  {
   "property": "C76",
   "status": "proved",
   "theorems": [
    "C76_refused",
    "C76_names",
    "C76_propeller",
    "C76_create",
    "C76_exit",
    "C76_layout",
    "C76_errors",
    "C76_missing_list",
    "C76_looked_for",
    "C76_ignore_build_id_works_refuted",
    "C76_profiler_works_refuted"
   ],
   "note": "Two flags do less than they say: C76_ignore_build_id_works_refuted, C76_profiler_works_refuted."
  },
  {
   "property": "C77",
   "status": "proved",
   "theorems": [
    "C77_overlap",
    "C77_symmetric",
    "C77_accurate",
    "C77_zero",
    "C77_range_refuted",
    "C77_total_wraps_refuted",
    "C77_listed",
    "C77_each_once",
    "C77_cutoff_zero_refuted",
    "C77_tool",
    "C77_compare_function_refuted"
   ],
   "note": "accuracy, symmetry, range and zero of the overlap; exact contents and order of the listing; refuted: printed range, 64-bit totals, cutoff 0, the flag on the command line"
  },
  {
   "property": "C78",
   "status": "proved",
   "theorems": [
    "C78_functions",
    "C78_exact",
    "C78_colon_refuted"
   ],
   "note": "functions and their order; two profiles print the same text iff they are the same up to table order (both directions); refuted for names with a colon"
  },
  {
   "property": "C79",
   "status": "proved",
   "theorems": [
    "C79_entry_count",
    "C79_unique",
    "C79_order_independent",
    "C79_order_independent_refuted"
   ],
   "note": "EntryCount satisfies the relation for every symbol, is the only such count with one callee at a location, and is then independent of table order; refuted without that"
  },
  {
   "property": "C80",
   "status": "proved",
   "theorems": [
    "C80_sampled",
    "C80_behind_end_refuted",
    "C80_nested_refuted"
   ],
   "note": "exact result for tables without overlaps and segments that keep the order of the addresses; refuted: addresses behind the end of a function, nested functions"
  }
 ]
}