{
 "claims": [
  {
   "property": "C01",
   "status": "proved",
   "theorems": [
    "C01_buffer_size_exact",
    "C01_top_address",
    "C01_levels_invisible"
   ],
   "note": ""
  },
  {
   "property": "C02",
   "status": "proved",
   "theorems": [
    "C02_memory_safe_no_leak",
    "C02_clear_frees_all"
   ],
   "note": ""
  },
  {
   "property": "C03",
   "status": "partial",
   "theorems": [
    "C03_sentinel_free_harmless_refuted",
    "C03_sentinel_characterised",
    "C03_sentinel_records_invisible_partial"
   ],
   "note": "The general claim is false: refuted with a witness; the exact condition and the true part are proved."
  },
  {
   "property": "C04",
   "status": "proved",
   "theorems": [
    "C04_inside_disjoint",
    "C04_inside_any_refuted"
   ],
   "note": ""
  },
  {
   "property": "C05",
   "status": "proved",
   "theorems": [
    "C05_write_read_roundtrip",
    "C05_written_file_wellformed",
    "C05_read_traces_canonical",
    "C05_fixed_blob_refuted",
    "C05_pointer4_refuted",
    "C05_odd_integer_refuted",
    "C05_late_size_refuted"
   ],
   "note": "Round trip for every representable trace; the excluded cases are refuted with witnesses."
  },
  {
   "property": "C06",
   "status": "proved",
   "theorems": [
    "C06_reader_complete"
   ],
   "note": ""
  },
  {
   "property": "C07",
   "status": "proved",
   "theorems": [
    "C07_reader_exact"
   ],
   "note": ""
  },
  {
   "property": "C08",
   "status": "proved",
   "theorems": [
    "C08_truncation",
    "C08_names_cut_refuted",
    "C08_sentinel_cut_refuted",
    "C08_type_cut_refuted"
   ],
   "note": "Two kinds of cuts cause undefined behaviour and one gives a wrong type size without points; each has a witness."
  },
  {
   "property": "C09",
   "status": "partial",
   "theorems": [
    "C09_crash_keeps_points_refuted",
    "C09_cut_between_entries"
   ],
   "note": "The claim is false: a cut inside any entry loses all points (refuted for every file); a cut between entries keeps all completed points (proved)."
  },
  {
   "property": "C10",
   "status": "proved",
   "theorems": [
    "C10_max_points",
    "C10_rest_ignored"
   ],
   "note": ""
  },
  {
   "property": "C11",
   "status": "proved",
   "theorems": [
    "C11_indices_valid",
    "C11_formats_valid"
   ],
   "note": ""
  },
  {
   "property": "C12",
   "status": "partial",
   "theorems": [
    "C12_get_types_refuted",
    "C12_get_types_exactly",
    "C12_get_names",
    "C12_n_types",
    "C12_checked_read",
    "C12_many_names_loop"
   ],
   "note": "The claim is false for files whose types have invalid name indices (refuted, C12_get_types_refuted); on accepted files get_types is safe exactly if the name indices are valid, and get_names is exact (proved)."
  },
  {
   "property": "C13",
   "status": "proved",
   "theorems": [
    "C13_undefined_exactly",
    "C13_terminates",
    "C13_safe_inputs"
   ],
   "note": "Exact characterisation of the inputs with undefined behaviour, and a sufficient condition in the words of the claim."
  },
  {
   "property": "C14",
   "status": "proved",
   "theorems": [
    "C14_values_decoded",
    "C14_signed_in_range",
    "C14_unsigned_in_range"
   ],
   "note": ""
  },
  {
   "property": "C15",
   "status": "proved",
   "theorems": [
    "C15_pointer_sizes"
   ],
   "note": ""
  },
  {
   "property": "C16",
   "status": "proved",
   "theorems": [
    "C16_statement_ids",
    "C16_always_defined_refuted"
   ],
   "note": "The id is determined iff the point has a STATEMENT_ID entry; otherwise indeterminate (witness)."
  },
  {
   "property": "C17",
   "status": "proved",
   "theorems": [
    "C17_histories",
    "C17_append_only",
    "C17_add_trace",
    "C17_count_wraps"
   ],
   "note": "All histories of add_trace, add_trace_points, query_trace, get_trace and n_traces; n_traces is modulo 2^32."
  },
  {
   "property": "C18",
   "status": "proved",
   "theorems": [
    "C18_no_memory"
   ],
   "note": ""
  },
  {
   "property": "C19",
   "status": "proved",
   "theorems": [
    "C19_sound_complete",
    "C19_integer_results"
   ],
   "note": ""
  },
  {
   "property": "C20",
   "status": "proved",
   "theorems": [
    "C20_cartesian",
    "C20_each_once",
    "C20_count_wraps",
    "C20_lost_refuted"
   ],
   "note": "Below 2^64 combinations; the wrap beyond is proved and witnessed."
  },
  {
   "property": "C21",
   "status": "partial",
   "theorems": [
    "C21_two_results",
    "C21_one_result_refuted",
    "C21_dedup_refuted",
    "C21_predicate_aborts"
   ],
   "note": "The claim is false: exactly two results per point (proved), one of them without sizes and aux; refuted with witnesses, also after duplicate removal."
  },
  {
   "property": "C22",
   "status": "proved",
   "theorems": [
    "C22_integer_predicates",
    "C22_integer_values",
    "C22_read_variables"
   ],
   "note": ""
  },
  {
   "property": "C23",
   "status": "proved",
   "theorems": [
    "C23_invalid_exactly",
    "C23_comparisons_false"
   ],
   "note": ""
  },
  {
   "property": "C24",
   "status": "proved",
   "theorems": [
    "C24_well_typed_total",
    "C24_only_assertions",
    "C24_ill_typed_abort",
    "C24_skipped_refuted",
    "C24_unchecked_index"
   ],
   "note": "Well-typed trees are total; ill-typed nodes abort when evaluated; skipped nodes and unchecked indices are witnessed."
  },
  {
   "property": "C25",
   "status": "partial",
   "theorems": [
    "C25_float_values",
    "C25_float4_partial",
    "C25_double_refuted"
   ],
   "note": "Proved for 4-byte floats and for the values of doubles stored; the claim is false for 8-byte doubles, which are read through a float (refuted with a witness)."
  },
  {
   "property": "C26",
   "status": "proved",
   "theorems": [
    "C26_maximisers"
   ],
   "note": ""
  },
  {
   "property": "C27",
   "status": "proved",
   "theorems": [
    "C27_seeded"
   ],
   "note": ""
  },
  {
   "property": "C28",
   "status": "proved",
   "theorems": [
    "C28_filter_exact",
    "C28_results_selected",
    "C28_all",
    "C28_none"
   ],
   "note": ""
  },
  {
   "property": "C29",
   "status": "proved",
   "theorems": [
    "C29_keeps_firsts",
    "C29_meaning"
   ],
   "note": ""
  },
  {
   "property": "C30",
   "status": "partial",
   "theorems": [
    "C30_by_value_partial",
    "C30_by_alias_partial",
    "C30_collision_refuted",
    "C30_dangling_refuted",
    "C30_query_refuted"
   ],
   "note": "Proved for a cache that owns its keys and, for the aliasing behaviour, when hash codes do not collide; the cache in the code keeps dangling references (refuted)."
  },
  {
   "property": "C31",
   "status": "proved",
   "theorems": [
    "C31_round_trip",
    "C31_storable",
    "C31_injective",
    "C31_many_names_refuted"
   ],
   "note": "For every history of API calls with fewer than 2^32 names and types per trace: text without NUL, same traces, same text again, same query answers (C31_round_trip); C31_storable for any in-range database, with trailing text ignored; with 2^32 names the round trip fails (C31_many_names_refuted), which is outside the property for any realistic input. Memory assumed sufficient; the Boost text archive is modelled character by character from its documented format."
  },
  {
   "property": "C32",
   "status": "proved",
   "theorems": [
    "C32_sharing_invisible",
    "C32_same_entry_iff_equal",
    "C32_no_leak",
    "C32_excess_bits_refuted"
   ],
   "note": "For all programs over the two pools, with reference counting; variables with bits beyond their size (not produced by the reader) are refuted."
  },
  {
   "property": "C33",
   "status": "partial",
   "theorems": [
    "C33_equivalence",
    "C33_hash_partial",
    "C33_distinguishes_partial",
    "C33_point_equality",
    "C33_points_refuted",
    "C33_trace_hash_partial",
    "C33_trace_hash_refuted"
   ],
   "note": "Proved for types, buffer sizes, variables, point data, predicates and free variables; for points and traces == ignores the variables (operator== compares m_data with itself): exact form proved, claim refuted."
  },
  {
   "property": "C34",
   "status": "partial",
   "theorems": [
    "C34_simple",
    "C34_variables_partial",
    "C34_points_partial",
    "C34_blob_sizes_refuted",
    "C34_mixed_refuted"
   ],
   "note": "Proved for types, buffer sizes, non-blob variables, blobs of one size, and points without blobs; refuted for blobs of different sizes (out-of-bounds read) and mixed variables (cycle)."
  },
  {
   "property": "C35",
   "status": "proved",
   "theorems": [
    "C35_add_trace_points",
    "C35_queryable",
    "C35_unchecked_names_refuted"
   ],
   "note": "Name indices are not checked by the call (witness)."
  },
  {
   "property": "C36",
   "status": "partial",
   "theorems": [
    "C36_aux_refuted",
    "C36_aux_never_stored",
    "C36_aux_undefined"
   ],
   "note": "The claim is false: every call with aux values has undefined behaviour (refuted, and proved for all such arrays)."
  },
  {
   "property": "C37",
   "status": "proved",
   "theorems": [
    "C37_array",
    "C37_no_double_free",
    "C37_read_traces",
    "C37_counts_modulo",
    "C37_counts_refuted",
    "C37_no_memory_refuted"
   ],
   "note": "For counts below 2^32 and when memory is available; both conditions are shown necessary."
  },
  {
   "property": "C38",
   "status": "proved",
   "theorems": [
    "C38_converted",
    "C38_client",
    "C38_nulls",
    "C38_nulls_or_refuted",
    "C38_freed_once"
   ],
   "note": "The meaning is preserved when NULL_PREDICATE occurs only under AND; refuted for OR."
  },
  {
   "property": "C39",
   "status": "partial",
   "theorems": [
    "C39_everything_but_aux",
    "C39_separate_intact",
    "C39_no_aux_intact",
    "C39_aux_refuted",
    "C39_finishes",
    "C39_no_new_crash"
   ],
   "note": "False in full: two threads that read auxiliary entries at once exchange values through a static variable (C39_aux_refuted). Proved for all files and schedules: everything but the auxiliary values is intact (C39_everything_but_aux), no deadlock, no new crash; all of it is intact if no two threads read auxiliary values at once, in particular if at most one file has such entries."
  },
  {
   "property": "C40",
   "status": "proved",
   "theorems": [
    "C40_whole_points",
    "C40_finishes",
    "C40_progress"
   ],
   "note": "For every program, number of threads, schedule and crash point; reading the finished file is C41_log_read_back."
  },
  {
   "property": "C41",
   "status": "partial",
   "theorems": [
    "C41_log_read_back",
    "C41_signalling_refuted"
   ],
   "note": "Proved for all programs, values and schedules except signalling float NaNs (refuted: logged as quiet NaNs) and strings of 4 GiB or more; declared pointers or arrays of C++ strings are excluded because the inserted code does not compile."
  },
  {
   "property": "C42",
   "status": "proved",
   "theorems": [
    "C42_pack",
    "C42_no_file",
    "C42_injective",
    "C42_unpack",
    "C42_bounds_refuted"
   ],
   "note": "For file ids below 2^23 and ids below 2^40 (2^63 without file); the boundaries are sharp (refuted with witnesses)."
  },
  {
   "property": "C43",
   "status": "partial",
   "theorems": [
    "C43_file_refuted",
    "C43_query_file",
    "C43_selected",
    "C43_get_trace"
   ],
   "note": "The claim is false: file id 0 also selects points without file id in query-trace (refuted); true for traces whose points all have file ids, and get-trace is exact (proved)."
  },
  {
   "property": "C44",
   "status": "partial",
   "theorems": [
    "C44_points_refuted",
    "C44_files",
    "C44_exact",
    "C44_wrapper_refuted"
   ],
   "note": "The claim is false for add-trace-points and for wrappers made by restrict-to-file (refuted); proved for all histories of add-trace, and the exact order for mixed histories."
  },
  {
   "property": "C45",
   "status": "partial",
   "theorems": [
    "C45_readable",
    "C45_not_readable",
    "C45_no_timeout",
    "C45_only_readable",
    "C45_unopenable_refuted",
    "C45_unopenable_hangs_refuted",
    "C45_unopenable_waits",
    "C45_many_files_refuted",
    "C45_large_timeout_refuted",
    "C45_no_leak"
   ],
   "note": "Proved for files that can be opened with a descriptor below 1024 (stream when readable, error within the timeout, no leaked descriptor); files that cannot be opened cause undefined behaviour or a wait for the whole timeout, forever if it is 0 (refuted)."
  },
  {
   "property": "C46",
   "status": "partial",
   "theorems": [
    "C46_comparison_refuted",
    "C46_balanced_refuted",
    "C46_completes",
    "C46_reads",
    "C46_one_reading",
    "C46_unambiguous",
    "C46_integers",
    "C46_expressions"
   ],
   "note": "The claim is false for >=, <= (abort) and operators without operands (refuted); exactly the other trees print, as the s-expression of the predicate, unambiguously (proved)."
  },
  {
   "property": "C47",
   "status": "partial",
   "theorems": [
    "C47_pointer_refuted",
    "C47_pointer_valid",
    "C47_capacity"
   ],
   "note": "The claim is false: adding traces may move the vector (refuted); exact condition for validity proved."
  },
  {
   "property": "C48",
   "status": "proved",
   "theorems": [
    "C48_indices",
    "C48_names_injective",
    "C48_single_file",
    "C48_project",
    "C48_project_refuted",
    "C48_literals",
    "C48_type_texts",
    "C48_one_line",
    "C48_struct_pointer"
   ],
   "note": "For all request sequences and any order of hash table traversal; the tables of projects ignore case (C48_project_refuted), for them it holds when no two texts differ only in case."
  },
  {
   "property": "C49",
   "status": "proved",
   "theorems": [
    "C49_history_independent",
    "C49_end_to_end"
   ],
   "note": "Includes the path from the history of calls to the array seen by the caller."
  },
  {
   "property": "C50",
   "status": "partial",
   "theorems": [
    "C50_no_overlap",
    "C50_one_thread",
    "C50_overlap_refuted",
    "C50_lost_index_refuted"
   ],
   "note": "The claim is false: overlapping requests get equal or invalid indices (refuted); requests that do not overlap in time are answered consistently (proved)."
  },
  {
   "property": "C51",
   "status": "partial",
   "theorems": [
    "C51_filter",
    "C51_trivial_filter_refuted",
    "C51_case_refuted"
   ],
   "note": "Exact effect of a filter proved; a trivial filter does change the results (refuted: last instead of first binding, case-insensitive comparison)."
  },
  {
   "property": "C52",
   "status": "partial",
   "theorems": [
    "C52_single_point",
    "C52_zero_refuted"
   ],
   "note": "Proved unless 0 is drawn; for 0 all points are returned (refuted)."
  },
  {
   "property": "C53",
   "status": "proved",
   "theorems": [
    "C53_translated",
    "C53_meaning",
    "C53_known",
    "C53_query"
   ],
   "note": ""
  },
  {
   "property": "C54",
   "status": "partial",
   "theorems": [
    "C54_large_refuted",
    "C54_aux_refuted",
    "C54_round_trip",
    "C54_presented"
   ],
   "note": "Proved for integers in [-2^63, 2^63) without aux; refuted for larger values and for aux."
  },
  {
   "property": "C55",
   "status": "partial",
   "theorems": [
    "C55_aligned",
    "C55_order_refuted",
    "C55_ignored",
    "C55_file_refuted",
    "C55_limit"
   ],
   "note": "Alignment and limit proved; order and the effect of file id and predicate refuted."
  },
  {
   "property": "C56",
   "status": "proved",
   "theorems": [
    "C56_project_ids_distinct",
    "C56_project_ids_decoded",
    "C56_files_in_order"
   ],
   "note": "For at most 2^23 files with at most 2^40 ASTs each; C42_bounds_refuted shows the limits are sharp."
  },
  {
   "property": "C57",
   "status": "partial",
   "theorems": [
    "C57_with_room",
    "C57_growing_refuted"
   ],
   "note": "False in full: a reallocation of the vector frees the traces under the looking thread (C57_growing_refuted). Proved while the capacity suffices."
  },
  {
   "property": "C58",
   "status": "proved",
   "theorems": [
    "C58_any_text",
    "C58_cut_refuted"
   ],
   "note": "C58_any_text for every text; that a cut text may be accepted is C58_cut_refuted."
  },
  {
   "property": "C59",
   "status": "proved",
   "theorems": [
    "C59_any_arithmetic",
    "C59_values",
    "C59_rational",
    "C59_exact_exists"
   ],
   "note": "For any floating point arithmetic (C59_any_arithmetic, C59_values) and, if its operations are exact, in rational numbers (C59_rational, met by C59_exact_exists). The rounding of Boost's cpp_dec_float_50 is not modelled."
  },
  {
   "property": "C60",
   "status": "partial",
   "theorems": [
    "C60_matched",
    "C60_in_order",
    "C60_parallel_refuted"
   ],
   "note": "Proved for executions that run one after the other, with arbitrary deaths and timeouts; false if executions overlap (C60_parallel_refuted)."
  },
  {
   "property": "C61",
   "status": "partial",
   "theorems": [
    "C61_complete",
    "C61_all",
    "C61_traces",
    "C61_slow_refuted",
    "C61_sticky_refuted",
    "C61_existing_file"
   ],
   "note": "Proved for every interleaving if no timeout expires, nothing dies and fgets retries after end of file (C61_complete, C61_all, C61_traces); false otherwise (C61_slow_refuted, C61_sticky_refuted)."
  },
  {
   "property": "C62",
   "status": "proved",
   "theorems": [
    "C62_bounded",
    "C62_ends",
    "C62_over",
    "C62_no_timeout_refuted"
   ],
   "note": "With the code's timeouts. C62_no_timeout_refuted shows that they are needed."
  },
  {
   "property": "C63",
   "status": "partial",
   "theorems": [
    "C63_unharmed",
    "C63_parallel_refuted",
    "C63_removed_refuted",
    "C63_timeout_refuted"
   ],
   "note": "Proved for executions one after the other without timeouts; false otherwise (three refutations)."
  },
  {
   "property": "C64",
   "status": "partial",
   "theorems": [
    "C64_one_case",
    "C64_limit",
    "C64_collected",
    "C64_succeeds",
    "C64_error",
    "C64_executions",
    "C64_quiet_refuted",
    "C64_sexp_refuted",
    "C64_sexp"
   ],
   "note": "Proved for binary traces, except that reaching the limit before the last test case signals an error (C64_quiet_refuted; C64_error gives the exact cases). The s-expression variant ignores num-traces (C64_sexp_refuted, C64_sexp)."
  },
  {
   "property": "C65",
   "status": "partial",
   "theorems": [
    "C65_binary",
    "C65_one_case",
    "C65_existing",
    "C65_restarts",
    "C65_case_restarts",
    "C65_failed_compilation_refuted"
   ],
   "note": "Proved unless a compilation that signals an error leaves a file behind (refuted)."
  },
  {
   "property": "C66",
   "status": "partial",
   "theorems": [
    "C66_processes",
    "C66_sexp_refuted",
    "C66_sexp"
   ],
   "note": "Proved for binary traces; the s-expression variant leaves a process when it signals an error (refuted), none when it returns."
  },
  {
   "property": "C67",
   "status": "partial",
   "theorems": [
    "C67_run",
    "C67_marks",
    "C67_transparent",
    "C67_switch_refuted",
    "C67_filter_refuted"
   ],
   "note": "Proved without filter if switches have bodies in braces (C67_transparent), and for filters that do not separate a hanging label from its statement (C67_run); false otherwise (C67_switch_refuted, C67_filter_refuted)."
  },
  {
   "property": "C68",
   "status": "partial",
   "theorems": [
    "C68_marked",
    "C68_executed",
    "C68_ghost",
    "C68_directives_refuted"
   ],
   "note": "Proved for files without preprocessor directives and parse errors (C68_executed, C68_marked); statements next to incomplete directives are not logged (C68_directives_refuted)."
  },
  {
   "property": "C69",
   "status": "partial",
   "theorems": [
    "C69_restored",
    "C69_flags_refuted"
   ],
   "note": "The program text is restored (C69_restored); the compiler flag -lpthread stays (C69_flags_refuted)."
  },
  {
   "property": "C70",
   "status": "proved",
   "theorems": [
    "C70_trace",
    "C70_threads"
   ],
   "note": "C70_trace for every run of a single thread, C70_threads for any number of threads and every interleaving of their logging calls (what a thread finds of the others' doing is part of its state), under the hypotheses of C67_run and C41."
  },
  {
   "property": "C71",
   "status": "partial",
   "theorems": [
    "C71_recovered",
    "C71_exact",
    "C71_classes",
    "C71_logged",
    "C71_stable",
    "C71_cache",
    "C71_order_refuted",
    "C71_size_refuted",
    "C71_template_refuted",
    "C71_struct_refuted"
   ],
   "note": "Proved for types whose specifiers are single words, up to the order between pointers and arrays (C71_recovered); that order, array sizes that are not numbers, and specifiers of several words are lost (refuted)."
  },
  {
   "property": "C72",
   "status": "partial",
   "theorems": [
    "C72_exact",
    "C72_leak_unique",
    "C72_database",
    "C72_no_blob",
    "C72_well_formed",
    "C72_rejected",
    "C72_blob_refuted",
    "C72_buffer_refuted"
   ],
   "note": "Nothing is freed twice and everything but blobs is given back (C72_exact, C72_database, C72_no_blob); blobs are never freed, and the buffer of the names is not if the file ends within its first number (refuted). The blocks that remain are determined by the file, also for rejected files (C72_leak_unique, C72_rejected): a block for every blob before the entry that is cut or refused, and one for the blob of that entry if its size was known. Files with undefined behaviour (C13) are excluded."
  },
  {
   "property": "C73",
   "status": "partial",
   "theorems": [
    "C73_any_elision",
    "C73_elided",
    "C73_values",
    "C73_no_elision",
    "C73_copies_refuted"
   ],
   "note": "Proved if copies are elided (gcc and clang by default) or every operand has a value; otherwise a copy of an invalid value dereferences a null pointer, exactly as C73_no_elision says (refuted in general). Allocation of numbers is assumed to succeed."
  },
  {
   "property": "C74",
   "status": "partial",
   "theorems": [
    "C74_safe",
    "C74_alive",
    "C74_kept",
    "C74_release_refuted",
    "C74_weak",
    "C74_restored_kept"
   ],
   "note": "Safety is proved for every history and collector. The release of dropped databases is false: the finalizer refers to its own object, so no database is ever freed (proved, with a refutation); restored databases have no finalizer and stored texts are never freed (proved)."
  },
  {
   "property": "C75",
   "status": "partial",
   "theorems": [
    "C75_restored",
    "C75_frame",
    "C75_added",
    "C75_shared",
    "C75_made",
    "C75_restricted",
    "C75_wrapper_refuted"
   ],
   "note": "Proved for objects that were made or restored; false for wrappers made by restrict-to-file, which are stored as nothing (refuted). How cl-store encodes lists is not modelled."
  },
  {
   "property": "C76",
   "status": "partial",
   "theorems": [
    "C76_read",
    "C76_written",
    "C76_predicate",
    "C76_compiled",
    "C76_free_variables",
    "C76_calls",
    "C76_accepts",
    "C76_results",
    "C76_enums",
    "C76_structures",
    "C76_timeout_refuted"
   ],
   "note": "Proved for points, predicates, free variables, results and the arguments of every function except the timeout of add_trace, which Lisp declares as int: timeouts of 2^31 or more are refused although the library accepts them (refuted). Strings are pointers here; their contents, and points written by Lisp, are treated by C77."
  },
  {
   "property": "C77",
   "status": "partial",
   "theorems": [
    "C77_round_trip",
    "C77_decodes",
    "C77_names",
    "C77_lookup",
    "C77_addition",
    "C77_come_back",
    "C77_one_string",
    "C77_blobs",
    "C77_delivered",
    "C77_bad_name_refuted",
    "C77_nul_refuted"
   ],
   "note": "Proved for strings without NUL characters, for points added from Lisp, and for blobs (with the restart store-as-byte-array). False for traces with a name that is not UTF-8, which cannot be fetched at all, and for names with NUL characters, which the library cuts (both refuted). That CFFI encodes strings as strict UTF-8 is an assumption."
  },
  {
   "property": "C78",
   "status": "proved",
   "theorems": [
    "C78_complete",
    "C78_entry",
    "C78_declared",
    "C78_empty"
   ],
   "note": "For files with at least one top-level AST; a file without any gets neither support code nor calls (C78_empty). Declarators of main are ASTs that are no statements, recognised by their text."
  },
  {
   "property": "C79",
   "status": "partial",
   "theorems": [
    "C79_safe",
    "C79_returns",
    "C79_errors",
    "C79_errors_refuted",
    "C79_read_refuted",
    "C79_add_points_refuted",
    "C79_session_safe",
    "C79_session_constant",
    "C79_session_grows",
    "C79_build"
   ],
   "note": "Proved for operations that return, and the exact set of errors without loss. The expectation that errors lose nothing, and that read-binary-trace and add-trace-points lose nothing, is refuted (C79_errors_refuted, C79_read_refuted, C79_add_points_refuted). Memory never runs out in this model; the contents of arrays other than predicates, pointers and points are not modelled."
  },
  {
   "property": "C80",
   "status": "proved",
   "theorems": [
    "C80_answers",
    "C80_found",
    "C80_askable",
    "C80_crash",
    "C80_program",
    "C80_threads"
   ],
   "note": "C80_program for one thread, C80_threads for several. Conditions on buffer sizes and distinct-vars are not part of the questions (the instrumenter logs no buffer sizes); variables whose value is used must not be float or double (see C25 for these). Hypotheses on sites and values are those of C41; the number of choices per point times 24 must stay below 2^64 and allocations below 2^64 succeed."
  },
  {
   "property": "C81",
   "status": "proved",
   "theorems": [
    "C81_exact",
    "C81_same",
    "C81_log_read_back",
    "C81_seen",
    "C81_no_strings",
    "C81_null_refuted",
    "C81_unterminated_refuted",
    "C81_uninitialised_refuted"
   ],
   "note": "C81_exact: a pass runs without undefined behaviour iff it is ready (all logged variables initialised, C strings terminated and readable), and is undefined otherwise; C81_same/C81_log_read_back: ready passes are the passes of C40/C41, so the log shows them; C81_seen: what a variable is seen to be is determined; C81_no_strings: memory is never looked at. Expectation that every pass of a correct program is safe refuted: null char* (C81_null_refuted), unterminated characters (C81_unterminated_refuted), variables in scope but not initialised (C81_uninitialised_refuted). The memory does not change during a pass (races of other threads with the variables are not modelled)."
  },
  {
   "property": "C82",
   "status": "partial",
   "theorems": [
    "C82_program",
    "C82_log_read_back",
    "C82_environment_refuted",
    "C82_handshake_refuted",
    "C82_formats",
    "C82_formats_all"
   ],
   "note": "C82_program: a C lexer and parser of the inserted statements and declarations (CRead.v), run on the text, finds for all programs the calls required by EmitSpec.v, with indices resolved in the arrays read from the setup text, counts, log and handshake; the statements are those of C40/C41, so that the log of the program read from the text is read back (C82_log_read_back). C82_formats: the format constants have, in the enumeration inserted, the codes of the reader. Refuted: the name of an environment variable for the log is inserted without quotes, so the log is opened with getenv of an undeclared C variable (C82_environment_refuted, for every identifier; a name given with quotes works and is covered by C82_program); backslashes in the handshake variable are not escaped (C82_handshake_refuted). Preconditions: variables are identifiers (as the regular expression of the instrumenter ensures), paths without newline."
  },
  {
   "property": "C83",
   "status": "partial",
   "theorems": [
    "C83_choice",
    "C83_statements",
    "C83_identifiers",
    "C83_parameters",
    "C83_declarations",
    "C83_pointer_result_refuted",
    "C83_function_pointer_result_refuted"
   ],
   "note": "C83_choice: for all trees and entries the list of names and types is exactly that of VarsSpec.v (for both conventions of get-parent-asts, with or without the AST itself). C83_parameters, C83_declarations: for every C function definition resp. declaration, by induction over declarators. C83_identifiers: the names logged are identifiers, a precondition of C82. Refuted, for all such functions: parameters of functions returning pointers are not logged, because the pointer declarator and not the function declarator is the outermost parent that butlast removes (C83_pointer_result_refuted); for functions returning function pointers the parameters of the pointer are taken for those of the function (C83_function_pointer_result_refuted). Parameters of the model: the list of variables in scope and canonical types (AST library)."
  },
  {
   "property": "C84",
   "status": "partial",
   "theorems": [
    "C84_calm",
    "C84_separate",
    "C84_lost_refuted",
    "C84_doubled_refuted",
    "C84_dangling_refuted"
   ],
   "note": "C84_calm: for all schedules in which no thread makes or reads a cache entry while another makes it, results are those of the query alone, nothing is undefined, every query returns within 2 n + 6 of its steps, and the cache is good afterwards. C84_separate: these are all schedules if calls with the same trace, mask and statement find their entry. Refuted otherwise, for all traces and arguments: C84_lost_refuted, C84_doubled_refuted (with all later queries), C84_dangling_refuted. Operations on the map and on a vector are atomic steps here (real overlapping operations are data races and can do worse); evaluation is one step and leaves out the process-wide predicate cache, which is shared without a lock too."
  },
  {
   "property": "C85",
   "status": "partial",
   "theorems": [
    "C85_database",
    "C85_view",
    "C85_stale_refuted",
    "C85_through_refuted"
   ],
   "note": "C85_database: for all histories, a database shows exactly what was added to it. C85_view: for all histories in which nothing is added to views or to databases with views, views show what the specification (SexpDbSpec.v: shows) says. Refuted otherwise, for every database: C85_stale_refuted, C85_through_refuted."
  },
  {
   "property": "C86",
   "status": "partial",
   "theorems": [
    "C86_limit",
    "C86_short",
    "C86_stops",
    "C86_add",
    "C86_limit_refuted",
    "C86_types",
    "C86_query"
   ],
   "note": "C86_limit, C86_short: result of reading when another object can be read or the stream ends. C86_limit_refuted: for all points, a malformed or missing object after the limit. C86_types, C86_query: exact, relative to the documented behaviour of cartesian-without-duplicates (another library; an instance is given in the examples)."
  },
  {
   "property": "C87",
   "status": "partial",
   "theorems": [
    "C87_forks",
    "C87_complete",
    "C87_progress",
    "C87_single",
    "C87_early_refuted",
    "C87_large_refuted",
    "C87_half_refuted",
    "C87_stuck_refuted"
   ],
   "note": "C87_forks (at any moment), C87_complete (in the end), C87_progress: if points fit into the buffer, processes fork and exit only while none of their threads logs, and fork after the buffer was flushed. C87_single: single-threaded programs that log before they fork keep to these rules. Refuted otherwise by the original header, buffer and lock: C87_early_refuted, C87_large_refuted, C87_half_refuted, C87_stuck_refuted."
  },
  {
   "property": "C88",
   "status": "proved",
   "theorems": [
    "C88_read_back",
    "C88_sizes"
   ],
   "note": "C88_read_back: finished runs of any threads. C88_sizes: true sizes of pointers if the sizes logged are those of the buffers (which do not overlap, lie below 2^64 and do not start at 0)."
  },
  {
   "property": "C89",
   "status": "partial",
   "theorems": [
    "C89_program",
    "C89_libraries",
    "C89_later_refuted"
   ],
   "note": "C89_program: programs none of whose files is instrumented after the entry; C89_libraries: so all programs whose other files have no main. C89_later_refuted: a file with a main of its own, instrumented after the entry, logs indices outside the arrays, and the log cannot be read. The files are instrumented one after the other (C56 treats parallel instrumentation)."
  },
  {
   "property": "C90",
   "status": "partial",
   "theorems": [
    "C90_bounded",
    "C90_ends",
    "C90_result",
    "C90_in_time",
    "C90_no_timeout",
    "C90_add",
    "C90_zero_refuted",
    "C90_race_refuted",
    "C90_leak_refuted",
    "C90_left"
   ],
   "note": "C90_bounded, C90_ends: always ends, within the timeout up to delays. C90_in_time, C90_result, C90_no_timeout: the result, exactly, up to delays. C90_left: the only ways to leave a descriptor open. Refuted: C90_zero_refuted (timeout 0), C90_race_refuted (opened in time, but lost with an error on SBCL), C90_leak_refuted (destroyed inside OPEN). That sleep, clocks and threads behave as documented is assumed; collection of lost streams as garbage is not modelled."
  },
  {
   "property": "C91",
   "status": "partial",
   "theorems": [
    "C91_restored",
    "C91_afresh",
    "C91_recognised",
    "C91_project",
    "C91_project_recognised",
    "C91_others_refuted",
    "C91_twice_refuted"
   ],
   "note": "C91_restored, C91_afresh, C91_recognised, C91_project. Refuted: C91_others_refuted (for all projects with a main in other-files: support code stays although the project no longer counts as instrumented), C91_twice_refuted (for all files: number of copies of each piece of support code; the unguarded initialisation is repeated). A name of the log variable split over two pieces of program text is not considered."
  },
  {
   "property": "C92",
   "status": "partial",
   "theorems": [
    "C92_told",
    "C92_pipe",
    "C92_safe",
    "C92_waits",
    "C92_alone",
    "C92_fixed",
    "C92_long_refuted",
    "C92_newline_refuted",
    "C92_part_refuted",
    "C92_early_refuted",
    "C92_env_refuted"
   ],
   "note": "C92_told (exact name opened for every growth of the file), C92_pipe, C92_safe, C92_waits, C92_alone, C92_fixed. Refuted: C92_long_refuted, C92_newline_refuted, C92_part_refuted, C92_early_refuted, C92_env_refuted. Failure of fopen itself is the subject of C101_unopened_refuted."
  },
  {
   "property": "C93",
   "status": "partial",
   "theorems": [
    "C93_between",
    "C93_goes_on",
    "C93_anytime_refuted"
   ],
   "note": "C93_between (log as if the handlers were called, at any moment), C93_goes_on. Refuted for every program: C93_anytime_refuted (a handler that logs inside a logging statement of its thread freezes all logging). Handlers that leave by longjmp are treated by C102."
  },
  {
   "property": "C94",
   "status": "partial",
   "theorems": [
    "C94_wider",
    "C94_manual_refuted"
   ],
   "note": "Refuted for every file up to 64 kB (64 PB if the first name has six characters): C94_manual_refuted. C94_wider: with the wider fields every well-formed file is read as described."
  },
  {
   "property": "C95",
   "status": "partial",
   "theorems": [
    "C95_restored",
    "C95_view_refuted",
    "C95_fixed"
   ],
   "note": "C95_restored (all objects without views of binary databases), C95_fixed. Refuted for every object with such a view: C95_view_refuted. cl-store itself (one byte per code) is modelled from its source, which is not in /repo."
  },
  {
   "property": "C96",
   "status": "partial",
   "theorems": [
    "C96_variables",
    "C96_blobs",
    "C96_program",
    "C96_log_read_back",
    "C96_standard_refuted",
    "C96_standard_cast"
   ],
   "note": "Proved for the x86-64 ABI at any length; by the C standard refuted (C96_standard_refuted), with the exact condition after the obvious repair (C96_standard_cast)"
  },
  {
   "property": "C97",
   "status": "partial",
   "theorems": [
    "C97_once",
    "C97_text",
    "C97_setup",
    "C97_program",
    "C97_prototype_refuted",
    "C97_skipped_refuted",
    "C97_plain_main_refuted",
    "C97_top_refuted"
   ],
   "note": "Declarations, implementation and text: proved for all projects whose files have no directives outside their first and last AST (C97_once, C97_text; C97_top_refuted shows why). Setup code: exactly once per unit with a main if files with a main are instrumented and a unit enters at most one of them (C97_setup, C97_program). Refuted in general: a prototype of main in a header (C97_prototype_refuted), a skipped main in a second file (C97_skipped_refuted), main in a file that is not instrumented (C97_plain_main_refuted)."
  },
  {
   "property": "C98",
   "status": "partial",
   "theorems": [
    "C98_names",
    "C98_declared",
    "C98_strlen_refuted",
    "C98_calls",
    "C98_no_capture",
    "C98_setup",
    "C98_setup_scope",
    "C98_setup_no_capture",
    "C98_setup_clash_refuted"
   ],
   "note": "Proved for all programs for every name but strlen (C98_names, C98_declared, C98_no_capture); every inserted statement is a call of a declared function with fitting arguments (C98_calls). Refuted for logged C strings: the inserted code calls strlen at every such place, and the declarations at the top neither declare it nor include string.h (C98_strlen_refuted); the program's file must include it. The setup code: every name comes from the language, a header that it includes, the declarations at the top, its own declarations or a logged type (C98_setup); variables are declared before their use and functions are called with the right number of arguments (C98_setup_scope); it defines only reserved names (C98_setup_no_capture). Refuted: the headers that it includes declare names that C leaves to programs (C98_setup_clash_refuted). Types declared only inside a function are not told apart from those at file scope."
  },
  {
   "property": "C99",
   "status": "partial",
   "theorems": [
    "C99_log",
    "C99_plain",
    "C99_exact",
    "C99_library_refuted",
    "C99_priority_refuted",
    "C99_same_priority_refuted",
    "C99_text",
    "C99_variables"
   ],
   "note": "Proved: the log shows all passes in order if no instrumented initialisation function has a priority of 101 or below and none is in a shared library (C99_log, C99_plain), and these conditions are exact (C99_exact). Refuted in general: the setup is a constructor with priority 101 and does not run before all other code; an instrumented initialisation function of a shared library, or one with a lower number, uses a null log and lock in every run (C99_library_refuted, C99_priority_refuted), one with the same number in some order (C99_same_priority_refuted). The priority is read from the emitted text (C99_text). The order of initialisation functions is that of GNU/Linux, not part of the repository."
  },
  {
   "property": "C100",
   "status": "partial",
   "theorems": [
    "C100_read",
    "C100_id",
    "C100_end",
    "C100_buffer_size",
    "C100_header",
    "C100_variables",
    "C100_blobs",
    "C100_header_refuted",
    "C100_variables_refuted",
    "C100_program",
    "C100_log_read_back"
   ],
   "note": "The C text itself is in the model, is read by a parser for the subset of C it uses and run by a semantics of that subset (C100_read). Proved: each of the six functions, run from its text, does what the hand-written model of C40, C41 and C96 says (C100_id, C100_end, C100_buffer_size, C100_header, C100_variables, C100_blobs), hence instrumented programs do (C100_program) and their logs are read back (C100_log_read_back). Refuted for tables or argument lists of 2^32 entries or more: the counters have 32 bits and the numbers 64, so the header is never finished and the call never returns (C100_header_refuted, C100_variables_refuted)."
  },
  {
   "property": "C101",
   "status": "partial",
   "theorems": [
    "C101_setup",
    "C101_log_read_back",
    "C101_unopened_refuted",
    "C101_waits"
   ],
   "note": "The text emitted by the model of initialize-tracing (C82) is lexed and parsed as C and run with a semantics of the system calls it uses. Proved for all programs: it does exactly the handshake, opens the log of C92, initialises the lock before the header, and writes the header through the C text of C100 (C101_setup); composed with C100 the log is read back (C101_log_read_back); it waits exactly when C92 says so (C101_waits). Refuted: if the log or the handshake file cannot be opened, the program does not go on without a log but uses a null FILE pointer (C101_unopened_refuted)."
  },
  {
   "property": "C102",
   "status": "partial",
   "theorems": [
    "C102_between",
    "C102_goes_on",
    "C102_anytime_refuted"
   ],
   "note": "C102_between (log as of a program whose threads go the courses they really went, at any moment and at the end), C102_goes_on. Refuted for every program: C102_anytime_refuted (a thread that leaves inside a logging statement, for example because it is cancelled in fwrite, leaves the lock locked: nothing is ever written again by any thread). A change inside a stdio call is taken to happen before or after it."
  },
  {
   "property": "C103",
   "status": "partial",
   "theorems": [
    "C103_enough",
    "C103_size",
    "C103_remains",
    "C103_names_refuted",
    "C103_types_refuted",
    "C103_blob_refuted"
   ],
   "note": "C103_enough (whether a file is accepted and the trace that is read do not depend on memory beyond blocks of the size of the file), C103_size, C103_remains (what remains after reading and freeing is not larger than the files). Refuted for files that are rejected: C103_names_refuted (8 bytes ask for 2^64-1 bytes), C103_types_refuted (12 bytes for 51 GB), C103_blob_refuted (40 bytes for 4 GB, a crash if refused and never given back otherwise). Counted are the requests whose size is read from the file and the contents of the trace; the overhead of the containers of the standard library is not."
  },
  {
   "property": "C104",
   "status": "partial",
   "theorems": [
    "C104_log_read_back",
    "C104_buffers",
    "C104_buffers_refuted",
    "C104_type_count",
    "C104_type_count_refuted"
   ],
   "note": "C104_log_read_back (any threads and schedule, all values), C104_buffers (clang, or addresses below 2^31), C104_type_count. Refuted: C104_buffers_refuted (gcc extends the sign of an address in __write_buffer_size, so that no pointer gets a buffer size for allocations at 2^31 or above), C104_type_count_refuted (with the most significant byte first and longs of eight bytes every log says that there are no types, because the first four bytes of an unsigned long are written). The rest of the format with the most significant byte first is not modelled; neither is a library that runs on a machine with four-byte addresses."
  },
  {
   "property": "C105",
   "status": "partial",
   "theorems": [
    "C105_undisturbed",
    "C105_goes_on",
    "C105_kept",
    "C105_full",
    "C105_full_sound",
    "C105_whole",
    "C105_hole_refuted",
    "C105_header_refuted"
   ],
   "note": "C105_undisturbed, C105_goes_on (the threads run on and can always finish), C105_kept (points finished before the first failure are read from then on), C105_full (disk that stays full: the file is the beginning of what was written, and each point wholly in it is read), C105_full_sound (whatever is read from it, at any moment, shows the first ones of the passes), C105_whole (writes that arrive as a whole or not at all, header written: the log shows some of the passes, in order). Refuted: C105_hole_refuted (one byte of a point arrives and later writes succeed: the log is accepted and shows a statement that does not exist), C105_header_refuted (the first write fails: no trace is ever read from the log). Failing writes empty the buffer of the FILE, as in glibc and musl; other C libraries may keep it. C105_whole is about logs of finished programs."
  },
  {
   "property": "C106",
   "status": "partial",
   "theorems": [
    "C106_log_read_back",
    "C106_small",
    "C106_upper_refuted",
    "C106_char_refuted"
   ],
   "note": "C106_log_read_back (all other variables have their values, those of the two types the value that follows from taking the bytes as signed), C106_small (for values in the lower half, such as ASCII characters, that is the value). Refuted: C106_upper_refuted (a value in the upper half of an unsigned char or wchar_t is read as a negative number in every trace), C106_char_refuted (a whole program, all values from 128 to 255)."
  },
  {
   "property": "C107",
   "status": "partial",
   "theorems": [
    "C107_right",
    "C107_known",
    "C107_every_type_refuted",
    "C107_long_long_refuted",
    "C107_lost_refuted"
   ],
   "note": "C107_right (what is logged has the right signedness and size), C107_known (exactly eight spellings are logged). Refuted: C107_every_type_refuted (each integer type has spellings that are not logged, such as short, long, unsigned and signed char), C107_long_long_refuted (no spelling of long long or unsigned long long is logged), C107_lost_refuted (in every program the log does not depend on such a variable). Assumes that canonical-type of the software evolution library gives the specifiers as they are in the source; a library that completes them (clang does) would leave fewer spellings unlogged. _Bool, enumerations and typedef names are not counted as integer types here."
  },
  {
   "property": "C108",
   "status": "partial",
   "theorems": [
    "C108_same",
    "C108_lookup",
    "C108_record",
    "C108_history",
    "C108_reading",
    "C108_logarithmic_refuted"
   ],
   "note": "C108_same (the counting functions compute what the functions of the map compute), C108_lookup, C108_record (at most one comparison per live buffer at or below the address for each search, plus one per level), C108_history (at most quadratic for a whole history), C108_reading (for all bytes read, each operation stays within a linear bound in the buffer sizes read before). Refuted: C108_logarithmic_refuted (for every n there are random numbers with which a lookup among n buffers takes n + 1 comparisons). Not stated: the expected number over the random numbers, for which rand() would have to be modelled as a distribution."
  },
  {
   "property": "C109",
   "status": "partial",
   "theorems": [
    "C109_collect",
    "C109_cases",
    "C109_handed_out",
    "C109_shared_refuted",
    "C109_families"
   ],
   "note": "C109_collect (all histories in which traces are collected with collect-traces), C109_cases (also with collect-test-case-traces, for objects not copied and not copies since their last collect-traces), C109_handed_out, C109_families (all histories, without restriction: a single test case adds its traces for the object, its original and its copies that have not been collected for since, and for nobody else). Refuted: C109_shared_refuted (the slot is copied directly, so collect-test-case-traces on a copy adds to the traces of the original). Errors end an operation and the history goes on in the state they leave."
  }
 ]
}