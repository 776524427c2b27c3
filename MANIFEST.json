{
 "claims": [
  {
   "property": "C01",
   "status": "proved",
   "theorems": [
    "C01_itemid_text_roundtrip",
    "C01_itemid_text_injective",
    "C01_text_is_positional_numeral",
    "C01_every_valid_text_is_a_text_form",
    "C01_decode_rejects_garbage_refuted"
   ],
   "note": "Text form of every 128-bit id; garbage text is not rejected by the decoder (recorded as _refuted finding)."
  },
  {
   "property": "C02",
   "status": "proved",
   "theorems": [
    "C02_offsets_name_distinct_items",
    "C02_every_item_is_one_position",
    "C02_contains_exactly_own_items",
    "C02_different_allocations_are_disjoint",
    "C02_equality_is_identity"
   ],
   "note": ""
  },
  {
   "property": "C03",
   "status": "proved",
   "theorems": [
    "C03_nofollow_roundtrip",
    "C03_nofollow_injective",
    "C03_kinds_are_exclusive",
    "C03_derived_uuid"
   ],
   "note": ""
  },
  {
   "property": "C04",
   "status": "proved",
   "theorems": [
    "C04_fresh_allocations_never_collide",
    "C04_answers_fit_the_request",
    "C04_unbounded_sizes_refuted"
   ],
   "note": "For request sizes up to 2^63 and fewer than 2^64 requests; the 128-bit epoch collision between processes is outside the model. Larger sizes are refuted."
  },
  {
   "property": "C05",
   "status": "proved",
   "theorems": [
    "C05_holds_exactly_what_was_inserted",
    "C05_insert_reports_novelty",
    "C05_equality_is_extensional"
   ],
   "note": ""
  },
  {
   "property": "C06",
   "status": "proved",
   "theorems": [
    "C06_exact_accounting_within_budget",
    "C06_negative_sizes_refuted"
   ],
   "note": "Sizes non-negative; negative sizes refuted."
  },
  {
   "property": "C07",
   "status": "proved",
   "theorems": [
    "C07_answers_as_textbook_lru",
    "C07_read_returns_latest_written",
    "C07_evicts_least_recently_used_first",
    "C07_order_is_recency"
   ],
   "note": ""
  },
  {
   "property": "C08",
   "status": "proved",
   "theorems": [
    "C08_least_upper_bound",
    "C08_nothing_from_nothing",
    "C08_error_iff_no_upper_bound",
    "C08_only_the_set_matters",
    "C08_order_does_not_matter",
    "C08_grouping_does_not_matter",
    "C08_data_schema",
    "C08_table_well_formed"
   ],
   "note": "All item lists: dtypes, entity/list/dict schema ids, missing and non-schema items."
  },
  {
   "property": "C09",
   "status": "proved",
   "theorems": [
    "C09_castable_iff_common",
    "C09_castable_is_promotion",
    "C09_partial_order"
   ],
   "note": ""
  },
  {
   "property": "C10",
   "status": "proved",
   "theorems": [
    "C10_one_list",
    "C10_history",
    "C10_read_one",
    "C10_read_batch",
    "C10_sizes",
    "C10_pop_one",
    "C10_pop_batch",
    "C10_errors",
    "C10_other_lists"
   ],
   "note": "DataList (all representations) and the single and batch list operations of a bag refine plain sequences, for all histories; reads, sizes, pops, errors and untouched lists covered. Fallback bags are in C17, copy-on-write in C13."
  },
  {
   "property": "C11",
   "status": "proved",
   "theorems": [
    "C11_read_slice",
    "C11_read_slices",
    "C11_assign_slice",
    "C11_delete_slice",
    "C11_assign_pointwise"
   ],
   "note": "Slice reads (single and batch), assignment and deletion equal Python's rules for all integer bounds; bound 2^63-1 is the code's 'no bound' value."
  },
  {
   "property": "C12",
   "status": "proved",
   "theorems": [
    "C12_get",
    "C12_items",
    "C12_size",
    "C12_present_keys",
    "C12_get_or_assign",
    "C12_sorted",
    "C12_modified"
   ],
   "note": "Any history of set, get-or-assign, clear and new layers, any iteration order of the hash maps, any number of fallbacks. Deterministic sorting is proved for any total order used by the sort."
  },
  {
   "property": "C13",
   "status": "proved",
   "theorems": [
    "C13_fork_lists_and_dicts",
    "C13_edit_list",
    "C13_edit_dict"
   ],
   "note": "For all histories of bags: a list or dict read from a bag is given by the writes to that bag alone, also after forks of it, whatever happens to other bags; the list of a bag and the dict of a bag are changed at exactly one place by one write. Assumes list functions passed to a write are arbitrary functions on the items (list operations themselves: C10, C11)."
  },
  {
   "property": "C14",
   "status": "proved",
   "theorems": [
    "C14_last_write",
    "C14_new_bag_is_empty",
    "C14_write_attributes",
    "C14_read_batch",
    "C14_runs_refine_specification",
    "C14_mixed_batch_with_repetition_refuted",
    "C14_full_write_removes_refuted"
   ],
   "note": "For all histories of single, bulk and full-allocation writes, through sparse and dense storage and merges of layers, an attribute read is the last write to that bag; removed and unset are kept apart; bulk reads agree with single reads; every run refines the abstract specification BagSpec.step_spec. Bulk writes in which an object is repeated AND the values have different types are excluded: there the claim is false (C14_mixed_batch_with_repetition_refuted). SetAttrFullAlloc is covered as the code does it; that removed values remove is false if all of them are removed (C14_full_write_removes_refuted). InternalSetUnitAttr and uu-object caches are not modelled."
  },
  {
   "property": "C15",
   "status": "proved",
   "theorems": [
    "C15_fork_has_same_contents",
    "C15_fork_with_fallbacks_refused",
    "C15_isolation",
    "C15_forks_are_independent"
   ],
   "note": "All trees of forks and all later operations; 'constant time' is not expressed."
  },
  {
   "property": "C16",
   "status": "proved",
   "theorems": [
    "C16_freeze",
    "C16_make_immutable",
    "C16_frozen_bag_never_changes",
    "C16_writes_refused"
   ],
   "note": "Freeze, immutable bags, refused writes, all later operations including merges, forks and updates."
  },
  {
   "property": "C17",
   "status": "proved",
   "theorems": [
    "C17_first_answer_depth_first",
    "C17_bag_with_fallbacks",
    "C17_repetition"
   ],
   "note": "Attribute, list and dict-key lookups through any DAG of fallbacks. Enumerating keys/values of a dict over fallbacks (data_bag.cc:2228-2355) is not modelled."
  },
  {
   "property": "C18",
   "status": "proved",
   "theorems": [
    "C18_merge",
    "C18_merge_without_raise"
   ],
   "note": "All layerings, all policies. A success implies no two different entries under raise, a failure implies two different entries; float NaNs of different precision are treated differently by different code paths (SourceSpec.differ / strict_differ), so for these either outcome is allowed. After a failed merge only the target bag may have changed."
  },
  {
   "property": "C19",
   "status": "proved",
   "theorems": [
    "C19_merge_fallbacks"
   ],
   "note": "All fallback DAGs."
  },
  {
   "property": "C20",
   "status": "proved",
   "theorems": [
    "C20_update",
    "C20_update_reproduces_merge"
   ],
   "note": "All pairs of bags (original without fallbacks; with fallbacks the operation is refused). Locations on which both agree keep their value; they may be repeated in the update."
  },
  {
   "property": "C21",
   "status": "proved",
   "theorems": [
    "C21_load_bags",
    "C21_managers_have_bags",
    "C21_loading_only_reads",
    "C21_loading_ends"
   ],
   "note": "For all histories of any number of threads and processes (StoreModel). Which bags: StoreSpec.selection over the bags of the manager; the cache is shared by the threads of a process and may evict anything at any time."
  },
  {
   "property": "C22",
   "status": "proved",
   "theorems": [
    "C22_selection",
    "C22_minimal_bag",
    "C22_extract_bags"
   ],
   "note": "Minimal bag, extraction and (under C25) branches use the selection; C22_selection says what it is: each bag once, after its dependencies, complete, minimal, independent of the order of set.pop. extract_bags drops custom metadata, as the code does, and may leave an empty manager behind when it fails."
  },
  {
   "property": "C23",
   "status": "proved",
   "theorems": [
    "C23_directory_shows_commits",
    "C23_add_bags",
    "C23_stop",
    "C23_reopen",
    "C23_create"
   ],
   "note": "Every interaction with the file system is one step, processes may stop between any two. visible = replay of the commits, for histories with fewer than 10^12 updates of a directory (the names of metadata files have 12 digits). An operation that raises has no effect in the model."
  },
  {
   "property": "C24",
   "status": "proved",
   "theorems": [
    "C24_versions_unique",
    "C24_no_lost_bags",
    "C24_outdated_managers_fail",
    "C24_check_then_rename_refuted"
   ],
   "note": "For a file system with an atomic rename-without-overwrite. C24_check_then_rename_refuted: with the check-then-rename of the default file system one of two successful updates is lost."
  },
  {
   "property": "C25",
   "status": "proved",
   "theorems": [
    "C25_create_branch",
    "C25_branches_are_independent"
   ],
   "note": "Contents of the branch: the selection of the bags of its origin. Nothing in other directories changes a directory."
  },
  {
   "property": "C26",
   "status": "proved",
   "theorems": [
    "C26_print_then_parse",
    "C26_parser_accepts_the_grammar",
    "C26_grammar_is_unambiguous",
    "C26_other_texts_are_refused",
    "C26_parsing_ends",
    "C26_printing_succeeds",
    "C26_codec",
    "C26_codec_encodes_unicode",
    "C26_base64_texts",
    "C26_ascii_names"
   ],
   "note": "PathModel.v: actions, to_string, parse_from_string branch by branch; texts are lists of code points. Which non-ASCII code points make identifiers and how names are base64-encoded are parameters (record lexicon); the only assumption is codec_ok (decoding inverts encoding and refuses quotation marks), which C26_codec proves for the UTF-8/base64 codec of PathCodecModel.v. The documented grammar is PathSpec.denotes."
  },
  {
   "property": "C27",
   "status": "proved",
   "theorems": [
    "C27_concat_is_a_monoid",
    "C27_extending",
    "C27_text_of_concat",
    "C27_parse_concat",
    "C27_printing_is_injective",
    "C27_evaluate_concat",
    "C27_parent_of_child",
    "C27_ancestor_of_concat",
    "C27_grandparent",
    "C27_no_ancestor",
    "C27_generate_paths",
    "C27_schema_at_path",
    "C27_find_descendants"
   ],
   "note": "Algebra of paths, view navigation (get_parent, get_grandparent, get_ancestor, get_child, find_descendants), the generator of paths for a schema (PathModel.generate_paths, round by round, so that also infinite generations are covered) against PathSpec.valid_path."
  },
  {
   "property": "C28",
   "status": "proved",
   "theorems": [
    "C28_closure_is_exact",
    "C28_converse",
    "C28_documented_names",
    "C28_names_identify_nodes",
    "C28_supported_schemas",
    "C28_nodes",
    "C28_children_and_parents",
    "C28_descendants",
    "C28_ancestors",
    "C28_unknown_names_are_refused",
    "C28_leaves",
    "C28_paths",
    "C28_needed_names",
    "C28_needed_prefixes",
    "C28_needed_errors",
    "C28_schema_bag",
    "C28_affected_names",
    "C28_updates_need_entities"
   ],
   "note": "GraphModel.v: node names, the work list that analyses a schema, closures with an arbitrary set order (pop), SchemaHelper's queries, the schema bag for given nodes and the nodes affected by an update. C28_names_identify_nodes and C28_paths use codec_ok (C26_codec proves it). Schema metadata and reserved attributes are not modelled."
  },
  {
   "property": "C29",
   "status": "proved",
   "theorems": [
    "C29_loads_what_was_asked_for",
    "C29_refuses_invalid_paths",
    "C29_loads_exactly_valid_paths",
    "C29_partial_loads_agree_with_a_full_load",
    "C29_loaded_slices_combine",
    "C29_partial_loads_agree_without_restriction_refuted",
    "C29_loaded_slices_combine_after_new_schemas_refuted"
   ],
   "note": "SliceManagerModel.v: managers with bare root data, their data, schema and index bags, updates and loads. Histories are restricted to updates that replace the values of an attribute whose schema they change; the two _refuted theorems show what happens without the restriction, and that the documented way to put slices together fails after a change of a schema. Item ids have one schema each (documented)."
  },
  {
   "property": "C30",
   "status": "proved",
   "theorems": [
    "C30_managers_show_their_revision",
    "C30_revision_histories",
    "C30_revisions_replay_the_updates",
    "C30_first_revision",
    "C30_every_revision_can_be_opened",
    "C30_update_effect",
    "C30_new_values",
    "C30_read_back",
    "C30_new_data",
    "C30_updates_change_nothing_else",
    "C30_updates_do_not_disturb_other_managers",
    "C30_failed_updates_change_nothing",
    "C30_only_the_latest_revision_can_be_updated",
    "C30_branches",
    "C30_read_only_managers",
    "C30_read_only_copies"
   ],
   "note": "Same model and histories as C29. The bag managers are lists of bags (their work on disk is C21-C25); an update is cut off between its writes. Values have to be extracted and fit to their schemas (valid_change); C30_only_the_latest_revision_can_be_updated gives conditions under which an update succeeds."
  },
  {
   "property": "C31",
   "status": "proved",
   "theorems": [
    "C31_chunks_do_not_show",
    "C31_readers_see_what_was_written",
    "C31_read_result",
    "C31_writes",
    "C31_nobody_reads",
    "C31_closing",
    "C31_no_lost_callbacks",
    "C31_callbacks_find_something"
   ],
   "note": "StreamModel.v: chunks with filled prefixes, readers with cached sizes, writers that flag and then finish a close in two steps (another thread may act in between), weak pointers to the stream and callbacks. Refined by a log with positions (StreamSpec.v). Each locked section is one step; callbacks are returned by the step that runs them. Memory sizes of values enter only through the default chunk capacity; the type check of values is not modelled."
  },
  {
   "property": "C32",
   "status": "proved",
   "theorems": [
    "C32_chain_never_crashes",
    "C32_chain_order",
    "C32_chain_output_is_final",
    "C32_chain_delivers_everything",
    "C32_chain_threads_end",
    "C32_interleave_order",
    "C32_interleave_success",
    "C32_interleave_error",
    "C32_interleave_output_is_final",
    "C32_interleave_delivers_everything",
    "C32_interleave_threads_end"
   ],
   "note": "ChainModel.v: any number of threads at program points between locked sections and calls of readers and writers, inputs written and closed by others at any time, the destructor. InterleaveModel.v: one reader per input owned by one thread or callback, TryWrite and the two steps of TryClose, an output that may be dropped at any time. Theorems: order, no CHECK or FATAL, errors, success only when complete, output never changes, quiescence implies completeness, threads end. Chains whose output stream is dropped are not modelled (their writes have no effect)."
  },
  {
   "property": "C33",
   "status": "proved",
   "theorems": [
    "C33_map_order",
    "C33_map_closed",
    "C33_map_output_is_final",
    "C33_map_delivers_everything",
    "C33_map_threads_end",
    "C33_unordered_items",
    "C33_unordered_closed",
    "C33_unordered_output_is_final",
    "C33_unordered_delivers_everything",
    "C33_unordered_never_crashes",
    "C33_unordered_threads_end"
   ],
   "note": "MapModel.v: OrderedSink with its mutex held over the writes of PushItem, ReadItems, ProcessItem, cancellation, an executor that runs tasks in any order or drops them, an output that may be dropped at any time, the destructors. UnorderedModel.v: UnorderedSink likewise. The functor is an arbitrary function of offset and item. Theorems: order or multiset, exact status, output never changes, quiescence implies completeness, no FATAL or DCHECK, threads end."
  },
  {
   "property": "C34",
   "status": "proved",
   "theorems": [
    "C34_set_once",
    "C34_consumers",
    "C34_abandoned",
    "C34_overwritten_writer_refuted",
    "C34_stream_reader"
   ],
   "note": "FutureModel.v: locked sections and consumer calls are separate steps of arbitrary threads; writers can be moved, destroyed, used, or overwritten by assignment. C34_abandoned excludes overwriting by assignment; C34_overwritten_writer_refuted shows that the default move assignment of FutureWriter leaves the future without a value for ever (no caller in the repository does this)."
  },
  {
   "property": "C35",
   "status": "proved",
   "theorems": [
    "C35_chunking_does_not_matter",
    "C35_chunk_values_same_chunks",
    "C35_salvage_chunking_does_not_matter"
   ],
   "note": "All JSON stream operators, including salvage."
  },
  {
   "property": "C36",
   "status": "partial",
   "theorems": [
    "C36_output_is_valid_json_partial",
    "C36_ensure_ascii_partial",
    "C36_escaped_control_refuted",
    "C36_final_backticks_refuted",
    "C36_signed_key_refuted",
    "C36_leading_newline_refuted",
    "C36_ensure_ascii_refuted"
   ],
   "note": "The full statement is false of the code (five refuting inputs are proved). Proved: validity for every input without a backslash directly before a control character, without two final backticks, and without both a brace and a signed number; the output may then still start with an empty line."
  },
  {
   "property": "C37",
   "status": "proved",
   "theorems": [
    "C37_unquote_after_quote",
    "C37_quote_is_one_literal",
    "C37_literal_closes_only_at_its_end",
    "C37_unquote_reads_literals"
   ],
   "note": "Bytes outside ASCII are copied, so s may be any byte string."
  },
  {
   "property": "C38",
   "status": "proved",
   "theorems": [
    "C38_compactify_keeps_significant",
    "C38_prettify_keeps_significant",
    "C38_compactify_idempotent",
    "C38_unterminated_string_refuted",
    "C38_compactify_values",
    "C38_chunk_values",
    "C38_prettify_values",
    "C38_compactify_after_prettify"
   ],
   "note": "Texts with an unterminated string literal are refuted (compactify adds a newline inside it)."
  },
  {
   "property": "C39",
   "status": "proved",
   "theorems": [
    "C39_head",
    "C39_select_nonempty_objects",
    "C39_select_nonempty_arrays",
    "C39_select_nonnull",
    "C39_implode",
    "C39_explode",
    "C39_explode_after_implode",
    "C39_implode_after_explode",
    "C39_nth_value",
    "C39_nth_value_scalars_refuted",
    "C39_nth_value_negative_refuted",
    "C39_object_key_values",
    "C39_object_key_value",
    "C39_object_key_after_empty_object_refuted"
   ],
   "note": "get_array_nth_value for n >= 0 on streams of arrays/objects, get_object_key_value(s) for values without an empty object; the other cases are refuted with witnesses."
  },
  {
   "property": "C43",
   "status": "proved",
   "theorems": [
    "C43_no_crash",
    "C43_result",
    "C43_result_is_final",
    "C43_settles"
   ],
   "note": "AsyncModel.v: AsyncCountdown with arrivals in any order, errors, dropped consumers and dropped executor tasks. That a future's value is not itself a future (a FATAL in the code) is assumed; each consumer is called at most once by C34."
  },
  {
   "property": "C40",
   "status": "proved",
   "theorems": [
    "C40_select_keeps_present_items",
    "C40_select_succeeds",
    "C40_inverse_select_fills",
    "C40_inverse_select_succeeds",
    "C40_inverse_select_after_select",
    "C40_select_after_inverse_select",
    "C40_masking_is_pointwise"
   ],
   "note": "ViewModel.v follows view.py and clib.cc: nested tuples, mutable lists on a heap, exceptions as values. select keeps exactly the present items at every position, inverse_select fills them back, inverse_select after select is masking by the filter and select after inverse_select is the identity; success under stated shape conditions."
  },
  {
   "property": "C41",
   "status": "proved",
   "theorems": [
    "C41_map_calls_in_order",
    "C41_map_default",
    "C41_map_rejects_unaligned",
    "C41_map_is_pointwise",
    "C41_map_succeeds",
    "C41_map_with_ndim",
    "C41_align_expands",
    "C41_align_succeeds",
    "C41_explode",
    "C41_explode_succeeds",
    "C41_explode_several",
    "C41_explode_after_implode",
    "C41_implode_after_explode",
    "C41_implode",
    "C41_flatten",
    "C41_flatten_all_is_depth_first",
    "C41_expand_to_repeats",
    "C41_expand_to_succeeds",
    "C41_coalesce",
    "C41_coalesce_succeeds",
    "C41_collapse"
   ],
   "note": "ViewModel.v. map makes the calls depth first and puts results in place, is pointwise for functions without effects and rejects unaligned views; map with ndim, align, explode, implode, flatten (any range of dimensions, existing objects unchanged), expand_to, coalesce and collapse are each characterised at every position; success under stated conditions."
  },
  {
   "property": "C42",
   "status": "proved",
   "theorems": [
    "C42_group_by",
    "C42_group_by_sorted",
    "C42_groups_partition",
    "C42_group_by_succeeds",
    "C42_group_by_needs_same_depth"
   ],
   "note": "ViewModel.v. group_by with any equivalence as equality of keys: the groups at every position are those of the specification, in order of first occurrence or sorted; the groups partition the items with present keys. Exceptions of comparisons between keys are not modelled."
  },
  {
   "property": "C44",
   "status": "proved",
   "theorems": [
    "C44_extracts_the_reachable_part",
    "C44_same_answers",
    "C44_self_contained",
    "C44_terminates",
    "C44_mixed_objects_refuted",
    "C44_two_schemas_refuted",
    "C44_nofollow_objects_refuted",
    "C44_removed_values_refuted"
   ],
   "note": "ExtractModel.v: extract.cc without max_depth, schema_databag, casting and callbacks. well_formed says that the data agrees with its schemas; four C44_..._refuted theorems show that the parts of it that concern objects of one allocation, items with two schemas and no-follow schemas are needed."
  },
  {
   "property": "C45",
   "status": "proved",
   "theorems": [
    "C45_item_round_trip",
    "C45_item_uses_all_inputs",
    "C45_slice_round_trip",
    "C45_vector_round_trip",
    "C45_decodes_what_the_format_says",
    "C45_decoder_stays_in_bounds",
    "C45_unused_values_are_rejected_refuted",
    "C45_unknown_dtypes_are_rejected_refuted"
   ],
   "note": "S11nModel.v: messages are records; the wire format of protocol buffers and the numbering of arolla values are trusted. The size limit of a part is a parameter. Two C45_..._refuted theorems: unused values in extra parts and dtype numbers modulo 256 are accepted."
  },
  {
   "property": "C46",
   "status": "proved",
   "theorems": [
    "C46_loaded_bag_is_the_same",
    "C46_removed_values_refuted",
    "C46_removed_metadata_refuted"
   ],
   "note": "BagCodecModel.v: messages are trees of records, a fallback that is shared is written each time; items and slices in messages are values (their codec is C45). Conditions: schemas_ok and has_values of BagCodecSpec.v, and every id of an allocation of schemas counts as existing. Two C46_..._refuted theorems show what is lost without the conditions."
  },
  {
   "property": "C47",
   "status": "proved",
   "theorems": [
    "C47_slice_holds_what_was_inserted",
    "C47_readers_agree",
    "C47_allocations"
   ],
   "note": "SliceModel.v: unwritten memory and invalid references are failures of the model, the order of the map of storages is any permutation; bits are not packed into words."
  },
  {
   "property": "C48",
   "status": "proved",
   "theorems": [
    "C48_has",
    "C48_presence_and",
    "C48_presence_and_item",
    "C48_presence_or",
    "C48_presence_or_item",
    "C48_coalesce_with_filtered",
    "C48_at",
    "C48_expand",
    "C48_expand_item",
    "C48_collapse",
    "C48_collapse_expanded",
    "C48_select",
    "C48_inverse_select",
    "C48_select_put_back",
    "C48_put_back_selected",
    "C48_reverse",
    "C48_reverse_keeps_allocations_refuted"
   ],
   "note": "All operators return the described items; every operator but reverse keeps the allocations of objects. For reverse this is refuted (C48_reverse_keeps_allocations_refuted): attributes of reversed entities read as missing."
  },
  {
   "property": "C49",
   "status": "proved",
   "theorems": [
    "C49_common_shape",
    "C49_broadcast",
    "C49_subslice",
    "C49_ellipsis",
    "C49_everything",
    "C49_take",
    "C49_expand_to_present",
    "C49_expand_lists_to_present",
    "C49_expand_ndim"
   ],
   "note": "Slicing refines indexing of nested lists, with the same errors."
  },
  {
   "property": "C50",
   "status": "proved",
   "theorems": [
    "C50_signature",
    "C50_bind",
    "C50_refused",
    "C50_arguments",
    "C50_keyword_order"
   ],
   "note": "Equivalence with Python's rules, for arbitrary values."
  },
  {
   "property": "C51",
   "status": "proved",
   "theorems": [
    "C51_order",
    "C51_create",
    "C51_call",
    "C51_outcome",
    "C51_call_error",
    "C51_created_call",
    "C51_cache"
   ],
   "note": "Operators are arbitrary functions of the outcomes of their arguments; that kd.with_bag attaches the bag is a hypothesis of the theorems about calls."
  },
  {
   "property": "C52",
   "status": "proved",
   "theorems": [
    "C52_group_by",
    "C52_group_by_refused",
    "C52_unique",
    "C52_unique_refused",
    "C52_unique_mixed_nan_refuted"
   ],
   "note": "Sorting is proved for keys without NaN: with NaN the comparator given to std::sort is not a strict weak order. In mixed slices unique does not merge NaNs (C52_unique_mixed_nan_refuted)."
  },
  {
   "property": "C53",
   "status": "proved",
   "theorems": [
    "C53_no_difference_iff_equivalent",
    "C53_reported_differences_exist",
    "C53_existing_differences_are_reported",
    "C53_ends",
    "C53_succeeds",
    "C53_nothing_differs_from_itself",
    "C53_refused",
    "C53_object_keys_refuted",
    "C53_symmetric_refuted"
   ],
   "note": "Bags are arbitrary reads with wf_bag (dict keys pairwise different and not NaN, values for all keys, primitives have no fields). Dicts with ObjectId keys are excluded from C53_succeeds because the comparison fails for them (C53_object_keys_refuted); the comparison is not symmetric for ItemIds (C53_symmetric_refuted)."
  },
  {
   "property": "C54",
   "status": "proved",
   "theorems": [
    "C54_same_calls",
    "C54_same_attributes",
    "C54_tidy",
    "C54_names",
    "C54_succeeds_refuted",
    "C54_quoted_literal_refuted",
    "C54_auxiliary_name_refuted"
   ],
   "note": "For functors whose literals can be stored as attributes and whose annotations are not named _aux... or __signature__; what happens otherwise is in the refuted theorems, as is that the operation can fail for a valid functor."
  },
  {
   "property": "C55",
   "status": "proved",
   "theorems": [
    "C55_call",
    "C55_python_call",
    "C55_expressions",
    "C55_functor",
    "C55_twice",
    "C55_clash",
    "C55_created",
    "C55_two_positions_refuted",
    "C55_bound_expression_refuted",
    "C55_python_names_refuted"
   ],
   "note": "For names that do not clash with the generated ones. With a bound expression the call can have at most one positional argument, which the statement says and a refuted theorem shows."
  },
  {
   "property": "C56",
   "status": "proved",
   "theorems": [
    "C56_translate",
    "C56_succeeds",
    "C56_item",
    "C56_one_value",
    "C56_own_keys",
    "C56_float_keys_refuted",
    "C56_translate_group",
    "C56_group_succeeds",
    "C56_group_shapes"
   ],
   "note": "The conversion of the keys to the schema of the other keys is arbitrary here. Floats and expressions are refused as keys (shown by a refuted theorem), since no dict can have them."
  },
  {
   "property": "C57",
   "status": "proved",
   "theorems": [
    "C57_run",
    "C57_order",
    "C57_once",
    "C57_error",
    "C57_never_ends",
    "C57_factorial"
   ],
   "note": "The executor is compared with a big-step recursive program over arbitrary callbacks (no termination assumed); the calls are compared through a journal kept in the state."
  },
  {
   "property": "C58",
   "status": "proved",
   "theorems": [
    "C58_prefix",
    "C58_success",
    "C58_error",
    "C58_complete",
    "C58_goes_on",
    "C58_cancelled_value_refuted"
   ],
   "note": "Loops that return a value and loops that yield, over all schedules. A cancelled loop that returns a value may write an unfinished value before the output fails (C58_cancelled_value_refuted), so the prefix theorem for such loops excludes cancellation; success and errors are proved with cancellation."
  },
  {
   "property": "C59",
   "status": "proved",
   "theorems": [
    "C59_value",
    "C59_success",
    "C59_error",
    "C59_complete",
    "C59_goes_on",
    "C59_ends"
   ],
   "note": "All schedules, with cancellation. The functor is any function; the lifetime of values and error messages are left out."
  },
  {
   "property": "C60",
   "status": "proved",
   "theorems": [
    "C60_prefix",
    "C60_success",
    "C60_error",
    "C60_complete",
    "C60_ends",
    "C60_cancelled_value_refuted"
   ],
   "note": "Loops that return a value and loops that yield, over all schedules, ending or not. A cancelled loop that returns a value may write an unfinished value before the output fails (C60_cancelled_value_refuted), so the prefix theorem for such loops excludes cancellation."
  },
  {
   "property": "C61",
   "status": "proved",
   "theorems": [
    "C61_adopts",
    "C61_wanted",
    "C61_order",
    "C61_keeps",
    "C61_common",
    "C61_common_wanted",
    "C61_fallbacks",
    "C61_over"
   ],
   "note": "Extract is a parameter with the hypotheses that it gives a part of the bag of the slice; entries of bags are keys and values, merged one by one. AdoptStub is not modelled."
  },
  {
   "property": "C62",
   "status": "proved",
   "theorems": [
    "C62_starts",
    "C62_value",
    "C62_success",
    "C62_error",
    "C62_complete",
    "C62_goes_on",
    "C62_ends"
   ],
   "note": "Over all schedules; ConcatOrStack is any function of the mode, ndim and the slices."
  },
  {
   "property": "C63",
   "status": "proved",
   "theorems": [
    "C63_value",
    "C63_once",
    "C63_all",
    "C63_recursive",
    "C63_failed",
    "C63_ends",
    "C63_refuses"
   ],
   "note": "Functors are item ids with variables in their order of evaluation, given as a parameter; fuel bounds the recursion and is shown to be enough. visit_variables is not modelled."
  }
 ]
}