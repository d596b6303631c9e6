{
 "claims": [
  {
   "property": "C01",
   "status": "proved",
   "theorems": [
    "C01_log_is_accepted_entries",
    "C01_throwing_call_changes_nothing",
    "C01_iterators_stay_valid"
   ],
   "note": ""
  },
  {
   "property": "C02",
   "status": "proved",
   "theorems": [
    "C02_publish_accepted_iff",
    "C02_update_head_accepted_iff",
    "C02_publish_unsafe_accepted_iff",
    "C02_last_published_reports_last_accepted"
   ],
   "note": ""
  },
  {
   "property": "C03",
   "status": "partial",
   "theorems": [
    "C03_timestamp_range_exact",
    "C03_index_range_exact",
    "C03_concurrent_publish_leaks_past_till_refuted",
    "C03_concurrent_iterate_partial"
   ],
   "note": "Exact for a call executed in one critical section. The unlocked call takes the mutex twice: a concurrent publish can leak entries newer than till (refuted); what holds then is the _partial theorem. till<=0 means no upper bound."
  },
  {
   "property": "C04",
   "status": "proved",
   "theorems": [
    "C04_index_range_exact"
   ],
   "note": ""
  },
  {
   "property": "C05",
   "status": "partial",
   "theorems": [
    "C05_new_file_opens",
    "C05_file_equals_memory",
    "C05_file_equals_memory_raw_lines",
    "C05_iterators_survive_concurrent_calls",
    "C05_unparsable_unsafe_payload_refuted",
    "C05_unsafe_newline_corrupts_file_refuted"
   ],
   "note": "Proved for calls whose raw PublishUnsafe lines are single-line with a payload that parses (op_ok). Without that the claim is false: see the _refuted theorems (file persister does not parse the payload; a newline in the raw line corrupts the file)."
  },
  {
   "property": "C06",
   "status": "proved",
   "theorems": [
    "C06_reopen_restores_state",
    "C06_reopening_is_invisible"
   ],
   "note": "Reopening yields literally the same state; also with reopening before every batch of calls."
  },
  {
   "property": "C07",
   "status": "proved",
   "theorems": [
    "C07_open_succeeds_iff_well_formed",
    "C07_opened_state_reflects_file"
   ],
   "note": ""
  },
  {
   "property": "C08",
   "status": "partial",
   "theorems": [
    "C08_acknowledged_entries_survive_partial",
    "C08_cut_before_tab_refuses_to_open",
    "C08_cut_after_tab_counts_unacknowledged_entry",
    "C08_entry_published_after_recovery_is_lost_refuted",
    "C08_torn_head_rewrite_refuted",
    "C08_torn_head_append_refuted"
   ],
   "note": "The full claim is false of the code: three _refuted theorems. What does hold: acknowledged entries remain readable if the file opens; cut before the tab refuses to open."
  },
  {
   "property": "C09",
   "status": "proved",
   "theorems": [
    "C09_head_updates_only_rewrite_the_trailing_record",
    "C09_calls_never_damage_written_lines"
   ],
   "note": ""
  },
  {
   "property": "C10",
   "status": "proved",
   "theorems": [
    "C10_delivered_in_order_exactly_once",
    "C10_no_bad_access_and_last_is_real"
   ],
   "note": ""
  },
  {
   "property": "C11",
   "status": "proved",
   "theorems": [
    "C11_time_strictly_increases",
    "C11_head_only_after_older_entries"
   ],
   "note": ""
  },
  {
   "property": "C12",
   "status": "partial",
   "theorems": [
    "C12_default_start_is_not_from_the_future",
    "C12_entries_are_delivered_eventually",
    "C12_blocked_only_when_all_delivered",
    "C12_head_is_told_eventually_partial",
    "C12_head_update_on_empty_refuted",
    "C12_start_in_the_future_refuted"
   ],
   "note": "Entries: proved in full (start time not in the future; always so for the default 0). Head updates: proved if the stream holds an entry the subscription covers; false otherwise (refuted: a waiting subscriber is not woken by UpdateHead on a stream without covered entries), and false for a start time in the future (refuted)."
  },
  {
   "property": "C13",
   "status": "proved",
   "theorems": [
    "C13_done_is_final",
    "C13_terminate_at_most_once",
    "C13_terminate_is_announced"
   ],
   "note": ""
  },
  {
   "property": "C14",
   "status": "proved",
   "theorems": [
    "C14_filtered_subscription_is_a_filter",
    "C14_fallback_only_for_other_cases",
    "C14_fallback_asked_at_the_end"
   ],
   "note": ""
  },
  {
   "property": "C15",
   "status": "partial",
   "theorems": [
    "C15_what_is_sent",
    "C15_nowait_body",
    "C15_nowait_ends",
    "C15_no_content",
    "C15_index_and_time_refuted",
    "C15_tail_and_time_refuted",
    "C15_tail_0_ignores_i_refuted",
    "C15_recent_and_since_refuted",
    "C15_array_is_closed_refuted",
    "C15_period_as_documented_refuted"
   ],
   "note": "Proved, for a session of ServeDataViaHTTP + PubSubHTTPEndpointImpl + the subscriber's thread against any concurrent publishing, checked and raw: C15_what_is_sent (whole records, contiguous, increasing times, limits n/period/stop_after_bytes, all selected; nothing selected left out unless time and index limits are combined; ends only for a stated reason); for nowait at rest C15_nowait_body (the body equals the specification's) and C15_nowait_ends; C15_no_content. Refuted, as counterexample sessions: i combined with since after a head update; tail combined with since under publishing; tail=0 with i; recent with since; array left unclosed when a head update ends the period; the documented meaning of period. Not modelled: failing sends, uint64 overflow."
  },
  {
   "property": "C16",
   "status": "proved",
   "theorems": [
    "C16_records_of_the_body",
    "C16_records_unique",
    "C16_chunking_is_irrelevant"
   ],
   "note": "For every text there is exactly one list of complete records and a rest; PassChunk hands over these, whatever the chunks the text is cut into, until a record fails (C16_records_of_the_body, C16_chunking_is_irrelevant)."
  },
  {
   "property": "C17",
   "status": "proved",
   "theorems": [
    "C17_replica_is_a_prefix"
   ],
   "note": "Lines of the master may be repeated, lost, reordered, mixed with arbitrary other lines, and the connection may break anywhere; the wire format is a codec with its round trip and unambiguity as hypotheses (wire_ok)."
  },
  {
   "property": "C18",
   "status": "partial",
   "theorems": [
    "C18_never_two_masters",
    "C18_new_master_has_everything",
    "C18_nothing_is_lost",
    "C18_when_granted",
    "C18_honest_follower_is_granted",
    "C18_refused_changes_nothing",
    "C18_not_the_master_on_a_bad_diff",
    "C18_no_flip_without_the_key",
    "C18_not_exposed_or_held",
    "C18_chain",
    "C18_a_lost_reply_refuted",
    "C18_restrictions_refuted",
    "C18_refused_in_a_chain_refuted"
   ],
   "note": "Proved for two controllers that may follow one another, over every interleaving of publishing, replication, exposing, the request's checks before and under the mutex, the reply, and lost connections (followers are not exposed in that system; the chain of three is a separate theorem): never two masters, the new master has exactly the old one's data and head, nothing a master has had is lost, what is granted and exactly what is sent, an honest follower is granted, a refusal changes nothing. Refuted: a lost reply leaves no master forever; max_index_diff is not applied to an empty follower and max_diff_size does not count the head record; in a chain the middle one may refuse and yet have become the master."
  },
  {
   "property": "C19",
   "status": "partial",
   "theorems": [
    "C19_one_generation",
    "C19_current_valid",
    "C19_throws_iff_follower",
    "C19_is_master",
    "C19_role_after_change",
    "C19_published_by_current",
    "C19_publish_during_change_refuted"
   ],
   "note": "Proved over every interleaving of borrowing, copying/moving/releasing publishers, Publish() calls and role changes: one generation of publishers at a time, all valid, BorrowPublisher() throws exactly when the stream follows, IsMasterStream() agrees with the last role change, and each entry is published by a publisher of the current generation. Refuted part: a Publish() in progress while a role change runs deadlocks with it (the change holds the publishing mutex while waiting for borrowers). The unprotected reference returned by Publisher() is not modelled."
  },
  {
   "property": "C20",
   "status": "partial",
   "theorems": [
    "C20_owner_waits",
    "C20_reference_kept",
    "C20_validity",
    "C20_invalid_after_destruction_began",
    "C20_no_use_after_destruction_partial",
    "C20_use_after_destruction_refuted"
   ],
   "note": "Interleaving model of UniqueInstance/WeakBorrowed over any number of instances and handles. Proved: the owner's destructor does not return while a handle refers to the instance; references are kept; validity. Missing/refuted: UnRegisterBorrower calls notify_one() after unlocking, so it may touch a destroyed instance (C20_use_after_destruction_refuted); C20_no_use_after_destruction_partial excludes everything else. Move assignment of Owned and ExclusiveUse are not modelled."
  },
  {
   "property": "C21",
   "status": "partial",
   "theorems": [
    "C21_number_of_borrowers_partial",
    "C21_all_released_partial",
    "C21_destructor_finishes_partial",
    "C21_move_assignment_refuted",
    "C21_borrow_from_owned_rvalue_refuted"
   ],
   "note": "Proved (with liveness under a weakly fair scheduler) for histories without move assignment to a non-null handle and without borrowers built from an rvalue of Owned. For these two the property is false: C21_move_assignment_refuted and C21_borrow_from_owned_rvalue_refuted prove that the owner then never finishes, whatever happens later."
  },
  {
   "property": "C22",
   "status": "partial",
   "theorems": [
    "C22_called_are_those_registered_partial",
    "C22_undisturbed_partial",
    "C22_called_after_release_refuted",
    "C22_not_called_refuted"
   ],
   "note": "Proved: the callbacks called are exactly those registered when the destructor takes its list, each once; all live borrowers if nobody borrows/moves/releases meanwhile. Refuted in general: a callback is called after its borrower was released (C22_called_after_release_refuted); a borrower registered later is never called (C22_not_called_refuted)."
  },
  {
   "property": "C23",
   "status": "proved",
   "theorems": [
    "C23_dictionary_is_a_map",
    "C23_dictionary_journal"
   ],
   "note": "Patch modelled too (CURRENT_STORAGE_PATCH_SUPPORT); assumes patches keep the key. Iteration order not modelled."
  },
  {
   "property": "C24",
   "status": "proved",
   "theorems": [
    "C24_one_to_one_is_a_bijection",
    "C24_one_to_one_journal"
   ],
   "note": ""
  },
  {
   "property": "C25",
   "status": "proved",
   "theorems": [
    "C25_one_to_many_columns_unique",
    "C25_one_to_many_journal"
   ],
   "note": ""
  },
  {
   "property": "C26",
   "status": "proved",
   "theorems": [
    "C26_many_to_many_views_agree",
    "C26_many_to_many_journal"
   ],
   "note": ""
  },
  {
   "property": "C27",
   "status": "proved",
   "theorems": [
    "C27_rollback_restores",
    "C27_rollback_restores_void",
    "C27_rollback_restores_two_step"
   ],
   "note": "Rollback over all four container kinds, any schema, any body; all three read-write flavours."
  },
  {
   "property": "C28",
   "status": "partial",
   "theorems": [
    "C28_replay_equals_live",
    "C28_reopened_equals_live",
    "C28_history_prefix",
    "C28_follower_equals_master_then",
    "C28_follower_catches_up",
    "C28_flip",
    "C28_replay_with_key_changing_patch_refuted"
   ],
   "note": "Premise: patches keep keys; without it refuted (finding 8b: Patch that changes the key then Erase journals the new key)."
  },
  {
   "property": "C29",
   "status": "proved",
   "theorems": [
    "C29_body_always_ends",
    "C29_commit_publishes_once",
    "C29_commit_publishes_once_void",
    "C29_read_only_publishes_nothing",
    "C29_read_only_result",
    "C29_shutdown_publishes_nothing",
    "C29_follower_cannot_write",
    "C29_journal_empty_between",
    "C29_transactions_never_exit"
   ],
   "note": "Independent spec alone run gives the mutations; no exit under a strictly increasing clock."
  },
  {
   "property": "C30",
   "status": "partial",
   "theorems": [
    "C30_two_step_reports_partial",
    "C30_exception_reported_though_published_refuted",
    "C30_f2_called_once_refuted"
   ],
   "note": "Proved when f2 does not throw after f1 returned; refuted otherwise (published yet reported as exception/rolled back, f2 called twice)."
  },
  {
   "property": "C31",
   "status": "proved",
   "theorems": [
    "C31_fifo",
    "C31_publishers",
    "C31_exclusive",
    "C31_last_not_behind",
    "C31_all_delivered",
    "C31_waiting_publisher_proceeds"
   ],
   "note": "Any number of threads, any size >= 1, both modes: FIFO, exclusivity of slots, accounting of every Publish call, possibility of draining, no stuck waiter."
  },
  {
   "property": "C32",
   "status": "partial",
   "theorems": [
    "C32_increasing_when_dropping",
    "C32_increasing_when_blocking_partial",
    "C32_increasing_single_publisher_partial",
    "C32_increasing_when_blocking_refuted"
   ],
   "note": "Dropping mode proved; blocking mode refuted (timestamp checked before waiting) and proved when no thread starts publishing while another waits (e.g. one publisher thread)."
  },
  {
   "property": "C33",
   "status": "proved",
   "theorems": [
    "C33_drop_only_when_full"
   ],
   "note": "Exact characterisation of the outcome of Publish in dropping mode."
  },
  {
   "property": "C34",
   "status": "partial",
   "theorems": [
    "C34_destructor_returns_partial",
    "C34_destructor_drains_refuted"
   ],
   "note": "The comment in mmq.h is wrong: queued messages are lost (refuted). Proved: the destructor returns, at most one more delivery."
  },
  {
   "property": "C35",
   "status": "partial",
   "theorems": [
    "C35_head_strictly_increases",
    "C35_after_head_partial",
    "C35_delivers_what_head_passed_partial",
    "C35_no_loss_partial",
    "C35_in_order_partial",
    "C35_equal_timestamps_refuted",
    "C35_timestamp_order_refuted",
    "C35_destructor_refuted"
   ],
   "note": "Only-after-head, local minimality, no loss for distinct timestamps, global order when published ahead of the head; equal timestamps, late publishes and destruction refuted."
  },
  {
   "property": "C36",
   "status": "proved",
   "theorems": [
    "C36_now_strictly_increasing",
    "C36_now_never_repeats",
    "C36_mock_never_decreases",
    "C36_mock_strictly_increasing_refuted"
   ],
   "note": "Real clock proved for any number of threads and any system clock. Side result: the mock clock (CURRENT_MOCK_TIME builds only) never decreases but repeats at its maximum (the _refuted theorem is about the mock only)."
  },
  {
   "property": "C37",
   "status": "proved",
   "theorems": [
    "C37_encode_is_rfc4648",
    "C37_decode_inverts_encode",
    "C37_shape_of_encoding",
    "C37_encode_injective"
   ],
   "note": ""
  },
  {
   "property": "C38",
   "status": "partial",
   "theorems": [
    "C38_debug_build_rejects_invalid_partial",
    "C38_in_bounds_for_ascii_partial",
    "C38_release_build_refuted",
    "C38_after_pad_refuted"
   ],
   "note": "Debug builds (CURRENT_ASSERT/DCHECK active) reject every character outside the alphabet before the padding and never read out of bounds; in-bounds holds in any build for ASCII input. The full claim is false of the code: release builds decode garbage and read out of bounds for bytes >= 128; characters after '=' are ignored (refuted theorems)."
  },
  {
   "property": "C39",
   "status": "partial",
   "theorems": [
    "C39_decode_inverts_encode_partial",
    "C39_non_ascii_refuted",
    "C39_encoding_is_escaped"
   ],
   "note": "Exact iff the text is ASCII; EncodeURIComponent on bytes >= 0x80 is refuted (prints sign-extended hex)."
  },
  {
   "property": "C40",
   "status": "proved",
   "theorems": [
    "C40_parameters_round_trip",
    "C40_form_body_round_trip"
   ],
   "note": ""
  },
  {
   "property": "C41",
   "status": "partial",
   "theorems": [
    "C41_path_begins_with_slash",
    "C41_defaults_fill_only_what_is_missing",
    "C41_parse_inverts_compose",
    "C41_relative_url_round_trip",
    "C41_relative_path_with_scheme_refuted"
   ],
   "note": "Round trip proved for plain URLs with a host and for relative paths without '//' ; a relative path containing '://' is refuted."
  },
  {
   "property": "C42",
   "status": "proved",
   "theorems": [
    "C42_split_is_the_division",
    "C42_skip_drops_empty_fields",
    "C42_join_spec",
    "C42_split_inverts_join",
    "C42_join_inverts_split",
    "C42_inplace_split"
   ],
   "note": ""
  },
  {
   "property": "C43",
   "status": "partial",
   "theorems": [
    "C43_lines_independent_of_blocks",
    "C43_lines_are_the_lines",
    "C43_feed_after_done_throws",
    "C43_no_calls_after_exception",
    "C43_nul_bytes_refuted"
   ],
   "note": "Proved for all block divisions and all data without NUL bytes; with NUL bytes the claim is false of the code (refuted theorem with the witness)."
  },
  {
   "property": "C44",
   "status": "proved",
   "theorems": [
    "C44_slow_is_levenshtein",
    "C44_fast_is_levenshtein_within_offset",
    "C44_levenshtein_unique"
   ],
   "note": ""
  },
  {
   "property": "C45",
   "status": "partial",
   "theorems": [
    "C45_sender",
    "C45_flush",
    "C45_chunked_transfer_partial",
    "C45_large_chunk_refuted"
   ],
   "note": "Proved for every sequence of Send calls, cache size, flush pattern, receiver buffer size, growth function and division into reads, provided that every chunk is shorter than 2^31 bytes. Missing: chunks of 2 GiB and more, for which C45_large_chunk_refuted proves that the receiver throws std::out_of_range (std::stoi on the chunk size)."
  },
  {
   "property": "C46",
   "status": "partial",
   "theorems": [
    "C46_comparator_is_strict_weak_order",
    "C46_lookup",
    "C46_names_distinct",
    "C46_iteration_partial",
    "C46_remove_other_spelling_refuted"
   ],
   "note": "Lookup proved for all sequences and spellings; iteration proved when Remove uses the first spelling, refuted otherwise (dangling pointer)."
  },
  {
   "property": "C47",
   "status": "partial",
   "theorems": [
    "C47_copy_construct",
    "C47_assign_to_empty_partial",
    "C47_assign_keeps_old_headers_refuted",
    "C47_assign_dangles_refuted"
   ],
   "note": "Copy construction proved (independence included); copy assignment proved into empty headers, refuted otherwise (stale headers, dangling pointers)."
  },
  {
   "property": "C48",
   "status": "proved",
   "theorems": [
    "C48_unpack_inverts_pack",
    "C48_within_limits_packs"
   ],
   "note": ""
  },
  {
   "property": "C49",
   "status": "partial",
   "theorems": [
    "C49_parse_of_json_is_identity",
    "C49_json_is_injective",
    "C49_parse_string_of_json",
    "C49_nested_optional_refuted",
    "C49_uninitialized_variant_refuted",
    "C49_string_overload_refuted"
   ],
   "note": "Proved for documents (rapidjson's DOM), formats Current, Minimalistic and JavaScript, for all types without Optional<Optional<T>> and with distinct field and case names. Refuted: nested Optional, uninitialized Variant, and the std::string overload of ParseJSON(json, destination) which drops the format."
  },
  {
   "property": "C50",
   "status": "partial",
   "theorems": [
    "C50_unmentioned_is_untouched_partial",
    "C50_mentioned_is_patched",
    "C50_patch_replaces",
    "C50_full_patch",
    "C50_empty_patch_partial",
    "C50_unmentioned_set_refuted",
    "C50_unmentioned_map_refuted",
    "C50_unmentioned_variant_refuted",
    "C50_map_entry_inherits_refuted"
   ],
   "note": "Proved: fields not mentioned are untouched at any depth, except sets; mentioned fields get the patched value; types without structs are replaced; a full patch gives the object. Refuted: unmentioned set is cleared, unmentioned map or variant throws and leaves the object half-modified, entries of map<string,Struct> inherit fields from the previous entry."
  },
  {
   "property": "C51",
   "status": "partial",
   "theorems": [
    "C51_integers_modulo_partial",
    "C51_64_bit_integers",
    "C51_truncated_refuted"
   ],
   "note": "64-bit integers are exact; narrower ones are read modulo 2^bits (300 as uint8_t is 44): the property is refuted for them, proved exact if and only if in range."
  },
  {
   "property": "C52",
   "status": "proved",
   "theorems": [
    "C52_crc32_is_the_bitwise_crc",
    "C52_incremental",
    "C52_result_fits_uint32"
   ],
   "note": ""
  },
  {
   "property": "C53",
   "status": "partial",
   "theorems": [
    "C53_no_lost_wakeup",
    "C53_result",
    "C53_wait_returns",
    "C53_honest",
    "C53_destroyed_without_clients",
    "C53_no_registration_after_destruction_began",
    "C53_count",
    "C53_destructor_finishes",
    "C53_no_use_after_destruction_partial",
    "C53_use_after_destruction_refuted",
    "C53_unreported_change_refuted"
   ],
   "note": "Interleaving model with wait sets, spurious wake-ups and the unlocked cv_.notify_one(). Proved: no lost wake-up for honest modifications (and liveness under a weakly fair scheduler), results, clients and destruction, liveness of the destructor. Missing/refuted: (1) the notify_one() of the last released client can touch a destroyed object (C53_use_after_destruction_refuted); everything else is excluded under the scoped-client discipline (C53_no_use_after_destruction_partial); (2) PotentiallyMutableUse with a function that changes data and returns false does not notify. WaitFor and user functions that throw or block are not modelled."
  },
  {
   "property": "C54",
   "status": "proved",
   "theorems": [
    "C54_replay_is_editing",
    "C54_text",
    "C54_times",
    "C54_only_editing",
    "C54_out_of_range_is_not_checked"
   ],
   "note": "Proved from the parsed JSON document; the UTF-8 decoder is a parameter. The numbers are not checked by the code: C54_out_of_range_is_not_checked shows logs that make it access memory out of range."
  },
  {
   "property": "C55",
   "status": "proved",
   "theorems": [
    "C55_fixed_size_and_order"
   ],
   "note": ""
  },
  {
   "property": "C56",
   "status": "partial",
   "theorems": [
    "C56_routes_to_longest_prefix",
    "C56_served_prefix_is_longest",
    "C56_unregistered_paths_get_none",
    "C56_indexing_follows_iteration",
    "C56_escaped_arguments_arrive",
    "C56_register_changes_exactly_these_routes",
    "C56_unregister_changes_exactly_these_routes",
    "C56_unregister_throws_partial",
    "C56_throwing_unregister_changes_nothing_refuted",
    "C56_scope_restores_routes",
    "C56_scope_undoes_exactly_what_register_added",
    "C56_path_handlers_count",
    "C56_compose_url_path"
   ],
   "note": "FindHandler, Register, UnRegister, PathHandlersCount and URLPathArgs. Routing proved for all tables and paths. An UnRegister that throws midway may have removed some of the routes it was asked to remove (refuted)."
  },
  {
   "property": "C57",
   "status": "partial",
   "theorems": [
    "C57_independent_of_segmentation",
    "C57_request_with_body",
    "C57_incomplete_body",
    "C57_request_without_body",
    "C57_content_length_truncated_refuted"
   ],
   "note": "C57_independent_of_segmentation: for all byte sequences and all divisions into reads the outcome is a function of the bytes. Content-Length is parsed with atoi: C57_content_length_truncated_refuted. The model treats BlockingRead as returning any non-empty prefix of what is to come; EAGAIN retries (a 'continue' in do{}while(false), posix.h 418-459, which leaves the loop) are not modelled."
  },
  {
   "property": "C58",
   "status": "partial",
   "theorems": [
    "C58_no_access_outside_of_the_buffer",
    "C58_what_escapes_partial",
    "C58_server_terminates_refuted"
   ],
   "note": "No access outside the receive buffer, for all bytes. Which exceptions leave the parser other than HTTP/network ones is characterised (C58_what_escapes_partial); that they do is proved (C58_server_terminates_refuted): a chunk size of 2^31 or more or negative makes std::out_of_range / std::length_error escape the accept thread."
  },
  {
   "property": "C59",
   "status": "proved",
   "theorems": [
    "C59_trim"
   ],
   "note": ""
  },
  {
   "property": "C60",
   "status": "proved",
   "theorems": [
    "C60_key_value_pairs_round_trip",
    "C60_throw_mode_drops_nothing"
   ],
   "note": ""
  },
  {
   "property": "C61",
   "status": "partial",
   "theorems": [
    "C61_returned_index_partial",
    "C61_returned_index_refuted"
   ],
   "note": "Refuted in general (slot read after commit); proved when fewer than N messages are admitted in between."
  },
  {
   "property": "C62",
   "status": "partial",
   "theorems": [
    "C62_cookies_round_trip_partial",
    "C62_cookies_refuted"
   ],
   "note": "Proved for non-empty names/values without = ; and surrounding blanks; refuted otherwise."
  },
  {
   "property": "C63",
   "status": "partial",
   "theorems": [
    "C63_parse_into_forgets_the_old_value",
    "C63_parsed_values_are_well_formed",
    "C63_reparse",
    "C63_variant_object_names_one_case",
    "C63_other_formats_refuted"
   ],
   "note": "Proved for the format Current; refuted for the other two (a null leaves a variant at its old value)."
  },
  {
   "property": "C64",
   "status": "partial",
   "theorems": [
    "C64_no_answer_during_the_delay",
    "C64_guessing_is_slow",
    "C64_granted_only_if_looked_at",
    "C64_the_owner_is_kept_out_refuted"
   ],
   "note": "The delay bound, the key-independence of replies in the delay, and granted-only-if-looked-at are proved for every sequence of requests; refuted: the same delay keeps out the owner who knows the key."
  },
  {
   "property": "C65",
   "status": "partial",
   "theorems": [
    "C65_reconnecting_loses_nothing",
    "C65_everything_sent_is_taken",
    "C65_idle_follower_waits_refuted"
   ],
   "note": "Proved for every run of connections from an empty follower (C65_reconnecting_loses_nothing, C65_everything_sent_is_taken), with the server modelled as in C15 and the client as in C16. Refuted: a follower which has everything and received an entry last subscribes without since, is sent the master's own head first, refuses it and reconnects at once, over and over (C65_idle_follower_waits_refuted). Not modelled: CheckSchema() before each connection, the HTTP client itself (C45, C57, C58)."
  },
  {
   "property": "C66",
   "status": "proved",
   "theorems": [
    "C66_restart_keeps_the_storage",
    "C66_restarts_are_transparent",
    "C66_commits_are_atomic"
   ],
   "note": "Composition of the transaction model (C27-C30) with the byte-level file persister (C05-C09). Codec hypotheses: codec_ok (round trip, no tab/newline in the index JSON, no newline in the entry JSON) and, for the crash theorem, no strict prefix of an entry's JSON parses (true of JSON objects). When the crash leaves a file that cannot be opened or read (cut index, cut payload), nothing is shown: C08 proves when that happens and that the next publish after such a recovery can be lost; torn head updates are refuted in C08."
  },
  {
   "property": "C67",
   "status": "partial",
   "theorems": [
    "C67_get",
    "C67_writes",
    "C67_followers_refuse_writes",
    "C67_requests_are_events",
    "C67_no_lost_update",
    "C67_no_lost_update_by_date_partial",
    "C67_shards_partition",
    "C67_get_all",
    "C67_export",
    "C67_dates",
    "C67_same_second_lost_update_refuted",
    "C67_deleted_recreated_refuted",
    "C67_eviction_refuted",
    "C67_malformed_key_refuted"
   ],
   "note": "Full handlers over any schema and history. By the standard If-Unmodified-Since header only changes of later seconds are covered (C67_no_lost_update_by_date_partial; its hypothesis on dates holds of the real ones until 2262: C67_dates). Refuted: an update made within the same second is lost; a conditional PUT re-creates a resource deleted meanwhile (201, not 412); a conditional PUT into a matrix removes a competing, later modified entry without 412; a malformed integer key is taken as 0. JSON bodies and keys are parameters."
  },
  {
   "property": "C68",
   "status": "partial",
   "theorems": [
    "C68_page_partial",
    "C68_next_pages_cover_partial",
    "C68_previous_pages_reach_the_first_partial",
    "C68_zero_page_size_refuted",
    "C68_page_overflow_refuted",
    "C68_deletion_between_pages_refuted"
   ],
   "note": "Proved for n >= 1 and sums below 2^64 (hypotheses in the theorems). Refuted: n=0 (or a malformed n) gives an endless walk of empty pages; i+n overflowing uint64 gives an empty page; an entry deleted between two requests makes the walk skip another entry."
  },
  {
   "property": "C69",
   "status": "partial",
   "theorems": [
    "C69_follows_redirects",
    "C69_ends_partial",
    "C69_absolute_redirect",
    "C69_relative_redirect",
    "C69_requests_are_the_same",
    "C69_relative_page_refuted",
    "C69_query_location_refuted",
    "C69_headers_to_another_host_refuted",
    "C69_fragment_sent_refuted",
    "C69_location_case_refuted",
    "C69_endless_redirects_refuted"
   ],
   "note": "Termination only when the server uses finitely many locations (C69_ends_partial); with infinitely many there is no limit (refuted). Also refuted: a location relative to the page is taken for a host name; a query-only location makes the client throw; custom headers such as Authorization are re-sent to another host; the fragment is sent to the server; a lower-case location header is ignored. Socket errors are not modelled."
  },
  {
   "property": "C70",
   "status": "partial",
   "theorems": [
    "C70_utf8_length",
    "C70_lengths_add_up",
    "C70_nul_refuted"
   ],
   "note": "For text without NUL; with a NUL inside a std::string the count stops there (refuted)."
  },
  {
   "property": "C71",
   "status": "proved",
   "theorems": [
    "C71_recorded_is_native",
    "C71_default_terms_refuted",
    "C71_negative_zero_literal_refuted",
    "C71_unary_minus_refuted"
   ],
   "note": "Proved for any arithmetic. The three exceptions in the statement are shown necessary by refuted theorems: term_vector_t(n) elements behave as x[0]; the literal -0.0 overwrites the shared node of 0.0; unary minus of +0.0 is +0.0. Model: one thread, one X alive."
  },
  {
   "property": "C72",
   "status": "proved",
   "theorems": [
    "C72_gradient",
    "C72_unit_step_throws",
    "C72_polynomial_time_refuted"
   ],
   "note": "Proved over the real numbers (rounding not modelled); uses the axioms of Coq's Reals. Refuted: polynomial time (differentiate_node revisits shared subexpressions once per path, at least 2^n turns for f = f + f repeated n times)."
  },
  {
   "property": "C73",
   "status": "partial",
   "theorems": [
    "C73_sound",
    "C73_no_empty_arrays",
    "C73_empty_array_refuted",
    "C73_array_of_nulls_refuted",
    "C73_struct_names_refuted",
    "C73_reserved_word_refuted"
   ],
   "note": "Soundness of the inferred type is proved with the proviso on empty arrays (and without it for documents that have none). The unconditional claim, validity of the output and distinctness of struct names are false of the code: C73_empty_array_refuted, C73_array_of_nulls_refuted, C73_struct_names_refuted."
  },
  {
   "property": "C74",
   "status": "proved",
   "theorems": [
    "C74_exact",
    "C74_succeeds",
    "C74_unique",
    "C74_order",
    "C74_null_count_refuted"
   ],
   "note": "Exactness, completeness, uniqueness and independence of the order of lines are proved; the number of nulls reported is the only part of the schema that is not exact (C74_null_count_refuted), the claim does not include it."
  },
  {
   "property": "C75",
   "status": "proved",
   "theorems": [
    "C75_sha256",
    "C75_portions",
    "C75_cut",
    "C75_roots",
    "C75_zeros"
   ],
   "note": "SHA256 equals FIPS 180-4 (written down separately, on bit strings, with the constants as roots of primes) for byte strings of every length; streaming use, repeated getHash, arbitrary initial memory."
  },
  {
   "property": "C76",
   "status": "partial",
   "theorems": [
    "C76_defined",
    "C76_history",
    "C76_same_definitions",
    "C76_not_recursive",
    "C76_alike",
    "C76_kinds",
    "C76_primitives",
    "C76_names_refuted",
    "C76_enum_names_refuted",
    "C76_enum_underlying_refuted",
    "C76_compiler_refuted",
    "C76_array_kind_refuted"
   ],
   "note": "Proved for all programs: definedness, independence of the thread's history, of namespaces and (without recursion) of the compiler, the kind by the digits, primitives. That different types have different TypeIDs is false (CRC32 of names; underlying types of enums), and recursive types depend on the compiler's order of evaluation: refuted."
  },
  {
   "property": "C77",
   "status": "partial",
   "theorems": [
    "C77_schema",
    "C77_closed",
    "C77_array_missing_refuted",
    "C77_array_for_vector_refuted",
    "C77_collision_refuted"
   ],
   "note": "Proved for all programs without arrays whose TypeIDs differ; refuted for arrays (registered under the vector's TypeID) and for colliding TypeIDs."
  },
  {
   "property": "C78",
   "status": "partial",
   "theorems": [
    "C78_format",
    "C78_round_trip",
    "C78_http",
    "C78_injective",
    "C78_not_a_date",
    "C78_before_1970_refuted",
    "C78_after_2262_refuted",
    "C78_read_after_2262_refuted",
    "C78_rfc850_refuted",
    "C78_epoch_refuted",
    "C78_no_such_day_refuted"
   ],
   "note": "Proved for all times from 1970 that the nanoseconds of the system clock can represent (until 11 April 2262). Refuted outside: times before 1970 are rounded up, times after 2262 wrap around, RFC 850 years after 2068, the first second of 1970 is taken for not a date, impossible days are accepted. glibc's gmtime_r, timegm, strftime and strptime are modelled, not linked."
  },
  {
   "property": "C79",
   "status": "partial",
   "theorems": [
    "C79_names",
    "C79_update",
    "C79_history",
    "C79_killed",
    "C79_killed_and_restarted",
    "C79_throws_partial",
    "C79_bad_file",
    "C79_atomic_refuted",
    "C79_same_second_refuted",
    "C79_startup_copy_refuted",
    "C79_throwing_update_refuted",
    "C79_silent_refuted"
   ],
   "note": "Proved for updates in different seconds. Refuted: updates are not atomic (a program killed in between does not start again, although nothing is lost); updates within one second overwrite each other's saved config; the copy made at startup is of the parsed config, not of the file; an Update that throws when writing the file has already changed the config in force; errors of writing buffered data are not reported."
  },
  {
   "property": "C80",
   "status": "partial",
   "theorems": [
    "C80_function",
    "C80_function_is_native",
    "C80_gradient",
    "C80_many_nodes_refuted"
   ],
   "note": "Proved for functions and gradients up to 2^28 - 16 nodes (C80_function, C80_function_is_native, C80_gradient); C80_many_nodes_refuted: past this the generated displacement is negative and no check exists."
  },
  {
   "property": "C81",
   "status": "partial",
   "theorems": [
    "C81_one_receiver",
    "C81_exactly_once_in_order",
    "C81_prefix_at_any_time",
    "C81_no_spurious_error",
    "C81_outcome_depends_on_the_wires_only",
    "C81_concurrent_emit_refuted"
   ],
   "note": "Proved for emit, post and head, whatever the diagram and the schedule; C81_concurrent_emit_refuted: two threads emitting into one pipe can have a legal emit refused."
  },
  {
   "property": "C82",
   "status": "partial",
   "theorems": [
    "C82_no_use_after_destruction",
    "C82_join_is_never_stuck",
    "C82_join_returns",
    "C82_same_timestamp_refuted",
    "C82_schedule_ahead_refuted"
   ],
   "note": "Proved for emit, post and head; with schedule Join can wait for ever (C82_same_timestamp_refuted, C82_schedule_ahead_refuted)."
  },
  {
   "property": "C83",
   "status": "partial",
   "theorems": [
    "C83_read_returns_the_next_bytes",
    "C83_stream_is_intact",
    "C83_return_asap_loses_nothing",
    "C83_reset_is_a_reset",
    "C83_write_is_all_or_exception",
    "C83_write_succeeds",
    "C83_end_to_end",
    "C83_keeps_reading_refuted",
    "C83_eagain_retried_refuted",
    "C83_close_is_not_a_reset_refuted",
    "C83_long_writes_refuted"
   ],
   "note": "Proved except for what the comments add: FillFullBuffer keeping on reading, the retry on EAGAIN, resets told from closes with a stale errno, and writes of 2^31 bytes or more are refuted."
  },
  {
   "property": "C84",
   "status": "partial",
   "theorems": [
    "C84_no_use_after_close",
    "C84_one_owner",
    "C84_moved_from",
    "C84_nothing_leaks",
    "C84_move_assignment_leaks_refuted",
    "C84_failed_constructor_leaks_refuted",
    "C84_descriptor_zero_refuted"
   ],
   "note": "Proved; that nothing leaks only under three conditions, each shown necessary by a refutation."
  },
  {
   "property": "C85",
   "status": "partial",
   "theorems": [
    "C85_the_port_is_bound",
    "C85_hint_first",
    "C85_terminates",
    "C85_finds_a_free_port_partial",
    "C85_finds_an_untried_port",
    "C85_gives_up_late",
    "C85_finds_a_free_port_refuted"
   ],
   "note": "That a port is found whenever one stays free is refuted in general; proved for the first round (C85_finds_a_free_port_partial) and for the ports not yet tried."
  },
  {
   "property": "C86",
   "status": "partial",
   "theorems": [
    "C86_meaning_of_a_command_line",
    "C86_unambiguous",
    "C86_last_one_wins",
    "C86_help_and_errors",
    "C86_help_is_given",
    "C86_called_once",
    "C86_everything_can_be_said",
    "C86_separate_values",
    "C86_values_are_read",
    "C86_numbers_in_range",
    "C86_garbage_rejected_refuted",
    "C86_negative_rejected_refuted",
    "C86_small_integers_refuted"
   ],
   "note": "Proved, except that malformed numbers are not always rejected and int8/uint8 flags do not read numbers (three refutations)."
  },
  {
   "property": "C87",
   "status": "partial",
   "theorems": [
    "C87_active_services_are_watched",
    "C87_never_sleeps_forever",
    "C87_silence_is_noticed",
    "C87_timeout_means_silence",
    "C87_join_returns",
    "C87_alive_is_not_timed_out_refuted",
    "C87_left_is_not_timed_out_refuted",
    "C87_restored_services_time_out_refuted",
    "C87_timed_out_after_the_timeout_refuted"
   ],
   "note": "Proved under the stated conditions (the requests of one service one after another, as the one-threaded HTTP server gives; no active service left from the last run where quiet_boot is assumed); four claims a user would expect are refuted."
  },
  {
   "property": "C88",
   "status": "partial",
   "theorems": [
    "C88_snapshot_of_the_past",
    "C88_snapshot_of_the_first",
    "C88_snapshot_is_one_off",
    "C88_view_is_exact",
    "C88_shown_once",
    "C88_shown_with_its_service",
    "C88_snapshot_refuted",
    "C88_shown_with_its_last_service_refuted"
   ],
   "note": "Exact characterisations of both pages; the snapshot is refuted for services heard from since the start (karl.h 554 stores the index instead of index + 1)."
  },
  {
   "property": "C89",
   "status": "partial",
   "theorems": [
    "C89_returns_for_a_reason",
    "C89_always_returns",
    "C89_events_are_not_lost",
    "C89_notified_means_woken",
    "C89_bulk_notifies_the_open_scopes",
    "C89_signal_wakes_refuted",
    "C89_open_scope_is_notified_refuted"
   ],
   "note": "Proved for every interleaving; the two stronger claims about wakeups are refuted."
  },
  {
   "property": "C90",
   "status": "partial",
   "theorems": [
    "C90_descent_is_monotone",
    "C90_descent_throws_if_nothing_is_valid",
    "C90_line_search_results_are_honest",
    "C90_conjugate_gradient_is_normal",
    "C90_line_search_is_not_worse_partial",
    "C90_result_is_not_worse_refuted",
    "C90_descent_returns_numbers_refuted"
   ],
   "note": "GradientDescentOptimizer in full for any ordered arithmetic, instantiated with IEEE doubles; the other two never lose ground only with one step of patience (proved for lawful arithmetics, instantiated with the rationals), and the claim with default parameters is refuted in binary64. Also found: the parameter step_factor is read and never used."
  },
  {
   "property": "C91",
   "status": "partial",
   "theorems": [
    "C91_at_most_once",
    "C91_nothing_is_lost",
    "C91_everything_is_called_in_the_end",
    "C91_last_in_first_out",
    "C91_sums_are_in_order",
    "C91_self_append_refuted"
   ],
   "note": "Self-append of a non-empty object is undefined behaviour (refuted part)."
  },
  {
   "property": "C92",
   "status": "partial",
   "theorems": [
    "C92_rectangular",
    "C92_reads_what_was_written",
    "C92_exceptions",
    "C92_empty_cells_refuted"
   ],
   "note": "Empty cells are dropped, so that rows shift (refuted part)."
  },
  {
   "property": "C93",
   "status": "partial",
   "theorems": [
    "C93_wait_means_sent",
    "C93_relocation_means_sent",
    "C93_requests_are_not_lost",
    "C93_waiting_calls_return",
    "C93_destruction_ends",
    "C93_destruction_is_final",
    "C93_keepalives_are_sent_in_time",
    "C93_registering_first_is_safe",
    "C93_registering_later_is_safe_refuted",
    "C93_waiting_calls_return_from_a_destructed_object_refuted"
   ],
   "note": "Ending the process when Register comes second, and a waiting call that outlives the keepalive thread, are refuted parts. Liveness is possibility of return from every reachable state with no help but the keepalive thread's (no fairness is assumed). Not proved, seen in the code: ServeCurrent reads dependencies_ and karl_ without keepalive_mutex_; OnKarlLocatorChanged is called with keepalive_mutex_ locked, so a callback that calls GetKarlLocator deadlocks."
  },
  {
   "property": "C94",
   "status": "partial",
   "theorems": [
    "C94_optionals_are_values",
    "C94_pod_optionals_are_values",
    "C94_pod_optionals_can_be_copied_refuted",
    "C94_moving_keeps_the_value_refuted",
    "C94_moved_from_is_nothing_refuted",
    "C94_comparisons",
    "C94_order_of_optionals",
    "C94_comparing_with_a_value_is_comparing_refuted"
   ],
   "note": "Both classes for both kinds of types; all operations. The three exceptions in the statement are refuted theorems, and moves_own and never_from_nothing exclude exactly them. Not modelled: objects that contain Optionals (opt = std::move(Value(opt).child) frees the object that holds the source and then writes to the source, optional.h 401-410), exceptions thrown by T's copy constructor."
  },
  {
   "property": "C95",
   "status": "partial",
   "theorems": [
    "C95_variants_hold_what_they_are_given",
    "C95_throwing_changes_nothing",
    "C95_types_are_always_found",
    "C95_copies_are_equal",
    "C95_const_inner_variants_can_be_put_refuted"
   ],
   "note": "All operations with compile-time checks, nested variants included. The exception in the last sentence is the refuted theorem. Overload resolution is modelled by hand from the C++ rules (DESIGN)."
  },
  {
   "property": "C96",
   "status": "partial",
   "theorems": [
    "C96_time_is_accounted_for",
    "C96_what_is_reported",
    "C96_parts_take_no_longer",
    "C96_parts_take_no_longer_after_a_reset",
    "C96_the_innermost_scope_can_be_left",
    "C96_reports_move_with_time",
    "C96_threads_do_not_disturb_each_other",
    "C96_the_parts_of_a_thread_take_no_longer_than_the_thread_refuted",
    "C96_entries_are_those_since_the_reset_refuted"
   ],
   "note": "the scopes of a thread can be reported to take longer than the thread, and entries counts one too many after a reset: see the theorems named _refuted; the rest is proved"
  },
  {
   "property": "C97",
   "status": "partial",
   "theorems": [
    "C97_comparison",
    "C97_the_order_is_total",
    "C97_prefixes",
    "C97_objects_stand_for_their_strings",
    "C97_unique_chunks",
    "C97_unique_chunks_are_ordered",
    "C97_equal_unique_chunks_are_equal_strings_refuted",
    "C97_the_database_keeps_the_strings_refuted"
   ],
   "note": "UniqueChunks of different strings that begin at the same address are equal, and the database follows the object it was given when that is assigned another string: see the theorems named _refuted; the rest is proved"
  },
  {
   "property": "C98",
   "status": "partial",
   "theorems": [
    "C98_the_callback_gets_each_match",
    "C98_matching",
    "C98_what_matches",
    "C98_units_are_found_once",
    "C98_grouping_makes_no_difference",
    "C98_direction_makes_no_difference",
    "C98_matches_are_within_the_query",
    "C98_schemas_are_as_written",
    "C98_only_functions_can_differ",
    "C98_schemas_are_as_written_refuted",
    "C98_blocks_are_as_written_refuted",
    "C98_units_are_found_once_refuted",
    "C98_dictionaries",
    "C98_keywords",
    "C98_case_makes_no_difference",
    "C98_every_keyword_can_be_matched_refuted",
    "C98_results_are_of_the_type",
    "C98_or_gives_both"
   ],
   "note": "two Maps (to one type) or Filters of the same type of block share the first one's function, keywords with capitals are never matched, and a Map to Unit can be found twice: see the theorems named _refuted; the rest is proved"
  },
  {
   "property": "C99",
   "status": "partial",
   "theorems": [
    "C99_each_line_shows_its_status",
    "C99_undecorated",
    "C99_a_line_shows_its_status",
    "C99_threads_can_update_their_lines",
    "C99_lines_can_be_created_by_other_threads_refuted",
    "C99_what_is_above_stays_refuted",
    "C99_each_line_shows_its_status_refuted"
   ],
   "note": "a line shows up in the wrong row, or over what is above the lines, if it is updated while another thread creates a line, and lines that have left the screen are shown over others: see the theorems named _refuted; the rest is proved"
  },
  {
   "property": "C100",
   "status": "partial",
   "theorems": [
    "C100_rounded",
    "C100_negative",
    "C100_no_leading_zeros",
    "C100_no_leading_zeros_refuted",
    "C100_at_most_so_many_digits",
    "C100_no_trailing_zeros",
    "C100_plus_sign"
   ],
   "note": "real numbers in place of doubles; a number just below a power of ten can have a zero in front with 11 digits or more: see the theorem named _refuted; the rest is proved of the model"
  },
  {
   "property": "C101",
   "status": "partial",
   "theorems": [
    "C101_escaped",
    "C101_written",
    "C101_edges_to_other_nodes_refuted"
   ],
   "note": "an edge to a node that is not in the graph can be drawn to another node: see the theorem named _refuted; the rest is proved"
  },
  {
   "property": "C102",
   "status": "partial",
   "theorems": [
    "C102_groups",
    "C102_index",
    "C102_lookaheads_refuted",
    "C102_escaped_backslashes_refuted"
   ],
   "note": "negative lookaheads and groups after an escaped backslash are counted wrongly: see the theorems named _refuted; the rest is proved, of groups only: matching is left to std::regex"
  }
 ]
}