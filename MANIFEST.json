{
 "claims": [
  {
   "property": "C01",
   "status": "proved",
   "theorems": [
    "C01_base64_roundtrip"
   ],
   "note": "all byte strings, all buffers"
  },
  {
   "property": "C02",
   "status": "proved",
   "theorems": [
    "C02_base64_encode_exact",
    "C02_base64_text_length"
   ],
   "note": "whole output buffer characterised, includes frame and memory safety"
  },
  {
   "property": "C03",
   "status": "proved",
   "theorems": [
    "C03_base64_decode_exact"
   ],
   "note": "acceptance iff well formed; exact bytes written for every input and capacity"
  },
  {
   "property": "C04",
   "status": "proved",
   "theorems": [
    "C04_encode_alloc_overflow_exact",
    "C04_encode_alloc"
   ],
   "note": "every 64-bit length"
  },
  {
   "property": "C05",
   "status": "proved",
   "theorems": [
    "C05_decode_alloc_complete"
   ],
   "note": ""
  },
  {
   "property": "C06",
   "status": "proved",
   "theorems": [
    "C06_web64_roundtrip"
   ],
   "note": ""
  },
  {
   "property": "C07",
   "status": "proved",
   "theorems": [
    "C07_web64_alphabet",
    "C07_web64_survives_urlcodec"
   ],
   "note": ""
  },
  {
   "property": "C08",
   "status": "proved",
   "theorems": [
    "C08_web64_encode_exact",
    "C08_web64_decode_exact"
   ],
   "note": ""
  },
  {
   "property": "C09",
   "status": "proved",
   "theorems": [
    "C09_base58_decode_encode",
    "C09_base58_encode_exact"
   ],
   "note": "all byte strings within the documented size limit, all buffers"
  },
  {
   "property": "C10",
   "status": "proved",
   "theorems": [
    "C10_base58_encode_decode",
    "C10_base58_text_unique",
    "C10_base58_bytes_unique"
   ],
   "note": ""
  },
  {
   "property": "C11",
   "status": "proved",
   "theorems": [
    "C11_base58_scratch_suffices",
    "C11_encode_digits_fit",
    "C11_decode_bytes_fit",
    "C11_scratch_unlimited_refuted",
    "C11_encode_calloc_failure_refuted"
   ],
   "note": "holds up to the stated size limit; the refuted theorems show the limit and the unchecked calloc are real"
  },
  {
   "property": "C12",
   "status": "partial",
   "theorems": [
    "C12_base58_bad_position_partial",
    "C12_base58_bad_first_char_refuted",
    "C12_sign"
   ],
   "note": "false for a bad first character (witness); true variant proved"
  },
  {
   "property": "C13",
   "status": "partial",
   "theorems": [
    "C13_base58_encode_alloc_partial",
    "C13_base58_decode_alloc_partial",
    "C13_encode_alloc_length_refuted",
    "C13_decode_alloc_oom_refuted",
    "C13_encode_alloc_number",
    "C13_encode_alloc_too_large"
   ],
   "note": "reported length and out-of-memory handling refuted with witnesses; true variants proved"
  },
  {
   "property": "C14",
   "status": "partial",
   "theorems": [
    "C14_strnchr_first",
    "C14_strxchr_first_partial",
    "C14_strxchr_high_bytes",
    "C14_revnchr_last",
    "C14_revxchr_last_partial",
    "C14_revxchr_high_bytes",
    "C14_strnchp_first",
    "C14_strxchp_first_partial",
    "C14_strxchp_high_bytes",
    "C14_x_variants_refuted"
   ],
   "note": "Proved in full for strnchr, revnchr and strnchp. False for the x variants with a byte 128..254 to look for: the code compares a signed char with the result of tolower, which glibc makes positive, so such a byte is never found (the three _high_bytes theorems; witness C14_x_variants_refuted). Proved for all other bytes."
  },
  {
   "property": "C15",
   "status": "partial",
   "theorems": [
    "C15_strnstr_first_partial",
    "C15_strxstr_first_partial",
    "C15_stristr_first",
    "C15_strnstr_empty_reads_out_of_bounds",
    "C15_strnstr_leading_nul",
    "C15_strnstr_first_refuted"
   ],
   "note": "false for an empty block and for a haystack starting with NUL (witness and exact behaviour); proved for all others; stristr in full"
  },
  {
   "property": "C16",
   "status": "proved",
   "theorems": [
    "C16_strnspn_prefix",
    "C16_strxspn_prefix",
    "C16_strispn_prefix",
    "C16_strnspc_prefix",
    "C16_strxspc_prefix",
    "C16_strispc_prefix"
   ],
   "note": ""
  },
  {
   "property": "C17",
   "status": "partial",
   "theorems": [
    "C17_revnspc_suffix",
    "C17_revxspc_suffix",
    "C17_revnspn_off_by_one_partial",
    "C17_revxspn_off_by_one_partial",
    "C17_rev_empty_alphabet",
    "C17_revnspn_suffix_refuted"
   ],
   "note": "revnspc/revxspc in full; revnspn/revxspn are off by one: refuted and exact result proved"
  },
  {
   "property": "C18",
   "status": "proved",
   "theorems": [
    "C18_atou_decimal",
    "C18_atou_malformed",
    "C18_atoi_exact",
    "C18_atoi_total"
   ],
   "note": ""
  },
  {
   "property": "C19",
   "status": "partial",
   "theorems": [
    "C19_split_determined",
    "C19_split_string",
    "C19_split_sized_nonul",
    "C19_split_sized_partial",
    "C19_split_sized_refuted"
   ],
   "note": "NUL-terminated overload in full; sized overload also splits at NUL bytes (witness), exact result proved for every source"
  },
  {
   "property": "C20",
   "status": "proved",
   "theorems": [
    "C20_stringset",
    "C20_stringset_empty"
   ],
   "note": ""
  },
  {
   "property": "C21",
   "status": "partial",
   "theorems": [
    "C21_uint64set_partial",
    "C21_uint64set_uninitialised",
    "C21_uint64set_refuted"
   ],
   "note": "exact result when every field has a number; otherwise an indeterminate value is inserted (proved for all such inputs)"
  },
  {
   "property": "C22",
   "status": "partial",
   "theorems": [
    "C22_strnappend_partial",
    "C22_strnprintf_partial",
    "C22_huge_num_refuted",
    "C22_format_error_refuted",
    "C22_long_text_refuted",
    "C22_huge_num_exact"
   ],
   "note": "proved for num < 2^31; for every larger num the lowest 32 bits count, as an int: the text is cut too early or the call throws (C22_huge_num_exact)"
  },
  {
   "property": "C23",
   "status": "partial",
   "theorems": [
    "C23_strappend",
    "C23_strprintf_partial",
    "C23_strprintf_nul_refuted",
    "C23_format_error_refuted",
    "C23_long_text_refuted",
    "C23_strprintf_exact"
   ],
   "note": "strappend in full up to INT_MAX-1; strprintf cuts at NUL bytes (witness)"
  },
  {
   "property": "C24",
   "status": "proved",
   "theorems": [
    "C24_random_string",
    "C24_every_string_possible",
    "C24_empty_alphabet_refuted"
   ],
   "note": ""
  },
  {
   "property": "C25",
   "status": "proved",
   "theorems": [
    "C25_get_next_word",
    "C25_words_exist"
   ],
   "note": ""
  },
  {
   "property": "C26",
   "status": "proved",
   "theorems": [
    "C26_urlenc_urldec"
   ],
   "note": ""
  },
  {
   "property": "C27",
   "status": "proved",
   "theorems": [
    "C27_urlenc_exact",
    "C27_encode_pieces"
   ],
   "note": ""
  },
  {
   "property": "C28",
   "status": "proved",
   "theorems": [
    "C28_urlenc_buf",
    "C28_urldec_buf",
    "C28_sizes_needed"
   ],
   "note": ""
  },
  {
   "property": "C29",
   "status": "proved",
   "theorems": [
    "C29_urldec_total",
    "C29_decodes_unique"
   ],
   "note": ""
  },
  {
   "property": "C30",
   "status": "proved",
   "theorems": [
    "C30_get_params",
    "C30_get_params_cstring",
    "C30_null"
   ],
   "note": ""
  },
  {
   "property": "C31",
   "status": "partial",
   "theorems": [
    "C31_get_header_partial",
    "C31_get_header_cstring",
    "C31_header_lines_exist",
    "C31_null",
    "C31_get_header_refuted",
    "C31_every_buffer_partial"
   ],
   "note": "NUL-terminated overload in full; the sized overload is false when a line starts with a NUL byte (witness), proved otherwise"
  },
  {
   "property": "C32",
   "status": "partial",
   "theorems": [
    "C32_url_escape_partial",
    "C32_url_escape_high",
    "C32_url_escape_high_refuted",
    "C32_url_escape_small_refuted"
   ],
   "note": "proved for ASCII strings; bytes >= 128 read outside the table (proved and refuted with witness)"
  },
  {
   "property": "C33",
   "status": "proved",
   "theorems": [
    "C33_url_unescape_safe",
    "C33_url_unescape_urlenc",
    "C33_url_unescape_small_refuted"
   ],
   "note": "the refuted theorem shows that sz >= 2 is needed"
  },
  {
   "property": "C34",
   "status": "partial",
   "theorems": [
    "C34_preunescape_partial",
    "C34_bound_tight",
    "C34_preunescape_refuted"
   ],
   "note": "false (witness); proved with the buffer size the function really needs, and that bound is tight"
  },
  {
   "property": "C35",
   "status": "partial",
   "theorems": [
    "C35_create_absolute_exact",
    "C35_create_absolute_partial",
    "C35_create_relative_partial",
    "C35_create_relative_exact",
    "C35_create_absolute_errors",
    "C35_create_relative_errors",
    "C35_short_url_refuted",
    "C35_cut_scheme_refuted"
   ],
   "note": "proved when 8 (relative: 11) bytes can be read at the URL and a scheme lies within the given length, for every parent that calls can make; false otherwise (witnesses); the two _exact theorems say which calls are defined"
  },
  {
   "property": "C36",
   "status": "proved",
   "theorems": [
    "C36_create_absolute",
    "C36_parts_exist",
    "C36_relative_parts_exist",
    "C36_normal_path_clean",
    "C36_dotdot",
    "C39_relative_partial"
   ],
   "note": "whole text characterised for every call with a defined behaviour (C35_create_absolute_exact)"
  },
  {
   "property": "C37",
   "status": "proved",
   "theorems": [
    "C37_idempotent",
    "C37_own_text_readable"
   ],
   "note": "every created URL"
  },
  {
   "property": "C38",
   "status": "partial",
   "theorems": [
    "C38_host",
    "C38_domain_determined",
    "C38_last_two_labels_partial",
    "C38_last_two_labels_refuted"
   ],
   "note": "host in full; \"last two labels\" is false for hosts with empty labels (witness), proved for all others"
  },
  {
   "property": "C39",
   "status": "partial",
   "theorems": [
    "C39_relative_partial",
    "C39_any_parent",
    "C39_upper_scheme",
    "C39_refused",
    "C39_created_objects",
    "C39_made_objects",
    "C39_relative_refuted"
   ],
   "note": "false for every parent whose scheme is written with an upper-case S (C39_upper_scheme: the reference \"/name\" replaces the host); proved otherwise; C39_any_parent gives the exact result for every parent"
  },
  {
   "property": "C40",
   "status": "proved",
   "theorems": [
    "C40_outcomes_any_parent",
    "C40_subdomain_any_parent",
    "C40_outcomes_partial",
    "C40_subdomain_partial",
    "C39_relative_refuted",
    "C40_flags"
   ],
   "note": "every outcome of create_relative for every parent that calls can make; the domain the object tells equals that of the parent. That the host in the text can differ from it is C39 (refuted)"
  },
  {
   "property": "C41",
   "status": "partial",
   "theorems": [
    "C41_value_semantics_partial",
    "C41_no_leak_partial",
    "C41_parsed_values",
    "C41_self_assignment_refuted"
   ],
   "note": "every history without self-assignment; self-assignment shows uninitialised bytes (witness)"
  },
  {
   "property": "C42",
   "status": "proved",
   "theorems": [
    "C42_last_value",
    "C42_set_then_get",
    "C45_refines"
   ],
   "note": "every history (sizes: before each set total+new < 2^64; times below 2^63)"
  },
  {
   "property": "C43",
   "status": "proved",
   "theorems": [
    "C43_evict_order"
   ],
   "note": "every history (sizes: before each set total+new < 2^64; times below 2^63)"
  },
  {
   "property": "C44",
   "status": "partial",
   "theorems": [
    "C44_limit_partial",
    "C44_limit_refuted"
   ],
   "note": "false: overwriting a value by a larger one does not evict (witness); proved: this is the only way to exceed the limit, and every insertion of a new key restores it"
  },
  {
   "property": "C45",
   "status": "proved",
   "theorems": [
    "C45_refines",
    "C45_refines_sum"
   ],
   "note": "every history (sizes: before each set total+new < 2^64; times below 2^63)"
  },
  {
   "property": "C46",
   "status": "proved",
   "theorems": [
    "C46_expiry",
    "C46_time",
    "C46_expiry_refuted"
   ],
   "note": "every history with time_max <= 2^63; the refuted theorem shows that the sum time+time_max must not wrap"
  },
  {
   "property": "C47",
   "status": "proved",
   "theorems": [
    "C47_linearizable",
    "C47_fifo",
    "C47_mutex"
   ],
   "note": "all interleavings, any number of threads, spurious wake-ups, signals that wake more than one thread"
  },
  {
   "property": "C48",
   "status": "proved",
   "theorems": [
    "C48_no_lost_wakeup",
    "C48_quiescent",
    "C48_no_deadlock",
    "C48_terminates",
    "C48_nowait"
   ],
   "note": ""
  },
  {
   "property": "C49",
   "status": "partial",
   "theorems": [
    "C49_blocking_get_partial",
    "C49_fail_empty",
    "C49_blocking_get_refuted",
    "C49_spurious_refuted",
    "C49_why"
   ],
   "note": "false (two schedules as witnesses); proved with one consumer, without signal() and spurious wake-ups; C49_why: for any number of consumers every -1 is caused by a spurious wake-up, by signal(), or by another consumer that took what was added; -1 always means that the queue was empty"
  },
  {
   "property": "C50",
   "status": "proved",
   "theorems": [
    "C50_stack_is_bounded_lifo",
    "C50_attach_refuses_other_type"
   ],
   "note": "every history of the bounded LIFO, with re-attach and frame"
  },
  {
   "property": "C51",
   "status": "proved",
   "theorems": [
    "C51_pool_hands_out_unused_indices",
    "C51_attach_refuses_other_type"
   ],
   "note": "every history in which only handed out indices are returned"
  },
  {
   "property": "C52",
   "status": "proved",
   "theorems": [
    "C52_hash_map_is_finite_map"
   ],
   "note": "every sequence of calls from the first attach on; parameters whose sizes fit in int"
  },
  {
   "property": "C53",
   "status": "proved",
   "theorems": [
    "C53_iteration_visits_each_entry_once"
   ],
   "note": ""
  },
  {
   "property": "C54",
   "status": "proved",
   "theorems": [
    "C54_writer_is_alone",
    "C54_lock_is_never_lost"
   ],
   "note": "any number of processes, any interleaving, deaths and failing semop anywhere; SEM_UNDO as documented"
  },
  {
   "property": "C55",
   "status": "proved",
   "theorems": [
    "C55_sections_are_atomic",
    "C55_map_is_linearizable",
    "C55_sections_are_safe"
   ],
   "note": "readers may die anywhere, writers inside insert; deaths of writers elsewhere are C82"
  },
  {
   "property": "C56",
   "status": "partial",
   "theorems": [
    "C56_connect_excludes_partial",
    "C56_first_connect_refuted",
    "C56_interrupted_connect_refuted",
    "C56_creation_partial",
    "C56_creation_breaks"
   ],
   "note": "false: the creator resets a lock another process holds, and the handler of an interrupted connect releases a lock it does not hold; proved when the set exists, and for every creation that does not reset the lock while somebody is inside; wherever it does, exclusion is lost two steps later (C56_creation_breaks); interruptions excluded"
  },
  {
   "property": "C57",
   "status": "proved",
   "theorems": [
    "C57_pieces_do_not_overlap",
    "C57_large_tables_refuted"
   ],
   "note": "proved for parameters whose sizes fit in int; false beyond (32-bit rounding wraps)"
  },
  {
   "property": "C58",
   "status": "proved",
   "theorems": [
    "C58_queue_is_fifo",
    "C58_boxes_arrive_in_order",
    "C58_sections_are_safe"
   ],
   "note": "any number of processes and any interleaving; processes may die outside the sections"
  },
  {
   "property": "C59",
   "status": "proved",
   "theorems": [
    "C59_count_is_exact",
    "C59_count_never_overpromises"
   ],
   "note": "exact for at most 32768 boxes (SEMVMX) and no deaths; never more than stored in general"
  },
  {
   "property": "C60",
   "status": "proved",
   "theorems": [
    "C60_items_survive_boxing",
    "C60_put_refuses_only_oversized",
    "C60_phantom_items_refuted",
    "C60_reused_object_refuted",
    "C60_no_items_after_the_last"
   ],
   "note": "any self-delimiting codec, fixed or variable size; the two refuted lemmas show what the interface does not promise"
  },
  {
   "property": "C61",
   "status": "partial",
   "theorems": [
    "C61_connect_partial",
    "C61_failed_connect_refuted",
    "C61_connect_iff"
   ],
   "note": "false: an exception in connect_shm leaves the queue locked, and a size mismatch dereferences a null pointer"
  },
  {
   "property": "C62",
   "status": "partial",
   "theorems": [
    "C62_lock_excludes_partial",
    "C62_interrupted_lock_refuted",
    "C62_lock_stays_broken_refuted",
    "C62_interrupted_lock_loses_a_box_refuted",
    "C62_excess",
    "C62_excess_stays"
   ],
   "note": "false: lock_queue ignores the result of semop; exclusion proved without interruptions, deaths anywhere; with interruptions the number of processes inside exceeds one by at most the number of interrupted locks, and by exactly that number when nobody dies"
  },
  {
   "property": "C63",
   "status": "partial",
   "theorems": [
    "C63_shallow_keys_partial",
    "C63_short_keys_partial",
    "C63_no_shared_prefix_partial",
    "C63_keys_collide_refuted",
    "C63_key_is_lost_refuted",
    "C63_lonely_key_partial",
    "C63_only_deep_keys_collide_partial",
    "C63_short_key_partial",
    "C63_distant_key_partial",
    "C63_eighteen_bytes_refuted"
   ],
   "note": "False in general: two different keys of 30 bytes share a slot, and a stored key is lost after an unrelated insertion. Proved for every history over a shallow set of keys (two keys sharing more than 8 bytes with a third share at most 8 bytes after that). C63_lonely_key_partial proves it for single keys among any others: every key of at most 17 bytes and every key that shares at most 8 bytes with the others is kept apart and never lost. 17 is the limit (C63_eighteen_bytes_refuted)."
  },
  {
   "property": "C64",
   "status": "partial",
   "theorems": [
    "C64_slots_partial",
    "C64_exact_fit_refuted",
    "C64_exact_fit_breaks"
   ],
   "note": "Proved for every history and every key except those that with terminator and user data take exactly 4096 bytes; for these the code writes one byte past the block."
  },
  {
   "property": "C65",
   "status": "proved",
   "theorems": [
    "C65_arrays_have_room"
   ],
   "note": "Also used inside C63/C64: a missing element of room would be OobWrite there."
  },
  {
   "property": "C66",
   "status": "proved",
   "theorems": [
    "C66_bucket_is_log2",
    "C66_buckets_are_ordered",
    "C66_swap",
    "C66_zero_is_in_bounds",
    "C66_zero_is_misplaced_refuted"
   ],
   "note": "all positive 64-bit values and all bucket counts; zero is in bounds but counted with the largest values"
  },
  {
   "property": "C67",
   "status": "proved",
   "theorems": [
    "C67_gmtime_is_gregorian",
    "C67_gmtime_is_valid",
    "C67_far_future_refuted",
    "C67_negative_time_refuted"
   ],
   "note": "the specification is the calendar rule applied day by day from 1970-01-01; tm_mon is 1..12 and tm_year the full year"
  },
  {
   "property": "C68",
   "status": "proved",
   "theorems": [
    "C68_msleep_is_exact"
   ],
   "note": ""
  },
  {
   "property": "C69",
   "status": "partial",
   "theorems": [
    "C69_accepts_quads",
    "C69_rejects_the_rest_partial",
    "C69_exact",
    "C69_empty_octets_refuted",
    "C69_overflow_refuted",
    "C69_broadcast_refuted"
   ],
   "note": "false: empty octets and octets that overflow are accepted, and 255.255.255.255 is INADDR_NONE; proved: every dotted quad is parsed, what is accepted has four parts of digits, and the exact result for every text"
  },
  {
   "property": "C70",
   "status": "partial",
   "theorems": [
    "C70_recv_retries",
    "C70_recv_waits",
    "C70_large_results_refuted"
   ],
   "note": "proved for results that fit in int; larger ones are truncated"
  },
  {
   "property": "C71",
   "status": "partial",
   "theorems": [
    "C71_sockets_do_not_leak",
    "C71_files_do_not_leak",
    "C71_open_does_not_leak_partial",
    "C71_fdopen_leak_refuted",
    "C71_random_leak_refuted",
    "C71_open_leak_exact"
   ],
   "note": "false of coda_fdopen when dup2 fails and of coda_random_init when read fails; proved for the others"
  },
  {
   "property": "C72",
   "status": "proved",
   "theorems": [
    "C72_one_owner",
    "C72_stop_by_a_loser_refuted",
    "C72_empty_write_refuted"
   ],
   "note": "any number of processes, failures and deaths anywhere; the two refuted lemmas show that the provisos (only owners stop, a successful write is not empty) are needed"
  },
  {
   "property": "C73",
   "status": "partial",
   "theorems": [
    "C73_mkpath",
    "C73_mkpath_is_complete",
    "C73_empty_path_refuted"
   ],
   "note": "all non-empty paths; for the empty path the byte after the terminator is read"
  },
  {
   "property": "C74",
   "status": "proved",
   "theorems": [
    "C74_signals_set_their_flags",
    "C74_installed"
   ],
   "note": ""
  },
  {
   "property": "C75",
   "status": "partial",
   "theorems": [
    "C75_names",
    "C75_defined",
    "C75_default_partial",
    "C75_exact",
    "C75_other_words_refuted"
   ],
   "note": "false: any word that begins like a level name is that level; proved: all names in any case, definedness, info for words with another first letter, and the exact result for every text"
  },
  {
   "property": "C76",
   "status": "partial",
   "theorems": [
    "C76_loads_the_document",
    "C76_any_pieces",
    "C76_lists_in_order",
    "C76_list_of_lists_refuted",
    "C76_same_name_refuted"
   ],
   "note": "all documents and pieces, for types with distinct non-empty member names and without lists of lists; for the others loading reads outside the object"
  },
  {
   "property": "C77",
   "status": "proved",
   "theorems": [
    "C77_true_iff",
    "C77_words",
    "C77_integers",
    "C77_abbreviation_refuted",
    "C77_fraction_refuted"
   ],
   "note": "\"o\" is on, \"0.5\" is false"
  },
  {
   "property": "C78",
   "status": "proved",
   "theorems": [
    "C78_letter_by_letter",
    "C78_idempotent",
    "C78_safe",
    "C78_malformed_refuted",
    "C78_cut"
   ],
   "note": "all sequences of code points; for arbitrary bytes memory safety and length; idempotence fails outside UTF-8"
  },
  {
   "property": "C79",
   "status": "proved",
   "theorems": [
    "C79_url_unescape_exact"
   ],
   "note": "all strings of the escape grammar"
  },
  {
   "property": "C80",
   "status": "partial",
   "theorems": [
    "C80_preunescape_exact_partial",
    "C80_preunescape_refuted",
    "C80_every_string_partial",
    "C80_escape_lost"
   ],
   "note": "false for \\xXX escapes of ASCII characters (witness), proved for all other strings"
  },
  {
   "property": "C81",
   "status": "proved",
   "theorems": [
    "C81_insert_survives_crash"
   ],
   "note": ""
  },
  {
   "property": "C82",
   "status": "partial",
   "theorems": [
    "C82_erase_crash_readers_partial",
    "C82_crash_in_erase_refuted",
    "C82_crash_in_clear_refuted",
    "C82_crash_in_first_attach_refuted"
   ],
   "note": "false for later writers after erase, and for clear and the first attach; readers are safe after an interrupted erase"
  },
  {
   "property": "C83",
   "status": "proved",
   "theorems": [
    "C83_attach_refuses_other_parameters"
   ],
   "note": ""
  },
  {
   "property": "C84",
   "status": "partial",
   "theorems": [
    "C58_queue_is_fifo",
    "C84_death_in_flush_refuted",
    "C84_death_in_unflush_refuted",
    "C84_lost_ticket_refuted",
    "C84_deaths_partial",
    "C84_sections_are_safe_partial",
    "C84_order_partial",
    "C84_wrap_death_corrupts"
   ],
   "note": "false as stated (refutations); proved for deaths anywhere except between the two assignments that wrap an index: a call cut short has done nothing, everything, or zeroed a prefix of the oldest box"
  },
  {
   "property": "C85",
   "status": "partial",
   "theorems": [
    "C58_sections_are_safe",
    "C85_large_queue_refuted",
    "C85_zero_boxes_refuted",
    "C85_large_queues_break",
    "C85_no_boxes_break"
   ],
   "note": "false exactly when the product of the sizes reaches 2^32 or there are no boxes: C58_sections_are_safe covers all other sizes, C85_large_queues_break and C85_no_boxes_break all of these"
  },
  {
   "property": "C86",
   "status": "partial",
   "theorems": [
    "C86_enumeration_is_defined",
    "C86_enumeration_partial",
    "C86_long_keys_refuted"
   ],
   "note": "Memory safety for every history; for shallow sets of keys every key is reported once with its slot and its text cut to 255 bytes; false for longer keys, whose text is cut."
  },
  {
   "property": "C87",
   "status": "proved",
   "theorems": [
    "C87_user_data_is_kept"
   ],
   "note": "For every history in which no key has exactly the size for which add overflows (C64)."
  },
  {
   "property": "C88",
   "status": "partial",
   "theorems": [
    "C88_fresh_array_is_zero_partial",
    "C88_uninitialised_refuted",
    "C88_exact"
   ],
   "note": "false for element types without a specialised holder (bool, signed char, long long, long double)"
  },
  {
   "property": "C89",
   "status": "partial",
   "theorems": [
    "C89_timeout_partial",
    "C89_long_timeouts_refuted",
    "C89_exact"
   ],
   "note": "false from one second on: tv_usec is out of range"
  },
  {
   "property": "C90",
   "status": "partial",
   "theorems": [
    "C90_port_partial",
    "C90_exact",
    "C90_every_text",
    "C90_bad_ports_refuted"
   ],
   "note": "false for other text and larger numbers, which give some other port; the exact result is proved for every text"
  },
  {
   "property": "C91",
   "status": "proved",
   "theorems": [
    "C91_fdopen_target"
   ],
   "note": ""
  },
  {
   "property": "C92",
   "status": "proved",
   "theorems": [
    "C92_daemon_streams",
    "C92_new_session",
    "C92_stderr_stays_refuted"
   ],
   "note": "stderr is not detached"
  },
  {
   "property": "C93",
   "status": "proved",
   "theorems": [
    "C93_log_create",
    "C93_calls"
   ],
   "note": "non-empty paths (see C73)"
  },
  {
   "property": "C94",
   "status": "proved",
   "theorems": [
    "C94_daemon_load",
    "C94_start_up_is_ordered",
    "C94_stop_removes_the_pid_file"
   ],
   "note": ""
  },
  {
   "property": "C95",
   "status": "partial",
   "theorems": [
    "C95_mmap_partial",
    "C95_mapping_leak_refuted",
    "C95_read_only_size_refuted",
    "C95_leak_exact"
   ],
   "note": "false exactly when mmap succeeds and then close fails (C95_leak_exact), and for a read-only mapping of a given size"
  },
  {
   "property": "C96",
   "status": "proved",
   "theorems": [
    "C96_mask"
   ],
   "note": ""
  },
  {
   "property": "C97",
   "status": "proved",
   "theorems": [
    "C97_last_option_wins"
   ],
   "note": ""
  },
  {
   "property": "C98",
   "status": "proved",
   "theorems": [
    "C98_sockets_are_set_up"
   ],
   "note": ""
  },
  {
   "property": "C99",
   "status": "partial",
   "theorems": [
    "C99_free_path_partial",
    "C99_stale_file_refuted",
    "C99_failed_attempt_refuted",
    "C99_exact"
   ],
   "note": "false after the owner died or after an attempt whose unlock failed; proved when no file is there, and, when nobody is at work, exactly when there is no file or an empty one"
  },
  {
   "property": "C100",
   "status": "proved",
   "theorems": [
    "C100_integers_in_range",
    "C100_always_in_range",
    "C100_out_of_range_refuted",
    "C100_around_the_number"
   ],
   "note": "out of range or malformed text silently gives another number"
  },
  {
   "property": "C101",
   "status": "proved",
   "theorems": [
    "C101_any_document_is_safe"
   ],
   "note": ""
  },
  {
   "property": "C102",
   "status": "proved",
   "theorems": [
    "C102_free_releases_everything",
    "C102_free_after_successful_adds"
   ],
   "note": "with every request granted, for all sequences within the limits of C64; with refused requests, as long as no addition failed"
  },
  {
   "property": "C103",
   "status": "partial",
   "theorems": [
    "C103_first_add_partial",
    "C103_failed_add_partial",
    "C103_unharmed_partial",
    "C103_failed_add_breaks_storage_refuted",
    "C103_failed_add_loses_a_key_refuted",
    "C103_failed_add_leaks_refuted",
    "C103_failed_add_crashes_refuted"
   ],
   "note": "false: a refused request can leave a null child array, lose a key, leak or crash. C103_failed_add_partial says what any failed addition leaves: nothing changed, or freeing dereferences null, or there was no key and at most one block is leaked. C103_unharmed_partial: after failures of the first kind, e.g. of the first child array of a key, everything works."
  },
  {
   "property": "C104",
   "status": "partial",
   "theorems": [
    "C104_base58_encode",
    "C104_base58_decode",
    "C104_base58_decode_alloc",
    "C104_base58_encode_alloc",
    "C104_base64_encode_alloc",
    "C104_base64_decode_alloc",
    "C104_base58_decode_unlimited_refuted",
    "C104_decode_alloc_scratch_refused_refuted",
    "C104_base58_encode_no_memory_refuted"
   ],
   "note": "proved for all inputs below 2.9 GB (base 58) and all requests except a refused scratch block in the encoder (null dereference, see C11); false for larger texts"
  },
  {
   "property": "C105",
   "status": "partial",
   "theorems": [
    "C105_files",
    "C105_file_is_loaded",
    "C105_texts_partial",
    "C105_terminated_texts",
    "C105_file_as_text",
    "C105_long_texts_refuted",
    "C105_negative_length_refuted",
    "C105_no_parser_refuted",
    "C105_texts_exact",
    "C105_lengths_refuted"
   ],
   "note": "files of any size; texts below 2 GB (the length of longer ones is cut to 32 bits). expat is a parameter, assumed to read documents the same in any pieces; a concrete one is given"
  },
  {
   "property": "C106",
   "status": "partial",
   "theorems": [
    "C106_every_history_partial",
    "C106_connect",
    "C106_disconnect_is_new",
    "C106_unconnected_use_throws",
    "C106_segments_stay_attached",
    "C106_disconnect_does_not_detach_refuted",
    "C106_second_connect_disconnects",
    "C106_stuck_forever",
    "C106_failed_connect_sticks_refuted",
    "C106_connect_calls",
    "C106_every_history",
    "C106_half_recovers"
   ],
   "note": "false in three ways, each with a witness: no segment is ever detached (shmdt gets the null pointer), a connect that fails after semget leaves an object that can never be connected and whose methods dereference null, a second connect ends the connection. Proved over all histories and all answers of the kernel: the possible states, and that the lock is off by at most one for each semop that failed (exact when semop works); connect, disconnect."
  },
  {
   "property": "C107",
   "status": "partial",
   "theorems": [
    "C107_every_history_partial",
    "C107_destructor_releases_partial",
    "C107_disconnect_is_new",
    "C107_second_connect",
    "C107_failed_connect_sticks_refuted",
    "C107_other_sizes_refuted",
    "C107_connect_calls",
    "C107_crash_exact"
   ],
   "note": "partial only in that a connect that finds a queue with other sizes crashes; C107_crash_exact: exactly those histories do, and all others keep the invariants; a failed connect cannot be repeated"
  },
  {
   "property": "C108",
   "status": "partial",
   "theorems": [
    "C108_every_schedule_ends",
    "C108_no_deadlock",
    "C108_calls_return",
    "C108_waiting_writer_gets_in_refuted"
   ],
   "note": "termination, absence of deadlock and completion proved for all schedules; false: overlapping readers keep a writer waiting for ever (an endless schedule is given)."
  },
  {
   "property": "C109",
   "status": "proved",
   "theorems": [
    "C109_every_schedule_ends",
    "C109_no_deadlock",
    "C109_calls_return"
   ],
   "note": "for all schedules; semtimedop is taken to give up when there is no box."
  },
  {
   "property": "C110",
   "status": "partial",
   "theorems": [
    "C110_gate",
    "C110_line",
    "C110_lines_sort_by_time",
    "C110_one_line",
    "C110_guarded_messages",
    "C110_clock_put_back_refuted",
    "C110_far_years_refuted",
    "C110_log_err_adds_a_blank_line_refuted",
    "C110_guarded_die_refuted",
    "C110_log_err_text",
    "C110_level_by_name"
   ],
   "note": "proved for all messages and times while the offset of the local clock does not change; false: order when clocks are put back and from the year 10000; log_err ends its line twice; log_die as the single statement of an if always exits"
  },
  {
   "property": "C111",
   "status": "partial",
   "theorems": [
    "C111_names",
    "C111_no_key_overwrites_refuted",
    "C111_no_key_reads_refuted"
   ],
   "note": "proved for every history in which the library gets its key; false otherwise: the failure is ignored and the slot of key 0, which belongs to somebody else, is used"
  },
  {
   "property": "C112",
   "status": "partial",
   "theorems": [
    "C112_what",
    "C112_errno_shown",
    "C112_strerror",
    "C112_errno_cut_refuted",
    "C112_unformatted_refuted",
    "C112_errno_exact"
   ],
   "note": "proved for every text that can be formatted; false: when vsnprintf fails what() is uninitialised; a long message cuts off the error"
  },
  {
   "property": "C113",
   "status": "partial",
   "theorems": [
    "C113_norestart",
    "C113_norestart_failure",
    "C113_restart",
    "C113_every_signal_is_handled",
    "C113_every_signal_is_handled_norestart",
    "C113_one_shot_refuted",
    "C113_return_values",
    "C113_interrupted_calls"
   ],
   "note": "false in one way: coda_signal_init_norestart keeps SA_RESETHAND of the previous action"
  },
  {
   "property": "C114",
   "status": "partial",
   "theorems": [
    "C114_out_of_the_lock",
    "C114_quiet",
    "C114_flags",
    "C114_signal_during_message_refuted",
    "C114_two_signals_refuted",
    "C114_in_the_lock",
    "C114_exact"
   ],
   "note": "false: the handler logs before it sets the flag and waits for ever for the lock of localtime_r if the interrupted code holds it; proved when the level is below notice, or when no signal arrives while the lock is taken"
  },
  {
   "property": "C115",
   "status": "partial",
   "theorems": [
    "C115_exact",
    "C115_strings",
    "C115_no_overestimate",
    "C115_nested_refuted",
    "C115_missing"
   ],
   "note": "exact for numbers, pointers and vectors of these, within 16 bytes for strings; false for vectors of strings or vectors"
  },
  {
   "property": "C116",
   "status": "partial",
   "theorems": [
    "C116_nearest",
    "C116_nearest_is_unique",
    "C116_every_text",
    "C116_integers_exact",
    "C116_words",
    "C116_loaded_lists",
    "C116_locale_refuted",
    "C116_no_number_refuted",
    "C116_longest_numeral",
    "C116_words_any_case",
    "C116_no_numeral",
    "C116_types"
   ],
   "note": "proved for every text, type and decimal point: the member is the value nearest to the longest numeral at the beginning, an infinity or not-a-number for those words, else 0; false that the result depends on the document only: strtod uses the decimal point of the locale, and a text without a number gives 0. The conversion functions of libc are modelled (round to nearest)"
  },
  {
   "property": "C117",
   "status": "proved",
   "theorems": [
    "C117_command_lines",
    "C117_one_reading",
    "C117_always_answers"
   ],
   "note": "getopt_long of glibc is modelled on indices into the array, with permutation and abbreviations"
  },
  {
   "property": "C118",
   "status": "partial",
   "theorems": [
    "C118_second_call",
    "C118_forgets",
    "C118_same_again_refuted"
   ],
   "note": "false: optind is not reset, so a second call reads the operands left by the first as a command line of their own (C118_second_call, exact); without -- it always gives the defaults"
  },
  {
   "property": "C119",
   "status": "partial",
   "theorems": [
    "C119_until_an_exception",
    "C119_locked_for_ever",
    "C119_usable_refuted",
    "C119_nothing_is_lost"
   ],
   "note": "False of the code: an exception in add, get or get_all (synque.hpp:33, 66, 99) leaves the mutex locked. C119_locked_for_ever: after it no call of any thread ever returns, in every schedule; C119_usable_refuted is a witness. What holds: nothing is lost (C119_nothing_is_lost: every element added has been taken, is in the caller's deque or is still in the queue), and until an exception every execution is one of C47-C49."
  },
  {
   "property": "C120",
   "status": "partial",
   "theorems": [
    "C120_exact",
    "C120_new_keys_partial",
    "C120_get",
    "C120_usable_refuted",
    "C120_phantom_refuted",
    "C120_limit_refuted"
   ],
   "note": "False of the code. C120_exact describes every history with exceptions: a failed update of a present key subtracts its size although the entry stays, and this debt is never repaid; a failed set of a new key leaves the key with a default value. Witnesses: a later set follows a null pointer (C120_usable_refuted), a value nobody stored is returned (C120_phantom_refuted), the limit is exceeded (C120_limit_refuted). C120_new_keys_partial: without exceptions in updates of present keys no call crashes and the accounted size is right."
  },
  {
   "property": "C121",
   "status": "proved",
   "theorems": [
    "C121_base64_in_place",
    "C121_web64_in_place",
    "C121_upwards_refuted"
   ],
   "note": "One memory; the text and the result may overlap as long as the result does not start above the text. C121_upwards_refuted shows that this condition is needed."
  },
  {
   "property": "C122",
   "status": "proved",
   "theorems": [
    "C122_urldec_in_place",
    "C122_urlenc_overlap",
    "C122_urlenc_in_place_refuted"
   ],
   "note": "One memory; C122_urldec_in_place also says exactly when the terminating NUL leaves the memory. C122_urlenc_in_place_refuted shows that the condition on the encoder is needed."
  },
  {
   "property": "C123",
   "status": "partial",
   "theorems": [
    "C123_absolute_partial",
    "C123_relative_partial",
    "C123_copies_partial",
    "C123_absolute_long",
    "C123_long_text_refuted",
    "C123_copy_refuted",
    "C123_errors",
    "C123_relative_any_parent_partial",
    "C123_relative_exact_partial"
   ],
   "note": "False of the code for lengths of 2^32 and more. The _partial theorems prove it for all lengths and sums below 2^32 (relative: for every parent); C123_absolute_long says what a longer text gives, the _refuted theorems give witnesses."
  },
  {
   "property": "C124",
   "status": "partial",
   "theorems": [
    "C124_absolute_refuted",
    "C124_relative_exact",
    "C124_copy_exact",
    "C124_assign_exact"
   ],
   "note": "False of the code: the result of malloc is not checked (url_parser.cpp:30, 57, 95, 110). The theorems say exactly which calls then return and which write through the null pointer."
  },
  {
   "property": "C125",
   "status": "proved",
   "theorems": [
    "C125_pointers",
    "C125_held_or_gone",
    "C125_same_as_get",
    "C125_set_by_reference"
   ],
   "note": "For every history before and after the look-up; C125_held_or_gone shows that the two cases of C125_pointers cover every history. The address of the node stands for the pointer; freed nodes are not reused in the model."
  },
  {
   "property": "C126",
   "status": "partial",
   "theorems": [
    "C126_copy_of_an_empty_cache",
    "C126_copy_look_up_partial",
    "C126_copy_refuted",
    "C126_original_refuted",
    "C126_assign_look_up_partial",
    "C126_assign_empty_partial",
    "C126_assign_refuted"
   ],
   "note": "False of the code: the copy made by the compiler keeps the list pointers of the original (cache.hpp:40-46). C126_copy_refuted holds for every cache with an entry: when the original is gone, storing a new key in the copy writes to freed memory. C126_original_refuted: also while the original lives. Proved for empty caches, and look-ups of unexpired entries."
  },
  {
   "property": "C127",
   "status": "partial",
   "theorems": [
    "C127_report",
    "C127_time_max_refuted"
   ],
   "note": "False of the line time_max (cache.tcc:193 prints time_cur - time_max); C127_report says what all other lines are, and what this one is. What operator<< prints for keys and pointers is a parameter."
  },
  {
   "property": "C128",
   "status": "proved",
   "theorems": [
    "C128_just_added",
    "C128_known_or_new",
    "C128_every_slot_is_reported"
   ],
   "note": "For all keys, also those of C63_keys_collide_refuted and C63_key_is_lost_refuted. Keys that with terminator and user data take exactly 4096 bytes are excluded (C64_exact_fit_refuted)."
  },
  {
   "property": "C129",
   "status": "partial",
   "theorems": [
    "C129_host_exact",
    "C129_agree",
    "C129_listen_partial",
    "C129_connect_partial",
    "C129_bad_host_refuted",
    "C129_octal_refuted",
    "C129_same_calls"
   ],
   "note": "Proved for dotted quads without leading zeros. False for other hosts: INADDR_NONE is not checked (socket.h:134, 189), so a host name gives 255.255.255.255 (C129_bad_host_refuted, for every such text). C129_host_exact says which texts inet_addr of glibc reads, and how; inet_addr is modelled."
  },
  {
   "property": "C130",
   "status": "partial",
   "theorems": [
    "C130_strings",
    "C130_same",
    "C130_leak_refuted",
    "C130_no_other_leak",
    "C130_stringset",
    "C130_uint64set",
    "C130_params",
    "C130_header",
    "C130_same_maps",
    "C130_phantom_refuted",
    "C130_same_sets"
   ],
   "note": "False in two ways, each with a witness: the buffer of strnappend and strnprintf is leaked for num >= 32768, and a map may be left with a key without its value. All else is proved for every point at which an allocation fails. std::string, std::set and std::map give their usual guarantees (a failed append, insert or assignment changes nothing)."
  },
  {
   "property": "C131",
   "status": "partial",
   "theorems": [
    "C131_advance_then_erase",
    "C131_insert_while_iterating",
    "C131_erase_then_advance_refuted",
    "C131_erase_then_advance_partial",
    "C131_erase_then_advance_apart"
   ],
   "note": "Proved for loops that move on before they erase and for loops that insert. False of loops that erase under the iterator, since erase clears the link the iterator needs (shm_hash_map.tcc:290, 307); C131_erase_then_advance_partial says exactly what those may skip, and that they are right if no two keys share a bucket (\u2026_apart). The loops are code of the user and modelled as such, without the lock."
  },
  {
   "property": "C132",
   "status": "proved",
   "theorems": [
    "C132_files",
    "C132_what_is_left",
    "C132_texts",
    "C132_load_again",
    "C132_all_or_nothing_refuted"
   ],
   "note": "Any set of places may throw: levels, names of members, new items, strings, the name of the file. Texts of less than 2 GB as in C105. The exception is taken to unwind expat without running its code. C132_all_or_nothing_refuted shows the limit stated in the property."
  },
  {
   "property": "C133",
   "status": "proved",
   "theorems": [
    "C133_destroy_after_last_element",
    "C133_waiting_get_refuted",
    "C133_empty_is_not_enough_refuted",
    "C133_exact"
   ],
   "note": "The two refutations show that both conditions are needed. A mutex may be destroyed as soon as it is unlocked (POSIX)."
  },
  {
   "property": "C134",
   "status": "proved",
   "theorems": [
    "C134_base64_encode_overlap",
    "C134_web64_encode_overlap",
    "C134_distance_refuted",
    "C134_in_place_refuted"
   ],
   "note": "One memory. The two refutations show that the distance is needed."
  },
  {
   "property": "C135",
   "status": "partial",
   "theorems": [
    "C135_query",
    "C135_header",
    "C135_stringset",
    "C135_stringset_refuted",
    "C135_uint64set",
    "C135_uint64set_refuted",
    "C135_split"
   ],
   "note": "Proved, except for the two sets of the refutations. The texts are put together by the user: Rt_Spec says how."
  },
  {
   "property": "C136",
   "status": "proved",
   "theorems": [
    "C136_map",
    "C136_map_conversely",
    "C136_map_is_linearizable",
    "C136_fence_needed",
    "C136_queue",
    "C136_queue_conversely",
    "C136_queue_is_fifo",
    "C136_queue_count",
    "C136_map_no_races",
    "C136_queue_no_races",
    "C136_synque_no_races"
   ],
   "note": "Store buffers from which stores to different addresses leave in any order (PSO; contains x86-TSO); semop waits until the buffer of the caller is empty. Loads are not reordered in this model; for processors and compilers that do, the theorems without races are what the usual guarantee for race-free programs needs."
  },
  {
   "property": "C137",
   "status": "partial",
   "theorems": [
    "C137_one_creator",
    "C137_old_set",
    "C137_exclusion_partial",
    "C137_two_creators_refuted",
    "C137_set_up_once",
    "C137_half_made_refuted",
    "C137_creator_dies_refuted",
    "C137_count",
    "C137_lost_box_refuted",
    "C137_reset_breaks",
    "C137_count_exact",
    "C137_header_stays"
   ],
   "note": "False for a set of semaphores that is made by the first connect, each way with a witness (\u2026_refuted). Proved when the set exists, for exclusion with one creator, and for the count when setting up disturbs nobody. The ring is counted, not stored; ShmQ_Model has its contents."
  },
  {
   "property": "C138",
   "status": "partial",
   "theorems": [
    "C138_timeout",
    "C138_timeout_refuted",
    "C138_count_exact",
    "C138_exit",
    "C138_flag_refuted",
    "C138_ticket_back",
    "C138_phantom_refuted"
   ],
   "note": "False as stated: C138_flag_refuted holds for every execution in which a process that took boxes with SEM_UNDO exits; C138_timeout_refuted for every negative timeout. Proved: all other timeouts, the count until somebody exits, and what exactly an exit does to it (C138_exit)."
  },
  {
   "property": "C139",
   "status": "partial",
   "theorems": [
    "C139_items_partial",
    "C139_exactly_once_partial",
    "C139_one_box_refuted",
    "C139_full_queue_refuted"
   ],
   "note": "proved for processes that either write or read; false of an object used both ways: it has one box for both, so unflush destroys items that were put and flush sends items that were received; items of a flush that finds the queue full are lost although put returned true"
  },
  {
   "property": "C140",
   "status": "partial",
   "theorems": [
    "C140_seeded_before_use",
    "C140_then_left_alone",
    "C140_once_partial",
    "C140_late_calls_do_not_seed",
    "C140_failed_call",
    "C140_once_refuted",
    "C140_short_read_refuted"
   ],
   "note": "seeded at most once is proved for calls that do not overlap and false of calls that do; a short read of the device seeds with bytes never written"
  },
  {
   "property": "C141",
   "status": "partial",
   "theorems": [
    "C141_nothing_is_lost",
    "C141_no_descriptor_left",
    "C141_after_rotation_partial",
    "C141_overlap_refuted",
    "C141_level_lost_refuted",
    "C141_torn_message_refuted"
   ],
   "note": "that nothing is lost is proved for all interleavings; that the log goes to the new file at the given level for calls that do not overlap with others, and refuted for those that do; a failing dup2 leaves a descriptor open"
  },
  {
   "property": "C142",
   "status": "partial",
   "theorems": [
    "C142_whole_path",
    "C142_text_restored",
    "C142_shared_text_refuted",
    "C142_empty_path_refuted"
   ],
   "note": "which names are made and opened is proved when calls that overlap have their own copies of the path, and false of shared ones; bounds and restoration of the text for all non-empty paths, shared or not"
  },
  {
   "property": "C143",
   "status": "partial",
   "theorems": [
    "C143_until_a_cancellation",
    "C143_locked_for_ever",
    "C143_cancel_refuted",
    "C143_nothing_is_lost",
    "C143_only_waiting",
    "C143_cancel_partial"
   ],
   "note": "False of the code: a thread cancelled in pthread_cond_wait (synque.hpp:57, 85) ends with the mutex locked. C143_locked_for_ever: after it no call of any thread takes effect or returns, in every schedule; C143_cancel_refuted is a witness. What holds: no element is lost, only threads that called get with leave to wait are ended inside the queue, and when no such thread is cancelled every execution is one of C47-C49."
  },
  {
   "property": "C144",
   "status": "partial",
   "theorems": [
    "C144_same_key",
    "C144_separate",
    "C144_separate_refuted"
   ],
   "note": "ftok(3) keeps 16 bits of the inode number and 8 of the device number. C144_same_key says exactly which files share a key; C144_separate: what the users of one key see is an execution of their own, as if the users of all other keys did nothing. Different files with one key exist on every large file system: C144_separate_refuted shows two maps with different files where one has to wait for the other."
  },
  {
   "property": "C145",
   "status": "partial",
   "theorems": [
    "C145_one_kind_partial",
    "C145_map_waits_refuted",
    "C145_queue_waits_refuted",
    "C145_phantom_box_refuted",
    "C145_isolation_refuted"
   ],
   "note": "False of the code: both classes use the same key and the same number of semaphores with different meanings. Refuted in every clause (either connect waits for ever though nobody uses the other object; a box is received that was never stored; a writer of the map gets in while another reads). C145_one_kind_partial: when no map shares its key with a queue the clauses about writers and boxes hold for every key, whatever happens under other keys."
  },
  {
   "property": "C146",
   "status": "proved",
   "theorems": [
    "C146_copies_stay_valid",
    "C146_copy_survives"
   ],
   "note": "all programs over any number of map objects, with the compiler's copy constructor and assignment. It holds because disconnect and the destructor never detach a segment (C106_segments_stay_attached)"
  },
  {
   "property": "C147",
   "status": "partial",
   "theorems": [
    "C147_careful_partial",
    "C147_careful_releases_partial",
    "C147_copy_freed_twice",
    "C147_copy_without_segment",
    "C147_copies_refuted",
    "C147_assign_loses_refuted"
   ],
   "note": "False of the code for connected queues: C147_copy_freed_twice and C147_copy_without_segment say that every copy of a connected queue ends in a double free, or in a use of a detached segment, when both are destroyed, or the original disconnected, whatever happened before. Proved for all programs that copy and assign only queues that are not connected (and, for the release of everything, assign only to such queues)"
  },
  {
   "property": "C148",
   "status": "partial",
   "theorems": [
    "C148_any_value_type",
    "C148_header_decides",
    "C148_words",
    "C148_large_alignment_refuted"
   ],
   "note": "proved for alignments up to 1024; false for larger ones (C148_large_alignment_refuted). C148_header_decides: equal headers mean equal layout, for all alignments"
  },
  {
   "property": "C149",
   "status": "partial",
   "theorems": [
    "C149_each_thread",
    "C149_order",
    "C149_nothing_lost",
    "C149_all_arrives",
    "C149_all_arrives_in_order",
    "C149_order_refuted"
   ],
   "note": "Everything but the last sentence is proved for chains of any length. The last sentence is false: between get and add two threads of one stage can overtake each other (C149_order_refuted)"
  },
  {
   "property": "C150",
   "status": "proved",
   "theorems": [
    "C150_publication",
    "C150_effects_ordered",
    "C150_not_all_ordered"
   ],
   "note": "C150_not_all_ordered: happens-before is weaker than the order of the history, so the theorem is not empty"
  },
  {
   "property": "C151",
   "status": "partial",
   "theorems": [
    "C151_stop_elements",
    "C151_flag_partial",
    "C151_flag_ends_partial",
    "C151_flag_refuted",
    "C151_batches_refuted"
   ],
   "note": "Stop elements: proved for threads that take one element at a time. False for batches (one thread may take two stop elements) and for the flag: a thread that read the flag before it was set and calls get after signal() sleeps for ever (C151_flag_refuted). C151_flag_ends_partial: when no thread is between reading the flag and sleeping while it is set, as many signals as sleepers end all"
  },
  {
   "property": "C152",
   "status": "proved",
   "theorems": [
    "C152_acts_after_every_signal",
    "C152_acts_only_for_signals",
    "C152_ends",
    "C152_goes_on",
    "C152_act_first_loses_signals",
    "C152_one_sleep_may_come_first"
   ],
   "note": "The loop is the user program (SigLoop_Model says which); the handler of the library is atomic in it: the moment counts at which it stores the flag. C152_act_first_loses_signals: the other order of clearing and acting misses signals; C152_one_sleep_may_come_first: the second sleep cannot be made the first."
  },
  {
   "property": "C153",
   "status": "proved",
   "theorems": [
    "C153_stream",
    "C153_messages",
    "C153_goes_on",
    "C153_huge_transfers"
   ],
   "note": "The kernel keeps the bytes of a connection in order and transfers at most 2^31-1 bytes per call (Linux: 0x7ffff000); C153_huge_transfers shows that the bound is needed. The loops around the two functions are the user program."
  },
  {
   "property": "C154",
   "status": "partial",
   "theorems": [
    "C154_command_exits",
    "C154_failure_partial",
    "C154_foreground_partial",
    "C154_too_early_refuted",
    "C154_unnoticed_refuted",
    "C154_server_partial"
   ],
   "note": "False of the code: the parent exits with EXIT_SUCCESS right after fork (daemon.c:70), before the daemon made any call. C154_command_exits says so for every execution; the two _refuted theorems give, for all options with detaching, executions in which the pid file is not there yet or the start fails unnoticed. Proved: a failure the command does report (handlers, fork) leaves no daemon and no pid file, and without detaching there is one process only."
  }
 ]
}