{
 "claims": [
  {
   "property": "C01",
   "status": "proved",
   "theorems": [
    "C01_hex_print",
    "C01_hex_round_trip",
    "C01_print_hash"
   ],
   "note": "hex_print: text of every byte string; round_trip through pgfe_hex_string_to_hash; print_hash: the bytes written to stdout."
  },
  {
   "property": "C02",
   "status": "proved",
   "theorems": [
    "C02_hex_value",
    "C02_hex_bound",
    "C02_from_hex_string"
   ],
   "note": "hex_value: value of every non-empty well-formed text; hex_bound: bytes stay in the buffer; from_hex_string: the C++ wrapper."
  },
  {
   "property": "C03",
   "status": "proved",
   "theorems": [
    "C03_clean",
    "C03_clean_in_place",
    "C03_clean_idempotent"
   ],
   "note": "clean: what remains; in place as well; idempotent."
  },
  {
   "property": "C04",
   "status": "proved",
   "theorems": [
    "C04_hash_length",
    "C04_hash_length_separators_refuted"
   ],
   "note": "hash_length for texts without separators; refuted for texts with separators (the length function does not clean)."
  },
  {
   "property": "C05",
   "status": "proved",
   "theorems": [
    "C05_hex_reads_inside",
    "C05_hex_empty_refuted",
    "C05_from_hex_string_empty_refuted"
   ],
   "note": "reads stay inside for non-empty texts; the empty text reads before the string (refuted theorems)."
  },
  {
   "property": "C06",
   "status": "proved",
   "theorems": [
    "C06_encode_text",
    "C06_rfc4648_iff",
    "C06_zero_byte_refuted"
   ],
   "note": "encode_text gives the text for every input; rfc4648_iff says exactly when it is RFC 4648's; zero_byte_refuted: trailing zero bytes of a partial unit become padding (violation)."
  },
  {
   "property": "C07",
   "status": "proved",
   "theorems": [
    "C07_encode_shape"
   ],
   "note": ""
  },
  {
   "property": "C08",
   "status": "proved",
   "theorems": [
    "C08_decode_encode",
    "C08_round_trip",
    "C08_zero_refuted"
   ],
   "note": "decode_encode for every input; round_trip exactly when nothing is lost; zero_refuted: bytes from a zero byte of the last unit on are lost (violation)."
  },
  {
   "property": "C09",
   "status": "proved",
   "theorems": [
    "C09_junk_ignored",
    "C09_all_junk_ignored",
    "C09_trailing_junk_refuted"
   ],
   "note": "junk between characters is ignored; trailing junk starts a spurious unit (violation)."
  },
  {
   "property": "C10",
   "status": "proved",
   "theorems": [
    "C10_case_and_url"
   ],
   "note": ""
  },
  {
   "property": "C11",
   "status": "proved",
   "theorems": [
    "C11_encode_overflow_refuted",
    "C11_exactly_two_bytes",
    "C11_stack_independent"
   ],
   "note": "violation: the scratch string is overrun by exactly two bytes for partial units; the text does not depend on the stack contents."
  },
  {
   "property": "C12",
   "status": "proved",
   "theorems": [
    "C12_decode_footprint",
    "C12_decode_empty_refuted",
    "C12_exact_buffer_refuted"
   ],
   "note": "footprint with unit_space bytes; violations for empty text and for buffers of exactly the decoded size."
  },
  {
   "property": "C13",
   "status": "proved",
   "theorems": [
    "C13_caches_never_overflow",
    "C13_cache_big_enough",
    "C13_empty_text_refuted"
   ],
   "note": "for all work, schedules and allocation failures no undefined behaviour; cache_big_enough on the binary64 size computation (Flocq); decode(\"\") refuted."
  },
  {
   "property": "C14",
   "status": "proved",
   "theorems": [
    "C14_thread_safe",
    "C14_no_deadlock",
    "C14_bounded_work",
    "C14_all_results"
   ],
   "note": "interleaving semantics with mutexes; results, mutual exclusion, absence of deadlock, bounded work."
  },
  {
   "property": "C15",
   "status": "proved",
   "theorems": [
    "C15_released_without_exceptions",
    "C15_exception_leaks_lock",
    "C15_leaked_lock_blocks_forever"
   ],
   "note": "violation: an exception leaves the mutex locked and all later calls on that side block for ever; released otherwise."
  },
  {
   "property": "C16",
   "status": "proved",
   "theorems": [
    "C16_history_results",
    "C16_value_unique",
    "C16_history_independent",
    "C16_decode_cut_at_nul",
    "C16_encode_text"
   ],
   "note": ""
  },
  {
   "property": "C17",
   "status": "proved",
   "theorems": [
    "C17_md5_rfc1321"
   ],
   "note": "all non-empty pieces; empty pieces are C18."
  },
  {
   "property": "C18",
   "status": "proved",
   "theorems": [
    "C18_empty_update_undefined",
    "C18_empty_update_zero",
    "C18_empty_update_nonzero",
    "C18_streams_nonzero",
    "C18_empty_message_undefined",
    "C18_file_undefined",
    "C18_empty_message_violation"
   ],
   "note": "violation: an empty update reads an uninitialised local; what happens for undefined, zero and non-zero contents."
  },
  {
   "property": "C19",
   "status": "proved",
   "theorems": [
    "C19_sha1_exact",
    "C19_sha1_fips",
    "C19_sha1_violation"
   ],
   "note": "_exact: the function computed on every message (second padding block reuses message bytes); _fips: equals FIPS 180-4 exactly where the padding leaves room; _violation: a message where it differs."
  },
  {
   "property": "C20",
   "status": "proved",
   "theorems": [
    "C20_sha224_exact",
    "C20_sha256_exact",
    "C20_sha224_fips",
    "C20_sha256_fips",
    "C20_sha224_violation",
    "C20_sha256_violation"
   ],
   "note": "as C19 for SHA-224/256."
  },
  {
   "property": "C21",
   "status": "proved",
   "theorems": [
    "C21_sha384_exact",
    "C21_sha512_exact",
    "C21_sha512_224_exact",
    "C21_sha512_256_exact",
    "C21_sha384_fips",
    "C21_sha512_fips",
    "C21_sha512_224_fips",
    "C21_sha512_256_fips",
    "C21_sha384_violation",
    "C21_sha512_violation",
    "C21_sha512_224_violation",
    "C21_sha512_256_violation"
   ],
   "note": "as C19 for SHA-384/512/512-224/512-256."
  },
  {
   "property": "C22",
   "status": "proved",
   "theorems": [
    "C22_table_sound",
    "C22_table_std_sound",
    "C22_streaming_invariance"
   ],
   "note": "the table hash_fn lists all 16 functions with the function computed (hash_std: the standard's)."
  },
  {
   "property": "C23",
   "status": "proved",
   "theorems": [
    "C23_init_forgets",
    "C23_reuse"
   ],
   "note": ""
  },
  {
   "property": "C24",
   "status": "proved",
   "theorems": [
    "C24_in_bounds",
    "C24_int_overflow",
    "C24_counter_wrap"
   ],
   "note": "in_bounds for pieces below 2^31 bytes; int_overflow beyond; counter_wrap for total lengths."
  },
  {
   "property": "C25",
   "status": "proved",
   "theorems": [
    "C25_sha3_fips202",
    "C25_whenever_updates_return"
   ],
   "note": ""
  },
  {
   "property": "C26",
   "status": "proved",
   "theorems": [
    "C26_xof_fips202",
    "C26_squeeze_sequences",
    "C26_split_squeeze",
    "C26_prefix"
   ],
   "note": ""
  },
  {
   "property": "C27",
   "status": "proved",
   "theorems": [
    "C27_safe",
    "C27_overflow",
    "C27_never_returns",
    "C27_classification",
    "C27_never_returns_any_fuel"
   ],
   "note": "all lengths below 2^61 bytes are classified: safe, out of bounds, never returns (for any fuel)."
  },
  {
   "property": "C28",
   "status": "proved",
   "theorems": [
    "C28_no_absorb_after_digest"
   ],
   "note": ""
  },
  {
   "property": "C29",
   "status": "proved",
   "theorems": [
    "C29_file_is_message",
    "C29_empty_updates_allowed",
    "C29_file_standard"
   ],
   "note": ""
  },
  {
   "property": "C30",
   "status": "proved",
   "theorems": [
    "C30_multiple_is_concatenation",
    "C30_multiple_equals_encode",
    "C30_all_null"
   ],
   "note": ""
  },
  {
   "property": "C31",
   "status": "proved",
   "theorems": [
    "C31_second_digest",
    "C31_not_idempotent",
    "C31_reinit_restores"
   ],
   "note": "violation of idempotence for every function of the table with a message; second_digest says what the second call returns for every message."
  },
  {
   "property": "C32",
   "status": "proved",
   "theorems": [
    "C32_sha256_K",
    "C32_sha512_K",
    "C32_initial_values",
    "C32_sha512t",
    "C32_sha1_k",
    "C32_counting_values",
    "C32_keccak_rc",
    "C32_keccak_offsets",
    "C32_md5_sines",
    "C32_md5_order",
    "C32_blowfish_P"
   ],
   "note": "md5_sines is about the real sine function, blowfish_P about the real number pi (standard axioms of the reals). The Blowfish S-boxes are compared with the 1042 words of SBlowfish.v (computed outside Coq) by C47."
  },
  {
   "property": "C33",
   "status": "proved",
   "theorems": [
    "C33_footprint",
    "C33_short_buffer",
    "C33_documented_sizes"
   ],
   "note": ""
  },
  {
   "property": "C34",
   "status": "proved",
   "theorems": [
    "C34_hmac_of_library_hash",
    "C34_hmac_rfc2104",
    "C34_tables_complete",
    "C34_md5_empty_piece",
    "C34_violation_sha256"
   ],
   "note": "for all twelve algorithms relative to the library's hash; RFC 2104 where the inner hash is standard; violation_sha256: a key and message whose tag is not RFC 2104's."
  },
  {
   "property": "C35",
   "status": "proved",
   "theorems": [
    "C35_only_first_block_matters",
    "C35_truncated_hmac",
    "C35_violation"
   ],
   "note": "violation: keys longer than a block are cut instead of hashed."
  },
  {
   "property": "C36",
   "status": "proved",
   "theorems": [
    "C36_set_key_restarts",
    "C36_init_is_empty_key"
   ],
   "note": ""
  },
  {
   "property": "C37",
   "status": "proved",
   "theorems": [
    "C37_dispatch",
    "C37_dispatch_library",
    "C37_xof_untouched"
   ],
   "note": ""
  },
  {
   "property": "C38",
   "status": "proved",
   "theorems": [
    "C38_digest",
    "C38_digest_library",
    "C38_sizes",
    "C38_reset_ignored",
    "C38_xof_null",
    "C38_sizes_violation",
    "C38_reset_violation"
   ],
   "note": "violations: reset() keeps the data; the reported sizes are uninitialised when the object's memory happened to hold the algorithm's code; null pointer for XOFs."
  },
  {
   "property": "C39",
   "status": "proved",
   "theorems": [
    "C39_hotp_rfc4226",
    "C39_hotp_sha1",
    "C39_long_secret_cut"
   ],
   "note": "RFC 4226 for secrets of at most a block; longer ones are cut (long_secret_cut)."
  },
  {
   "property": "C40",
   "status": "proved",
   "theorems": [
    "C40_hotp_md5"
   ],
   "note": ""
  },
  {
   "property": "C41",
   "status": "proved",
   "theorems": [
    "C41_otp_range",
    "C41_truncation_total"
   ],
   "note": ""
  },
  {
   "property": "C42",
   "status": "proved",
   "theorems": [
    "C42_xof_ignores_secret",
    "C42_xof_any_value"
   ],
   "note": "violation: with a XOF the code does not depend on the secret, and any value can come out of uninitialised memory."
  },
  {
   "property": "C43",
   "status": "proved",
   "theorems": [
    "C43_generate_str",
    "C43_generated_text",
    "C43_otp_to_string",
    "C43_same_text",
    "C43_zero_digits_refuted"
   ],
   "note": "all digit counts but 0, where the C helper writes no digit and generate_str one (zero_digits_refuted)."
  },
  {
   "property": "C44",
   "status": "proved",
   "theorems": [
    "C44_counter_and_delta",
    "C44_counter_all_intervals",
    "C44_interval_zero_refuted",
    "C44_large_interval_refuted",
    "C44_before_start_refuted",
    "C44_totp_rfc6238",
    "C44_totp_sha1"
   ],
   "note": "violations: interval 0 (division), intervals of 2^31 and more, times before the start."
  },
  {
   "property": "C45",
   "status": "proved",
   "theorems": [
    "C45_setup_is_fresh",
    "C45_current_step",
    "C45_counter_used",
    "C45_updated_reachable",
    "C45_settings_ignored_refuted",
    "C45_clock_back_refuted",
    "C45_set_counter_refuted",
    "C45_uninitialised_counter_refuted",
    "C45_interval_zero_refuted",
    "C45_generate_str"
   ],
   "note": "violations: settings ignored until the stored step ends, clock set back, set_counter overrides the time, uninitialised counter, interval 0."
  },
  {
   "property": "C46",
   "status": "proved",
   "theorems": [
    "C46_secret_unique",
    "C46_counter_unique",
    "C46_hotp_history",
    "C46_argument_order_refuted",
    "C46_base32_secret_shortened"
   ],
   "note": "argument_order_refuted: the result of set_secret(SequentialData&) depends on an unspecified evaluation order; base32 secrets with a zero tail are shortened."
  },
  {
   "property": "C47",
   "status": "proved",
   "theorems": [
    "C47_decrypt_inverts_encrypt",
    "C47_encrypt_inverts_decrypt",
    "C47_units_are_blowfish"
   ],
   "note": ""
  },
  {
   "property": "C48",
   "status": "proved",
   "theorems": [
    "C48_encrypt_extent",
    "C48_decrypt_extent",
    "C48_rounding",
    "C48_round_trip"
   ],
   "note": ""
  },
  {
   "property": "C49",
   "status": "proved",
   "theorems": [
    "C49_schedule",
    "C49_same_first_72",
    "C49_long_keys",
    "C49_repeated_keys",
    "C49_empty_key_violation"
   ],
   "note": "violation: an empty key reads out of bounds; long keys beyond 72 bytes are ignored."
  },
  {
   "property": "C50",
   "status": "proved",
   "theorems": [
    "C50_encrypt",
    "C50_decrypt",
    "C50_overflow_violation",
    "C50_round_trip"
   ],
   "note": "violation: the heap buffer is overrun when length mod 8 is 1, 2 or 3."
  },
  {
   "property": "C51",
   "status": "proved",
   "theorems": [
    "C51_string_key",
    "C51_string_key_cut",
    "C51_c_string_key",
    "C51_string_key_violation"
   ],
   "note": "violation: std::string keys are cut at the first NUL."
  },
  {
   "property": "C52",
   "status": "proved",
   "theorems": [
    "C52_encrypt_blocks",
    "C52_decrypt_blocks",
    "C52_one_block"
   ],
   "note": ""
  },
  {
   "property": "C53",
   "status": "proved",
   "theorems": [
    "C53_get_digest",
    "C53_clean",
    "C53_dirty_violation"
   ],
   "note": "get_digest classifies all bit lengths; overruns of the stack array and uninitialised bytes in the result are the violations."
  },
  {
   "property": "C54",
   "status": "proved",
   "theorems": [
    "C54_ownership",
    "C54_no_leak",
    "C54_alive",
    "C54_broken_violation",
    "C54_violation",
    "C54_constructor_fails"
   ],
   "note": "violation: after a reset whose allocation failed every use, even the destructor, is a double free; otherwise ownership is right and nothing leaks."
  },
  {
   "property": "C55",
   "status": "proved",
   "theorems": [
    "C55_digest",
    "C55_lib_digest",
    "C55_total",
    "C55_whole_program"
   ],
   "note": "whole_program: every digest of every program of supported calls on any number of objects."
  },
  {
   "property": "C56",
   "status": "proved",
   "theorems": [
    "C56_hex_str",
    "C56_to_str",
    "C56_constructors",
    "C56_hex_round_trip",
    "C56_from_hex",
    "C56_hex_round_trip_empty_violation",
    "C56_trim_is_identity",
    "C56_trim_violation"
   ],
   "note": "violations: trim never trims; \"\" is out of bounds."
  },
  {
   "property": "C57",
   "status": "proved",
   "theorems": [
    "C57_names",
    "C57_unknown_names",
    "C57_names_distinct",
    "C57_c_strings",
    "C57_sizes",
    "C57_sizes_used",
    "C57_rates"
   ],
   "note": ""
  },
  {
   "property": "C58",
   "status": "proved",
   "theorems": [
    "C58_encode",
    "C58_encode_standard",
    "C58_encode_default",
    "C58_unterminated"
   ],
   "note": ""
  },
  {
   "property": "C59",
   "status": "proved",
   "theorems": [
    "C59_left_to_right",
    "C59_right_to_left_violation",
    "C59_wrong_digest_violation"
   ],
   "note": "both evaluation orders are modelled; violations for right-to-left."
  },
  {
   "property": "C60",
   "status": "proved",
   "theorems": [
    "C60_encrypt_in_place",
    "C60_decrypt_in_place",
    "C60_in_place_round_trip"
   ],
   "note": ""
  },
  {
   "property": "C61",
   "status": "proved",
   "theorems": [
    "C61_text_determines_data",
    "C61_injective",
    "C61_collision_refuted"
   ],
   "note": "collision_refuted: two inputs with the same text (violation)."
  },
  {
   "property": "C62",
   "status": "proved",
   "theorems": [
    "C62_padding_optional"
   ],
   "note": ""
  },
  {
   "property": "C63",
   "status": "proved",
   "theorems": [
    "C63_any_text"
   ],
   "note": ""
  },
  {
   "property": "C64",
   "status": "proved",
   "theorems": [
    "C64_separators_even",
    "C64_separators_odd_refuted",
    "C64_separators_ignored",
    "C64_separators_refuted"
   ],
   "note": "separators_odd_refuted: the last digit is lost (violation)."
  },
  {
   "property": "C65",
   "status": "proved",
   "theorems": [
    "C65_same_context",
    "C65_same_tag",
    "C65_trailing_zeros",
    "C65_rfc_same_tag"
   ],
   "note": ""
  },
  {
   "property": "C66",
   "status": "proved",
   "theorems": [
    "C66_second_digest",
    "C66_not_idempotent_refuted",
    "C66_sha3_ignores_later_data_refuted",
    "C66_data_after_digest_refuted",
    "C66_string_keys"
   ],
   "note": "violations: second digest differs, SHA-3 ignores later data."
  },
  {
   "property": "C67",
   "status": "proved",
   "theorems": [
    "C67_collisions"
   ],
   "note": "reduction proof (Merkle-Damgard); no cryptographic assumption."
  },
  {
   "property": "C68",
   "status": "proved",
   "theorems": [
    "C68_encode_chunks",
    "C68_decode_chunks",
    "C68_decode_chunks_refuted"
   ],
   "note": "decode_chunks_refuted: violation."
  },
  {
   "property": "C69",
   "status": "proved",
   "theorems": [
    "C69_sort_order",
    "C69_sort_order_refuted"
   ],
   "note": "sort_order_refuted: violation for partial units."
  },
  {
   "property": "C70",
   "status": "proved",
   "theorems": [
    "C70_stream_digest",
    "C70_file",
    "C70_error_hidden",
    "C70_error_digest",
    "C70_error_refuted"
   ],
   "note": "error_hidden and error_refuted: read errors are silent (violation)."
  },
  {
   "property": "C71",
   "status": "proved",
   "theorems": [
    "C71_sha1_wiped",
    "C71_sha1_only_digest",
    "C71_sha2_keeps_data",
    "C71_sha2_wipe_refuted",
    "C71_md5_keeps_data",
    "C71_hmac_keeps_key"
   ],
   "note": "sha2_wipe_refuted: violation; MD5 and HMAC keep data and key."
  },
  {
   "property": "C72",
   "status": "proved",
   "theorems": [
    "C72_null_ignored",
    "C72_null_removed",
    "C72_null_context",
    "C72_encode_null_data",
    "C72_encode_null_output",
    "C72_keccak_update_refuted",
    "C72_keccak_update_zero",
    "C72_keccak_digest_refuted"
   ],
   "note": "keccak_*_refuted: no null checks in SHA-3/SHAKE (violation). C72_null_removed: in any history, digests in between included, calls with a null pointer do nothing."
  },
  {
   "property": "C73",
   "status": "proved",
   "theorems": [
    "C73_same_objects",
    "C73_direct_results",
    "C73_digest_null_refuted",
    "C73_totp_is_hotp",
    "C73_totp_stale_refuted"
   ],
   "note": "digest_null_refuted and totp_stale_refuted: missing overrides (violations)."
  },
  {
   "property": "C74",
   "status": "proved",
   "theorems": [
    "C74_countdown",
    "C74_within_step",
    "C74_every_generate",
    "C74_over_refuted",
    "C74_fresh_refuted",
    "C74_settings_refuted"
   ],
   "note": "over_refuted, fresh_refuted, settings_refuted: violations."
  },
  {
   "property": "C75",
   "status": "proved",
   "theorems": [
    "C75_valid",
    "C75_dangling",
    "C75_calls",
    "C75_whole_program",
    "C75_no_leak"
   ],
   "note": "valid: until the next get_digest or the destructor; dangling: afterwards; calls, whole_program: freeing digests adds no failure; no_leak."
  },
  {
   "property": "C76",
   "status": "proved",
   "theorems": [
    "C76_hash_collision",
    "C76_encoder_collision",
    "C76_compression_collision",
    "C76_distinct_tags"
   ],
   "note": "hash_collision and encoder_collision for all twelve functions; compression_collision traces it; distinct_tags is the contrapositive, with an example whose hypotheses are checked."
  },
  {
   "property": "C77",
   "status": "proved",
   "theorems": [
    "C77_failed_calls_change_nothing",
    "C77_base32_hangs_refuted",
    "C77_otherwise_returns"
   ],
   "note": "failed_calls_change_nothing and otherwise_returns for all histories; base32_hangs_refuted is the violation. Arguments evaluated from left to right (C46 has the other order)."
  },
  {
   "property": "C78",
   "status": "proved",
   "theorems": [
    "C78_other_digests_right",
    "C78_supported_calls_return",
    "C78_older_digest_survives",
    "C78_retry_refuted",
    "C78_retry_differs",
    "C78_hmac_results",
    "C78_hmac_xof",
    "C78_hmac_retry_refuted"
   ],
   "note": "other_digests_right, supported_calls_return, older_digest_survives for all programs; retry_refuted (with retry_differs) and hmac_retry_refuted are the violations; hmac_results compares with the run without exceptions."
  },
  {
   "property": "C79",
   "status": "proved",
   "theorems": [
    "C79_extension",
    "C79_glue",
    "C79_keyed_prefix"
   ],
   "note": "extension for all messages as padded by the library; glue says when the padding depends on the length only; keyed_prefix is the consequence for secret prefixes."
  },
  {
   "property": "C80",
   "status": "proved",
   "theorems": [
    "C80_permutation",
    "C80_same_state",
    "C80_short_message_stays_refuted",
    "C80_collisions"
   ],
   "note": "permutation: injectivity of the code's permutation; same_state, collisions for all messages; short_message_stays_refuted: the state left in the context determines every message shorter than a block (residue, cf. C71)."
  },
  {
   "property": "C81",
   "status": "proved",
   "theorems": [
    "C81_data_meant",
    "C81_int_size_refuted",
    "C81_missing_refuted",
    "C81_mixed_refuted",
    "C81_hmac_zero",
    "C81_hmac_refuted"
   ],
   "note": "data_meant, hmac_zero: correct with clean slots (so C30, C34-C38 apply); int_size_refuted, missing_refuted, mixed_refuted, hmac_refuted: undefined behaviour otherwise. x86-64 argument slots; a size beyond the data is undefined at once."
  },
  {
   "property": "C82",
   "status": "proved",
   "theorems": [
    "C82_values",
    "C82_within_a_step",
    "C82_one_at_a_time",
    "C82_stale_refuted",
    "C82_uninitialised_refuted",
    "C82_late_writer_refuted",
    "C82_set_secret_refuted"
   ],
   "note": "values, within_a_step: any schedule; one_at_a_time: refinement to C45; stale_refuted, uninitialised_refuted, late_writer_refuted, set_secret_refuted: violations. Member accesses are taken as indivisible and in schedule order (a data race is undefined in C++ altogether)."
  },
  {
   "property": "C83",
   "status": "proved",
   "theorems": [
    "C83_decode",
    "C83_decode_in_place",
    "C83_from_hex",
    "C83_clean",
    "C83_to_hex",
    "C83_to_hex_in_place_refuted",
    "C83_shifted_output_refuted",
    "C83_encode",
    "C83_encode_in_place_refuted",
    "C83_blowfish",
    "C83_blowfish_shifted_refuted"
   ],
   "note": "equalities of outcomes, so missing room is covered. decode_in_place restates it in the terms of C63. C83_encode, C83_blowfish: base encoding and Blowfish; C83_encode_in_place_refuted and C83_blowfish_shifted_refuted give the exact wrong output for all inputs."
  },
  {
   "property": "C84",
   "status": "proved",
   "theorems": [
    "C84_sha512_big_endian",
    "C84_sha512_big_endian_refuted",
    "C84_little_endian",
    "C84_hotp_big_endian",
    "C84_hotp_sha1_big_endian",
    "C84_hotp_big_endian_refuted",
    "C84_hotp_palindrome",
    "C84_sha3_big_endian_refuted",
    "C84_blowfish_init",
    "C84_blowfish_round_trip",
    "C84_blowfish_big_endian_refuted",
    "C84_sha3_big_endian",
    "C84_xof_big_endian"
   ],
   "note": "The algorithms of HOTP whose own code depends on the byte order are left out of hotp_big_endian (shifts_only)."
  },
  {
   "property": "C85",
   "status": "proved",
   "theorems": [
    "C85_any_bits",
    "C85_one_call",
    "C85_last_bits_refuted",
    "C85_modulo_2_32",
    "C85_huge_request_refuted",
    "C85_byte_lost_refuted",
    "C85_block_end_refuted"
   ],
   "note": "Exact for all sequences of calls; violations: partial last byte never written, requests modulo 2^32, a byte skipped or lost after lengths that are not multiples of 8. C26 is the case of whole bytes below 2^32 bits."
  },
  {
   "property": "C86",
   "status": "proved",
   "theorems": [
    "C86_equal_blocks_show",
    "C86_same_ciphertext",
    "C86_every_ciphertext_accepted",
    "C86_damage_is_local"
   ],
   "note": "No deviation from what ECB mode gives; the consequences are stated exactly. C50 carries them over to the C++ object where it does not overflow."
  },
  {
   "property": "C87",
   "status": "proved",
   "theorems": [
    "C87_separate_objects",
    "C87_own_object",
    "C87_one_call_at_a_time",
    "C87_mixed",
    "C87_every_mixture_happens_refuted",
    "C87_overflow_refuted",
    "C87_wrong_digest_refuted",
    "C87_md5_separate_objects",
    "C87_keccak_separate_objects",
    "C87_md5_one_call_at_a_time",
    "C87_keccak_one_call_at_a_time",
    "C87_md5_in_bounds",
    "C87_md5_lost_data_refuted",
    "C87_md5_digest_refuted",
    "C87_keccak_lost_data_refuted",
    "C87_keccak_out_of_bounds_refuted",
    "C87_sha3_digest_refuted"
   ],
   "note": "Separate objects and one call at a time: proved. Unlocked sharing is refuted (theorems named _refuted: every mixture happens, wrong digest, write behind the block; for MD5 and SHA-3 lost data, old memory in the digest, reads out of bounds). Simplification in favour of the program: statements are atomic; to the C++ standard any such sharing is a data race."
  },
  {
   "property": "C88",
   "status": "proved",
   "theorems": [
    "C88_threads",
    "C88_shared_readers",
    "C88_reinit_violation"
   ],
   "note": "C88_reinit_violation is the refutation of the second wish; its hypothesis (one of the last two P words of the finished context differs from the mixed one) is met by the zero key (C88_reinit_case). The order of the four loads within F, unordered in C, is taken left to right. Memory is sequentially consistent: a racy program is undefined in C, so the violation holds a fortiori."
  },
  {
   "property": "C89",
   "status": "proved",
   "theorems": [
    "C89_states_apart",
    "C89_short_messages_apart",
    "C89_outputs_apart"
   ],
   "note": "The two state theorems assume outputs shorter than a block (longer ones permute the state further); C89_outputs_apart does not."
  },
  {
   "property": "C90",
   "status": "proved",
   "theorems": [
    "C90_separate_objects",
    "C90_nothing_lost",
    "C90_hash_history",
    "C90_hmac_history",
    "C90_deleted_twice_refuted",
    "C90_read_after_delete_refuted",
    "C90_digest_mixed_up_refuted",
    "C90_locked_sections"
   ],
   "note": "Every other call (update, reset, the digest function itself) is taken as indivisible, in favour of the program (C87 has update in steps). hmac_kind has objects of one algorithm. C90_hash_history and C90_hmac_history link indivisible calls on the objects to the histories of C55 and of C38, C66, and say which digests the threads read. A read of a deleted digest and a second deletion are both the outcome UB DoubleFree."
  },
  {
   "property": "C91",
   "status": "proved",
   "theorems": [
    "C91_interval_unique",
    "C91_initial_unique",
    "C91_totp_program",
    "C91_settings_exist",
    "C91_two_parties"
   ],
   "note": "C91_totp_program; C91_interval_unique, C91_initial_unique and C91_settings_exist show that the settings it speaks of exist and are determined by the calls. Later set_interval, set_initial_time and set_counter calls are excluded since they are ignored or wrong until the step is over (violations C45_settings_ignored_refuted, C45_set_counter_refuted). The one-call statement about generate_str is C45_generate_str. C91_two_parties is the two-object form: device and server agree within a step whatever their histories."
  },
  {
   "property": "C92",
   "status": "proved",
   "theorems": [
    "C92_base_text",
    "C92_base16_condition",
    "C92_hex_text",
    "C92_base_text_refuted",
    "C92_message_lost_refuted"
   ],
   "note": "C92_base_text (exact condition), C92_base16_condition, C92_hex_text; C92_base_text_refuted gives the message, C92_message_lost_refuted follows it through the whole pipeline."
  },
  {
   "property": "C93",
   "status": "proved",
   "theorems": [
    "C93_hex_text",
    "C93_same_text",
    "C93_base_text",
    "C93_base_text_refuted"
   ],
   "note": "C93_hex_text, C93_same_text, C93_base_text (exact condition); C93_base_text_refuted follows a concrete digest through every encoding."
  },
  {
   "property": "C94",
   "status": "proved",
   "theorems": [
    "C94_typed_secret",
    "C94_key_kept",
    "C94_secret_kept",
    "C94_authenticator",
    "C94_merged_refuted",
    "C94_wrong_password_refuted"
   ],
   "note": "C94_typed_secret (what every such program computes), C94_key_kept (exact condition), C94_secret_kept; C94_authenticator: the same for TOTP objects in every program of C91; C94_merged_refuted and C94_wrong_password_refuted are the violation."
  },
  {
   "property": "C95",
   "status": "proved",
   "theorems": [
    "C95_base_text",
    "C95_base16",
    "C95_hex_text",
    "C95_merged_refuted",
    "C95_wrong_tag_refuted"
   ],
   "note": "C95_base_text (exact condition), C95_base16, C95_hex_text; C95_merged_refuted and C95_wrong_tag_refuted are the violation."
  }
 ]
}