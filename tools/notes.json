{
 "C01": {
  "note": "hex_print: text of every byte string; round_trip through pgfe_hex_string_to_hash; print_hash: the bytes written to stdout."
 },
 "C02": {
  "note": "hex_value: value of every non-empty well-formed text; hex_bound: bytes stay in the buffer; from_hex_string: the C++ wrapper."
 },
 "C03": {
  "note": "clean: what remains; in place as well; idempotent."
 },
 "C04": {
  "note": "hash_length for texts without separators; refuted for texts with separators (the length function does not clean)."
 },
 "C05": {
  "note": "reads stay inside for non-empty texts; the empty text reads before the string (refuted theorems)."
 },
 "C06": {
  "note": "encode_text gives the text for every input; rfc4648_iff says exactly when it is RFC 4648's; zero_byte_refuted: trailing zero bytes of a partial unit become padding (violation)."
 },
 "C08": {
  "note": "decode_encode for every input; round_trip exactly when nothing is lost; zero_refuted: bytes from a zero byte of the last unit on are lost (violation)."
 },
 "C09": {
  "note": "junk between characters is ignored; trailing junk starts a spurious unit (violation)."
 },
 "C11": {
  "note": "violation: the scratch string is overrun by exactly two bytes for partial units; the text does not depend on the stack contents."
 },
 "C12": {
  "note": "footprint with unit_space bytes; violations for empty text and for buffers of exactly the decoded size."
 },
 "C13": {
  "note": "for all work, schedules and allocation failures no undefined behaviour; cache_big_enough on the binary64 size computation (Flocq); decode(\"\") refuted."
 },
 "C14": {
  "note": "interleaving semantics with mutexes; results, mutual exclusion, absence of deadlock, bounded work."
 },
 "C15": {
  "note": "violation: an exception leaves the mutex locked and all later calls on that side block for ever; released otherwise."
 },
 "C17": {
  "note": "all non-empty pieces; empty pieces are C18."
 },
 "C18": {
  "note": "violation: an empty update reads an uninitialised local; what happens for undefined, zero and non-zero contents."
 },
 "C19": {
  "note": "_exact: the function computed on every message (second padding block reuses message bytes); _fips: equals FIPS 180-4 exactly where the padding leaves room; _violation: a message where it differs."
 },
 "C20": {
  "note": "as C19 for SHA-224/256."
 },
 "C21": {
  "note": "as C19 for SHA-384/512/512-224/512-256."
 },
 "C22": {
  "note": "the table hash_fn lists all 16 functions with the function computed (hash_std: the standard's)."
 },
 "C24": {
  "note": "in_bounds for pieces below 2^31 bytes; int_overflow beyond; counter_wrap for total lengths."
 },
 "C27": {
  "note": "all lengths below 2^61 bytes are classified: safe, out of bounds, never returns (for any fuel)."
 },
 "C31": {
  "note": "violation of idempotence for every function of the table with a message; second_digest says what the second call returns for every message."
 },
 "C32": {
  "note": "md5_sines is about the real sine function, blowfish_P about the real number pi (standard axioms of the reals). The Blowfish S-boxes are compared with the 1042 words of SBlowfish.v (computed outside Coq) by C47."
 },
 "C34": {
  "note": "for all twelve algorithms relative to the library's hash; RFC 2104 where the inner hash is standard; violation_sha256: a key and message whose tag is not RFC 2104's."
 },
 "C35": {
  "note": "violation: keys longer than a block are cut instead of hashed."
 },
 "C38": {
  "note": "violations: reset() keeps the data; the reported sizes are uninitialised when the object's memory happened to hold the algorithm's code; null pointer for XOFs."
 },
 "C39": {
  "note": "RFC 4226 for secrets of at most a block; longer ones are cut (long_secret_cut)."
 },
 "C42": {
  "note": "violation: with a XOF the code does not depend on the secret, and any value can come out of uninitialised memory."
 },
 "C43": {
  "note": "all digit counts but 0, where the C helper writes no digit and generate_str one (zero_digits_refuted)."
 },
 "C44": {
  "note": "violations: interval 0 (division), intervals of 2^31 and more, times before the start."
 },
 "C45": {
  "note": "violations: settings ignored until the stored step ends, clock set back, set_counter overrides the time, uninitialised counter, interval 0."
 },
 "C46": {
  "note": "argument_order_refuted: the result of set_secret(SequentialData&) depends on an unspecified evaluation order; base32 secrets with a zero tail are shortened."
 },
 "C49": {
  "note": "violation: an empty key reads out of bounds; long keys beyond 72 bytes are ignored."
 },
 "C50": {
  "note": "violation: the heap buffer is overrun when length mod 8 is 1, 2 or 3."
 },
 "C51": {
  "note": "violation: std::string keys are cut at the first NUL."
 },
 "C53": {
  "note": "get_digest classifies all bit lengths; overruns of the stack array and uninitialised bytes in the result are the violations."
 },
 "C54": {
  "note": "violation: after a reset whose allocation failed every use, even the destructor, is a double free; otherwise ownership is right and nothing leaks."
 },
 "C55": {
  "note": "whole_program: every digest of every program of supported calls on any number of objects."
 },
 "C56": {
  "note": "violations: trim never trims; \"\" is out of bounds."
 },
 "C59": {
  "note": "both evaluation orders are modelled; violations for right-to-left."
 },
 "C61": {
  "note": "collision_refuted: two inputs with the same text (violation)."
 },
 "C64": {
  "note": "separators_odd_refuted: the last digit is lost (violation)."
 },
 "C66": {
  "note": "violations: second digest differs, SHA-3 ignores later data."
 },
 "C67": {
  "note": "reduction proof (Merkle-Damgard); no cryptographic assumption."
 },
 "C68": {
  "note": "decode_chunks_refuted: violation."
 },
 "C69": {
  "note": "sort_order_refuted: violation for partial units."
 },
 "C70": {
  "note": "error_hidden and error_refuted: read errors are silent (violation)."
 },
 "C71": {
  "note": "sha2_wipe_refuted: violation; MD5 and HMAC keep data and key."
 },
 "C72": {
  "note": "keccak_*_refuted: no null checks in SHA-3/SHAKE (violation). C72_null_removed: in any history, digests in between included, calls with a null pointer do nothing."
 },
 "C73": {
  "note": "digest_null_refuted and totp_stale_refuted: missing overrides (violations)."
 },
 "C74": {
  "note": "over_refuted, fresh_refuted, settings_refuted: violations."
 },
 "C75": {
  "note": "valid: until the next get_digest or the destructor; dangling: afterwards; calls, whole_program: freeing digests adds no failure; no_leak."
 },
 "C76": {
  "note": "hash_collision and encoder_collision for all twelve functions; compression_collision traces it; distinct_tags is the contrapositive, with an example whose hypotheses are checked."
 },
 "C77": {
  "note": "failed_calls_change_nothing and otherwise_returns for all histories; base32_hangs_refuted is the violation. Arguments evaluated from left to right (C46 has the other order)."
 },
 "C78": {
  "note": "other_digests_right, supported_calls_return, older_digest_survives for all programs; retry_refuted (with retry_differs) and hmac_retry_refuted are the violations; hmac_results compares with the run without exceptions."
 },
 "C79": {
  "note": "extension for all messages as padded by the library; glue says when the padding depends on the length only; keyed_prefix is the consequence for secret prefixes."
 },
 "C80": {
  "note": "permutation: injectivity of the code's permutation; same_state, collisions for all messages; short_message_stays_refuted: the state left in the context determines every message shorter than a block (residue, cf. C71)."
 },
 "C81": {
  "note": "data_meant, hmac_zero: correct with clean slots (so C30, C34-C38 apply); int_size_refuted, missing_refuted, mixed_refuted, hmac_refuted: undefined behaviour otherwise. x86-64 argument slots; a size beyond the data is undefined at once."
 },
 "C82": {
  "note": "values, within_a_step: any schedule; one_at_a_time: refinement to C45; stale_refuted, uninitialised_refuted, late_writer_refuted, set_secret_refuted: violations. Member accesses are taken as indivisible and in schedule order (a data race is undefined in C++ altogether)."
 },
 "C83": {
  "note": "equalities of outcomes, so missing room is covered. decode_in_place restates it in the terms of C63. C83_encode, C83_blowfish: base encoding and Blowfish; C83_encode_in_place_refuted and C83_blowfish_shifted_refuted give the exact wrong output for all inputs."
 },
 "C84": {
  "note": "The algorithms of HOTP whose own code depends on the byte order are left out of hotp_big_endian (shifts_only)."
 },
 "C85": {
  "note": "Exact for all sequences of calls; violations: partial last byte never written, requests modulo 2^32, a byte skipped or lost after lengths that are not multiples of 8. C26 is the case of whole bytes below 2^32 bits."
 },
 "C86": {
  "note": "No deviation from what ECB mode gives; the consequences are stated exactly. C50 carries them over to the C++ object where it does not overflow."
 },
 "C87": {
  "note": "Separate objects and one call at a time: proved. Unlocked sharing is refuted (theorems named _refuted: every mixture happens, wrong digest, write behind the block; for MD5 and SHA-3 lost data, old memory in the digest, reads out of bounds). Simplification in favour of the program: statements are atomic; to the C++ standard any such sharing is a data race."
 },
 "C88": {
  "note": "C88_reinit_violation is the refutation of the second wish; its hypothesis (one of the last two P words of the finished context differs from the mixed one) is met by the zero key (C88_reinit_case). The order of the four loads within F, unordered in C, is taken left to right. Memory is sequentially consistent: a racy program is undefined in C, so the violation holds a fortiori."
 },
 "C89": {
  "note": "The two state theorems assume outputs shorter than a block (longer ones permute the state further); C89_outputs_apart does not."
 },
 "C90": {
  "note": "Every other call (update, reset, the digest function itself) is taken as indivisible, in favour of the program (C87 has update in steps). hmac_kind has objects of one algorithm. C90_hash_history and C90_hmac_history link indivisible calls on the objects to the histories of C55 and of C38, C66, and say which digests the threads read. A read of a deleted digest and a second deletion are both the outcome UB DoubleFree."
 },
 "C91": {
  "note": "C91_totp_program; C91_interval_unique, C91_initial_unique and C91_settings_exist show that the settings it speaks of exist and are determined by the calls. Later set_interval, set_initial_time and set_counter calls are excluded since they are ignored or wrong until the step is over (violations C45_settings_ignored_refuted, C45_set_counter_refuted). The one-call statement about generate_str is C45_generate_str. C91_two_parties is the two-object form: device and server agree within a step whatever their histories."
 },
 "C92": {
  "note": "C92_base_text (exact condition), C92_base16_condition, C92_hex_text; C92_base_text_refuted gives the message, C92_message_lost_refuted follows it through the whole pipeline."
 },
 "C93": {
  "note": "C93_hex_text, C93_same_text, C93_base_text (exact condition); C93_base_text_refuted follows a concrete digest through every encoding."
 },
 "C94": {
  "note": "C94_typed_secret (what every such program computes), C94_key_kept (exact condition), C94_secret_kept; C94_authenticator: the same for TOTP objects in every program of C91; C94_merged_refuted and C94_wrong_password_refuted are the violation."
 },
 "C95": {
  "note": "C95_base_text (exact condition), C95_base16, C95_hex_text; C95_merged_refuted and C95_wrong_tag_refuted are the violation."
 }
}