{"id": "C01", "title": "Hex round trip", "statement": "For every non-empty byte sequence x, pgfe_hex_string_to_hash(pgfe_hash_to_hex_string(x)) yields exactly x and returns its length; the hex string has exactly 2*|x| lower-case hexadecimal digits followed by NUL, and the returned count is 2*|x|. The same bytes come back if the text is upper-cased, prefixed with 0x/0X or suffixed with h/H.", "quantifier": "all non-empty byte sequences, all letter cases, all prefix/suffix choices", "why_tests_cant": "256^n inputs of unbounded length n", "anchors": ["src/core/utils.c:pgfe_hash_to_hex_string", "src/core/utils.c:pgfe_hex_string_to_hash", "src/core/generic-internal.c:ch2hex"]}
{"id": "C02", "title": "Hex parsing of pure digit strings and its output bound", "statement": "For every non-empty string of hexadecimal digits, pgfe_hex_string_to_hash writes the big-endian bytes of the number the digits denote, zero-extended on the left to ceil(len/2) bytes, and returns ceil(len/2). For every NUL-terminated string of length >= 1 whatsoever it writes at most ceil(strlen/2) bytes, so sequential_data::from_hex_string never overflows its local buffer.", "quantifier": "all C strings", "why_tests_cant": "unbounded string length and arbitrary junk characters", "anchors": ["src/core/utils.c:pgfe_hex_string_to_hash", "src/core/utils.cpp:sequential_data::from_hex_string"]}
{"id": "C03", "title": "Cleaning a hex string", "statement": "For every C string s, pgfe_hash_string_clean writes the hexadecimal digits of s in order (dropping the first two characters when the second is x/X), NUL-terminated, and returns their number; doing it in place (pgfe_hash_string_clean_) gives the same text as doing it into a fresh buffer, and cleaning twice is the same as cleaning once.", "quantifier": "all C strings", "why_tests_cant": "in-place aliasing must be right for every string", "anchors": ["src/core/utils.c:pgfe_hash_string_clean", "src/core/utils.c:pgfe_hash_string_clean_"]}
{"id": "C04", "title": "pgfe_hash_length agrees with what the parser produces", "statement": "For every string made of hexadecimal digits with an optional 0x prefix and an optional trailing h, pgfe_hash_length(s) equals the number of bytes pgfe_hex_string_to_hash(s) writes. With separators inside the string the two can disagree (violation with witness).", "quantifier": "all hex strings with optional affixes; violation exhibited by a witness", "why_tests_cant": "agreement of two functions over all strings", "anchors": ["src/core/utils.c:pgfe_hash_length", "src/core/utils.c:pgfe_hex_string_to_hash"]}
{"id": "C05", "title": "Hex parser stays inside its input", "statement": "For every C string of length >= 1 stored in a buffer of exactly strlen+1 bytes, pgfe_hex_string_to_hash reads only inside that buffer. On the empty string it reads outside (index 1 and index -1): undefined behaviour (violation).", "quantifier": "all C strings, including the empty one", "why_tests_cant": "out-of-bounds reads are invisible to value-checking tests", "anchors": ["src/core/utils.c:pgfe_hex_string_to_hash"]}
{"id": "C06", "title": "Base16/32/64 encoding follows RFC 4648", "statement": "For every byte sequence, pgfe_encode_base16/32/32hex/64/64_url produce the RFC 4648 text (bits regrouped MSB-first, zero-filled, '=' padded) whenever the length is a multiple of the unit or the last data character of the RFC text is not the zero symbol of the alphabet. In exactly the remaining cases the output differs from RFC 4648, because trailing zero symbols are replaced by '=' (violation, e.g. base64 of one zero byte is '====').", "quantifier": "all byte sequences, all five encoders", "why_tests_cant": "unbounded inputs; failure needs particular trailing bits", "anchors": ["src/base_encoding/base-encoding-internal.c:transform,unittostr,encode_base_generic", "src/base_encoding/base16.c", "src/base_encoding/base32.c", "src/base_encoding/base64.c"]}
{"id": "C07", "title": "Base encoder output shape", "statement": "For every input the encoders return chunk_count*ceil(n/unit_size), write exactly that many characters, all in the alphabet or '=', and then a NUL; nothing else in the caller's buffer changes.", "quantifier": "all byte sequences, all five encoders", "why_tests_cant": "buffer footprint for every length", "anchors": ["src/base_encoding/base-encoding-internal.c:encode_base_generic"]}
{"id": "C08", "title": "Base decode inverts base encode", "statement": "For every byte sequence x, decode(encode(x)) returns x with everything from the first zero byte of the final unit on removed; hence decode(encode(x)) = x exactly when x is non-empty and its final (possibly partial) unit contains no zero byte. Data with a zero byte in the last unit does not survive (violation, e.g. base64 of 01 00 02).", "quantifier": "all byte sequences, all five encoder/decoder pairs", "why_tests_cant": "round trip over all binary data", "anchors": ["src/base_encoding/base-encoding-internal.c:decode_base_generic", "src/base_encoding/base-encoding-internal.c:encode_base_generic"]}
{"id": "C09", "title": "Decoder ignores characters outside the alphabet", "statement": "For every text, inserting characters outside the alphabet anywhere before the last alphabet character does not change the decoded bytes or the returned length. Junk after the last alphabet character can change the result (violation with witness).", "quantifier": "all texts and all insertions of junk", "why_tests_cant": "infinitely many texts and insertions", "anchors": ["src/base_encoding/base-encoding-internal.c:decode_base_generic"]}
{"id": "C10", "title": "Decoders accept both letter cases / both base64 alphabets", "statement": "For every text, base16/base32/base32hex decoding does not depend on letter case, and base64 decoding gives the same bytes for the standard and the URL-safe alphabet.", "quantifier": "all texts", "why_tests_cant": "all texts", "anchors": ["src/base_encoding/base16.c:decode_base16_char", "src/base_encoding/base32.c:decode_base32_char,decode_base32hex_char", "src/base_encoding/base64.c:decode_base64_char"]}
{"id": "C11", "title": "Base encoder scratch-buffer safety", "statement": "Every encode of a non-empty input makes the bit regrouping step read one byte past its input unit and write exactly two bytes past its chunk_count-byte scratch array (undefined behaviour, violation for every non-empty input). If those three bytes happen to be addressable padding, the produced text does not depend on their contents.", "quantifier": "all non-empty inputs, all contents of adjacent memory", "why_tests_cant": "an overflow that only hits padding is invisible to tests", "anchors": ["src/base_encoding/base-encoding-internal.c:transform,unittostr"]}
{"id": "C12", "title": "Base decoder output footprint", "statement": "For every non-empty text, decoding writes whole units only: at most unit_size*ceil(strlen/chunk_count) bytes from the start of the output buffer plus nothing beyond them except possibly a terminating zero inside or directly after, and the returned length is at most that. On the empty text the decoder accesses memory before the output buffer (undefined behaviour, violation).", "quantifier": "all C strings", "why_tests_cant": "buffer footprint for every text", "anchors": ["src/base_encoding/base-encoding-internal.c:decode_base_generic"]}
{"id": "C13", "title": "C++ base encoding objects never overflow their caches", "statement": "For every history of encode/decode calls (decode on non-empty text) on a Base16/Base32/Base64 object, with sizes computed in IEEE binary64 as in the code, every write of the C routine and of the terminator lands inside the currently allocated cache.", "quantifier": "all call histories and input lengths below 2^50", "why_tests_cant": "depends on floating-point rounding and call history", "anchors": ["src/base_encoding/abstract_base_encoding.cpp:AbstractBaseEncoding::encode,decode", "include/libpgfe/base_encoding/abstract_base_encoding.hpp"]}
{"id": "C14", "title": "C++ base encoding objects are thread safe", "statement": "For any number of threads calling encode and decode on one shared object, under every interleaving, every call that returns has returned the value the corresponding C function gives for that call's own argument, and no two threads are inside the same critical section.", "quantifier": "all schedules, all numbers of threads, all inputs", "why_tests_cant": "interleavings cannot be enumerated by tests", "anchors": ["src/base_encoding/abstract_base_encoding.cpp"]}
{"id": "C15", "title": "An exception must not leave the object locked", "statement": "If the cache reallocation inside encode (or decode) throws, the mutex stays locked: every later encode (decode) call on that object blocks forever. Without an exception the mutex is free again after every call (violation shown for the exceptional path).", "quantifier": "all call histories with an allocation failure at any point", "why_tests_cant": "needs allocation failure at one point of a history", "anchors": ["src/base_encoding/abstract_base_encoding.cpp"]}
{"id": "C16", "title": "C++ base encoding results are history independent", "statement": "For every history of calls, Base16/32/64::encode and decode return what the C function returns on the same argument, whatever was encoded or decoded before; std::string arguments to decode are cut at the first NUL while encode uses the full length.", "quantifier": "all call histories", "why_tests_cant": "cache reuse must not leak earlier data", "anchors": ["src/base_encoding/abstract_base_encoding.cpp", "src/base_encoding/base16.cpp", "src/base_encoding/base32.cpp", "src/base_encoding/base64.cpp"]}
{"id": "C17", "title": "MD5 conforms to RFC 1321 under any chunking", "statement": "For every message and every way to feed it in non-empty pieces to pgfe_md5_update, pgfe_md5_digest outputs the RFC 1321 MD5 of the concatenation.", "quantifier": "all messages, all splittings into non-empty pieces", "why_tests_cant": "all lengths around block boundaries, all splittings", "anchors": ["src/hashes/md5.c", "src/hashes/md5-backend.c"]}
{"id": "C18", "title": "Zero-length MD5 updates", "statement": "A zero-length pgfe_md5_update reads an uninitialised local: if that garbage value is 0 the stale block is compressed into the state, otherwise the call is a no-op. So MD5 of the empty message, and of a file whose size is a multiple of 1024, is undefined behaviour (violation); with non-zero garbage the result is the RFC value.", "quantifier": "all contexts, all garbage values, all splittings including empty pieces", "why_tests_cant": "depends on uninitialised stack contents", "anchors": ["src/hashes/md5.c:pgfe_md5_update"]}
{"id": "C19", "title": "SHA-1 against FIPS 180-4 under any chunking", "statement": "For every message shorter than 2^61 bytes and every way to feed it in pieces of fewer than 2^31 bytes (empty pieces allowed), pgfe_sha1_digest outputs the FIPS 180-4 SHA-1 of the concatenation, provided length mod 64 is below 56 (or the reused bytes described next are zero). Otherwise the second padding block starts with the first 56 bytes of the last partial message block instead of zeros, and the digest is exactly SHA-1 with that wrong padding; it differs from FIPS 180-4 (violation, with witnesses of every length from 56 to 63).", "quantifier": "all messages, all splittings", "why_tests_cant": "all lengths, all splittings", "anchors": ["src/hashes/sha1.c", "src/hashes/templates.h:SHA_INIT,SHA_UPDATE,SHA_DIGEST"]}
{"id": "C20", "title": "SHA-224 and SHA-256 against FIPS 180-4 under any chunking", "statement": "As C19, including the wrong second padding block, for pgfe_sha224_* and pgfe_sha256_*.", "quantifier": "all messages, all splittings", "why_tests_cant": "all lengths, all splittings", "anchors": ["src/hashes/sha224.c", "src/hashes/sha256.c", "src/hashes/sha2-backend.c"]}
{"id": "C21", "title": "SHA-384, SHA-512, SHA-512/224, SHA-512/256 against FIPS 180-4 under any chunking", "statement": "As C19 for the 64-bit family, for messages shorter than 2^125 bytes; the standard is met when length mod 128 is below 112; otherwise the second padding block reuses message bytes, and there are messages of those lengths whose digest is not the standard's (violation).", "quantifier": "all messages, all splittings", "why_tests_cant": "all lengths, all splittings", "anchors": ["src/hashes/sha384.c", "src/hashes/sha512.c", "src/hashes/sha2-backend.c"]}
{"id": "C22", "title": "Streaming invariance", "statement": "For every hash algorithm, two sequences of updates with the same concatenation give the same digest (within the length limits, MD5 pieces non-empty).", "quantifier": "all pairs of splittings of all messages", "why_tests_cant": "quantifies over pairs of histories", "anchors": ["src/hashes/templates.h", "src/hashes/md5.c", "src/hashes/keccak-backend.c"]}
{"id": "C23", "title": "Initialisation forgets history", "statement": "For every hash algorithm, after init the digest does not depend on the previous contents of the context (uninitialised memory, an abandoned computation, or a finished one).", "quantifier": "all previous context contents", "why_tests_cant": "uninitialised memory", "anchors": ["src/hashes/templates.h:SHA_INIT", "src/hashes/md5.c:pgfe_md5_init", "src/hashes/keccak-backend.c:keccak_init", "src/hashes/sha512.c:pgfe_sha512_generic_init"]}
{"id": "C24", "title": "SHA-1/SHA-2 length limits", "statement": "A single SHA-1/SHA-2 update of 2^31 bytes or more overflows a signed int (undefined behaviour); a context whose message length counter has wrapped (2^61 bytes for SHA-1/224/256, 2^125 for the others) makes the next update or digest write one byte outside its block buffer (violation). Below these limits the update never writes outside the block.", "quantifier": "all histories of updates", "why_tests_cant": "needs 2 GiB / 2^61 byte inputs", "anchors": ["src/hashes/templates.h:SHA_UPDATE", "src/hashes/sha2-backend.c:sha384n512_update"]}
{"id": "C25", "title": "SHA-3 conforms to FIPS 202 under any chunking", "statement": "For every message and every way to feed it in pieces (each piece together with the queue below 2^32 bits), pgfe_sha3_224/256/384/512_digest output the FIPS 202 SHA3 value of the concatenation, specified bit by bit.", "quantifier": "all messages, all splittings", "why_tests_cant": "all lengths, all splittings; bit-level standard", "anchors": ["src/hashes/keccak-backend.c", "src/hashes/sha3-224.c", "src/hashes/sha3-256.c", "src/hashes/sha3-384.c", "src/hashes/sha3-512.c"]}
{"id": "C26", "title": "SHAKE/RawSHAKE conform to FIPS 202 for every output length", "statement": "For every message, splitting and output length that is a multiple of 8 below 2^32 bits, the four XOFs output the FIPS 202 value; squeezing n bits and then m bits (both multiples of 8) gives the same bytes as squeezing n+m bits at once.", "quantifier": "all messages, splittings, output lengths, squeeze sequences", "why_tests_cant": "unbounded output lengths and call sequences", "anchors": ["src/hashes/shake.c", "src/hashes/keccak-backend.c:keccak_squeeze_b1600"]}
{"id": "C27", "title": "Keccak absorption of huge pieces", "statement": "Let q be the bits queued by the earlier updates and b the bit length of the piece. If q is 0, or b + q is below 2^32, the update returns and stays in bounds. With q above 0: if b mod 2^32 + q is 2^32 or more it copies outside the queue; if b is 2^32 or more and b mod 2^32 + q is below the rate it never returns (violations); in all other cases it returns, and whenever updates return the digest is right (C25).", "quantifier": "all contexts and piece lengths", "why_tests_cant": "needs 512 MiB pieces at particular residues", "anchors": ["src/hashes/keccak-backend.c:keccak_absorb_b1600"]}
{"id": "C28", "title": "No absorption after squeezing has started", "statement": "For every SHA-3/SHAKE context, once a digest has been taken, further updates (of any length) leave the context unchanged, so later squeezes continue the stream of the original message.", "quantifier": "all histories", "why_tests_cant": "call sequences", "anchors": ["src/hashes/keccak-backend.c:keccak_absorb_b1600"]}
{"id": "C29", "title": "Hashing a file equals hashing its contents", "statement": "For every file content, pgfe_*_encode_f gives the digest of the whole content (for MD5 when the size is not a multiple of 1024; otherwise see C18).", "quantifier": "all file contents and sizes", "why_tests_cant": "sizes around multiples of the 1024-byte buffer", "anchors": ["src/hashes/templates.h:FRONTEND_GEN2,FRONTEND_GEN3"]}
{"id": "C30", "title": "encode_multiple hashes the concatenation", "statement": "For every list of inputs, NULL entries allowed, pgfe_*_encode_multiple gives the digest of the concatenation of the non-NULL inputs in order.", "quantifier": "all input lists", "why_tests_cant": "all lists", "anchors": ["src/hashes/templates.h:FRONTEND_GEN2,FRONTEND_GEN3"]}
{"id": "C31", "title": "Taking a digest twice", "statement": "Taking the digest consumes the context: for SHA-1, SHA-2, MD5 and SHA-3 a second digest call without init does not return the digest again (violation of idempotence, with witnesses); re-initialising always restores correct operation.", "quantifier": "all contexts for the positive part; witnesses for the violation", "why_tests_cant": "call sequences", "anchors": ["src/hashes/templates.h:SHA_DIGEST", "src/hashes/sha2-backend.c:sha224n256_digest", "src/hashes/md5.c:pgfe_md5_digest", "src/hashes/keccak-backend.c:keccak_squeeze_b1600"]}
{"id": "C32", "title": "Algorithm constants", "statement": "The constant tables are those of the standards: SHA-2 round constants and initial values are the first bits of the fractional parts of cube/square roots of primes (SHA-512/t values from the FIPS IV generation function), Keccak rotation offsets and round constants follow the FIPS 202 generation rules, MD5 constants are floor(2^32*|sin i|), the 18 words of the Blowfish P-array are the first 576 bits of the fractional part of pi.", "quantifier": "every entry of every table", "why_tests_cant": "a wrong rarely used entry escapes small tests; exhaustive here", "anchors": ["src/hashes/sha2-backend.c", "src/hashes/sha224.c", "src/hashes/sha256.c", "src/hashes/sha384.c", "src/hashes/sha512.c", "src/hashes/keccak-backend.c", "src/hashes/md5-backend.c", "src/fishes/blowfish.c:P0"]}
{"id": "C33", "title": "Digest footprint", "statement": "Every digest function writes exactly the documented digest size (bit length / 8 for the XOFs) into the caller's buffer.", "quantifier": "all contexts", "why_tests_cant": "buffer footprint for every state", "anchors": ["src/hashes/templates.h", "src/hashes/sha2-backend.c", "src/hashes/md5.c", "src/hashes/keccak-backend.c"]}
{"id": "C34", "title": "HMAC conforms to RFC 2104 for keys up to one block", "statement": "For each of the 12 fixed-size hashes, every key of at most one block, every message and every splitting of it, HMAC outputs H((K xor opad) || H((K xor ipad) || message)), H being the library's own hash function; the outer hash and, when the message length leaves room for the padding (C19-C21), the inner hash are the standard ones, so the result is then RFC 2104 HMAC over the standard hash.", "quantifier": "all keys up to a block, all messages, all splittings", "why_tests_cant": "unbounded inputs", "anchors": ["src/hmac/hmac.c:hmac_gen", "src/hmac/hmac.c:pgfe_hmac"]}
{"id": "C35", "title": "HMAC with keys longer than a block", "statement": "RFC 2104 requires hashing a key longer than the block. The code instead truncates it: for every key k, HMAC(k,m) = HMAC(first block of k, m), so distinct long keys sharing a first block are equivalent and the result differs from RFC 2104 (violation with witness).", "quantifier": "all keys and messages; witness for the violation", "why_tests_cant": "needs long keys", "anchors": ["src/hmac/hmac.c:hmac_gen", "src/core/generic-internal.c:arrcpy"]}
{"id": "C36", "title": "Setting a key restarts the computation", "statement": "For every HMAC context history, the digest depends only on the last key set and the data added since.", "quantifier": "all histories of init/set_key/update", "why_tests_cant": "histories", "anchors": ["src/hmac/hmac.c:hmac_gen"]}
{"id": "C37", "title": "pgfe_hmac dispatch", "statement": "For every algorithm choice, pgfe_hmac computes HMAC with that very hash; for the four XOF choices it leaves the output buffer untouched.", "quantifier": "all algorithm choices, keys, messages, output buffers", "why_tests_cant": "all combinations", "anchors": ["src/hmac/hmac.c:pgfe_hmac", "src/core/generic-internal.h:__PGFE_BATCH_CASES_SP"]}
{"id": "C38", "title": "HMACEncoder objects", "statement": "For every indeterminate initial value of the object's memory, constructing HMACEncoder(alg,key), any updates and one get_digest give the HMAC of the concatenated data; digest_size()/block_size() are correct unless the indeterminate algorithm field happened to equal alg (violation); reset() does not discard data already added (violation); for XOF algorithms get_digest returns a null pointer.", "quantifier": "all uninitialised memory contents, all call histories", "why_tests_cant": "indeterminate memory and histories", "anchors": ["src/hmac/hmac_encoder.cpp", "src/core/algorithm_selectable.cpp", "include/libpgfe/abstract_encoder.hpp"]}
{"id": "C39", "title": "HOTP conforms to RFC 4226", "statement": "For SHA-1 and every other fixed-size hash except MD5, every secret of at most one block, every 64-bit counter and every digit count, pgfe_hotp_generic returns the RFC 4226 value: dynamic truncation of HMAC(secret, big-endian counter) modulo 10^digits.", "quantifier": "all secrets, counters, digit counts", "why_tests_cant": "2^64 counters, unbounded secrets", "anchors": ["src/otp/hotp.c:pgfe_hotp_generic", "src/otp/otp-generic.c:dynamically_truncate"]}
{"id": "C40", "title": "HOTP with MD5", "statement": "With MD5 the truncation reads outside the 16-byte digest exactly when the low nibble of the last digest byte exceeds 12 (undefined behaviour, violation for inputs that hash that way); otherwise the RFC 4226 formula is returned.", "quantifier": "all digests", "why_tests_cant": "depends on the digest value", "anchors": ["src/otp/otp-generic.c:dynamically_truncate", "src/otp/hotp.c:pgfe_hotp_generic"]}
{"id": "C41", "title": "OTP value range", "statement": "For every digest of at least 20 bytes and every digit count d, the returned OTP is below 2^31 and below 10^d.", "quantifier": "all digests, all digit counts 0..255", "why_tests_cant": "all digests", "anchors": ["src/otp/hotp.c:pgfe_hotp_generic", "src/otp/hotp.c:_10pow"]}
{"id": "C42", "title": "HOTP with an XOF algorithm", "statement": "For the four SHAKE choices pgfe_hotp_generic truncates an uninitialised buffer: the result is a function of stack garbage only and independent of secret and counter (violation).", "quantifier": "all secrets, counters, garbage", "why_tests_cant": "depends on uninitialised memory", "anchors": ["src/otp/hotp.c:pgfe_hotp_generic", "src/hmac/hmac.c:pgfe_hmac"]}
{"id": "C43", "title": "OTP strings", "statement": "For every OTP value and digit count 1..10, generate_str is the decimal text of the value left-padded with zeros to exactly the digit count; the C helper otp_to_string writes the same text.", "quantifier": "all values and digit counts", "why_tests_cant": "leading zeros for all values", "anchors": ["src/otp/abstract_otp.cpp:AbstractOTP::generate_str", "src/otp/otp-generic.c:otp_to_string"]}
{"id": "C44", "title": "TOTP counter arithmetic", "statement": "For every time at or after the initial time and every interval in 1..2^31-1, the counter is floor((t-t0)/interval) and the reported remaining time d satisfies 1 <= d <= interval and is the exact number of seconds until the counter next increases. Interval 0 is a division by zero (undefined behaviour); intervals of 2^31 or more can yield a negative remaining time (violation). pgfe_totp_generic returns the HOTP value of that counter and stores the remaining time unless the pointer is null; pgfe_totp and the 4-, 6- and 8-digit variants do this with SHA-1 and the epoch as initial time.", "quantifier": "all times, initial times, intervals", "why_tests_cant": "64-bit time space", "anchors": ["src/otp/totp-internal.c:calc_periodic_counter", "src/otp/totp.c"]}
{"id": "C45", "title": "TOTP objects always use the current time step", "statement": "For every sequence of generate calls at non-decreasing clock readings after the initial time, each TOTP::generate returns the HOTP value for the counter of the current time. Changing the interval or initial time, or a clock that steps backwards, leaves a stale counter in use until the old step ends (violation).", "quantifier": "all clock histories and call sequences", "why_tests_cant": "time-dependent histories", "anchors": ["src/otp/totp.cpp:TOTP::generate,update_counter,remaining_time,set_interval,set_initial_time"]}
{"id": "C46", "title": "HOTP objects", "statement": "For every history of set_secret/set_counter calls, generate throws exactly when no secret was ever set, and otherwise equals the C function on the last secret and last counter; a secret given in Base32 is the decoded text, so secrets whose last 5-byte group contains a zero byte are silently shortened (violation).", "quantifier": "all call histories, all secrets", "why_tests_cant": "histories; secrets with zero bytes", "anchors": ["src/otp/hotp.cpp"]}
{"id": "C47", "title": "Blowfish block decryption inverts encryption", "statement": "For every context (any P and S tables) and every 64-bit block, decrypt_unit(encrypt_unit(b)) = b and encrypt_unit(decrypt_unit(b)) = b.", "quantifier": "all contexts and all 2^64 blocks", "why_tests_cant": "2^64 blocks times all keys", "anchors": ["src/fishes/blowfish.c:pgfe_blowfish_encrypt_unit,pgfe_blowfish_decrypt_unit"]}
{"id": "C48", "title": "Blowfish buffer round trip", "statement": "For every context and byte sequence, encrypt returns the length rounded up to a multiple of 8 and writes exactly that many bytes, and decrypting them gives the original followed by zero padding.", "quantifier": "all contexts and byte sequences", "why_tests_cant": "all lengths and contents", "anchors": ["src/fishes/blowfish.c:__blowfish_en_decrypt_generic"]}
{"id": "C49", "title": "Blowfish key schedule", "statement": "For every non-empty key the context equals Schneier's key schedule with the key repeated cyclically; only the first 72 bytes matter; repeating a key does not change the context; an empty key is undefined behaviour (a read of key[0], then a division by zero; violation).", "quantifier": "all keys", "why_tests_cant": "all keys of all lengths", "anchors": ["src/fishes/blowfish.c:pgfe_blowfish_init"]}
{"id": "C50", "title": "Blowfish C++ object buffers", "statement": "Blowfish::encrypt/decrypt write outside their heap buffer exactly when length mod 8 is 1, 2 or 3 (violation); in all other cases they return the C result.", "quantifier": "all input lengths", "why_tests_cant": "heap overflow of a few bytes often goes unnoticed", "anchors": ["src/fishes/blowfish.cpp:Blowfish::encrypt,decrypt"]}
{"id": "C51", "title": "Blowfish string keys", "statement": "A std::string key is cut at its first NUL, so it gives a different cipher than the same bytes passed as SequentialData (violation with witness), and equal when there is no NUL.", "quantifier": "all string keys", "why_tests_cant": "keys with embedded NUL", "anchors": ["src/fishes/blowfish.cpp:Blowfish::Blowfish"]}
{"id": "C52", "title": "Blowfish works block by block", "statement": "For every context and byte sequences a, b with |a| a multiple of 8, encrypt(a||b) = encrypt(a)||encrypt(b), and likewise for decrypt.", "quantifier": "all contexts and byte sequences", "why_tests_cant": "all lengths", "anchors": ["src/fishes/blowfish.c:__blowfish_en_decrypt_generic"]}
{"id": "C53", "title": "HashEncoder::get_digest buffer sizes", "statement": "On an encoder that was fed data the library supports, get_digest(bitlength) writes outside its local array exactly when the algorithm is a XOF and bitlength is 0, or the algorithm is fixed-size and 0 < bitlength/8 + bitlength mod 8 < digest size (violation). Otherwise it returns bitlength/8 + bitlength mod 8 bytes (XOFs) or the digest size (fixed): the first are the digest, and for a XOF the rest is uninitialised memory. There is no such rest exactly for fixed-size digests and for XOF bit lengths that are non-zero multiples of 8 below 2^32.", "quantifier": "all algorithms, all bit lengths, all contents of the stack, all histories before the call", "why_tests_cant": "memory errors and uninitialised bytes for particular arguments", "anchors": ["src/hashes/hash_encoder.cpp:HashEncoder::get_digest"]}
{"id": "C54", "title": "HashEncoder context ownership", "statement": "In every program that creates, feeds, digests, resets and destroys any number of encoders, allocations failing at any point: every live context belongs to exactly one encoder, nothing is freed twice or used after being freed, and once no encoder is left every context has been freed, unless a call (even only the destructor) is made on an encoder whose last reset threw bad_alloc: every such call uses or frees the freed context again (violation). A constructor that throws leaks nothing.", "quantifier": "all histories of construct/update/digest/reset/destroy on all numbers of objects, all allocation-failure points", "why_tests_cant": "crash points and ownership histories", "anchors": ["src/hashes/hash_encoder.cpp:HashEncoder::reset,load_algorithm,destroy_context,~HashEncoder", "include/libpgfe/hashes/hash_encoder.hpp"]}
{"id": "C55", "title": "HashEncoder objects compute the digest of the data since the last reset", "statement": "For every program that uses any number of encoders of all algorithms within the documented limits, every call returns, and the digests it is given are, in order, the standards' digests of the data fed to the object in question since its construction or last reset, whatever was done to other objects and whatever fresh memory held (up to the SHA-1/SHA-2 padding deviation, C20).", "quantifier": "all histories over all numbers of objects, all algorithms, all contents of fresh memory", "why_tests_cant": "histories", "anchors": ["src/hashes/hash_encoder.cpp"]}
{"id": "C56", "title": "SequentialData", "statement": "For all contents including NUL bytes: hex_str is the lower-case hex of the bytes, to_str returns them unchanged, the constructors take exactly the bytes given (a C string up to its NUL), and from_hex_string undoes hex_str except on the empty sequence, where it reads out of bounds (violation). For every other text from_hex_string stays inside its array and returns what C64 says. trim, trim_left and trim_right never remove anything, although the byte to trim is meant to be 0: the set of bytes is passed as a NUL-terminated string and is empty (violation).", "quantifier": "all byte sequences", "why_tests_cant": "all contents", "anchors": ["src/core/sequential_data.cpp", "include/libpgfe/sequential_data.hpp", "src/core/utils.cpp"]}
{"id": "C57", "title": "Algorithm names and size tables", "statement": "_algstr accepts exactly the enumerators' names and their lower-case forms, gives the algorithm of that name, and throws on every other string; C strings and the literal operator use what is before the first NUL. The digest and block sizes of the C++ maps, of the switch tables, of the functions they are used with and of the standards agree for every algorithm.", "quantifier": "all strings, all algorithms", "why_tests_cant": "all other strings must be rejected", "anchors": ["src/core/generic.cpp:_algstr", "include/libpgfe/generic.hpp", "src/core/generic-internal.h"]}
{"id": "C58", "title": "One-shot hashing equals streaming", "statement": "For every hash function, pgfe_*_encode over a buffer gives the digest of the buffer, and pgfe_*_encode_default over a NUL-terminated string gives the digest of the characters before the terminator whatever follows it; without a terminator it reads out of bounds.", "quantifier": "all buffers, all strings, all contents of the uninitialised local context", "why_tests_cant": "all inputs", "anchors": ["src/hashes/templates.h:FRONTEND_GEN2,FRONTEND_GEN3,FRONTEND_GEN2_DEFAULT"]}
{"id": "C59", "title": "Calls that take a SequentialData and its length", "statement": "HMACEncoder::set_key(SequentialData&), update(SequentialData&) of both encoders and OTP set_secret(SequentialData&) use exactly the bytes of the sequence if the compiler evaluates the arguments of the inner call left to right; if it evaluates them right to left (also allowed) they read an uninitialised variable, so that the key or data used is some prefix, or memory is read past the end (violation).", "quantifier": "all sequences, both evaluation orders, all contents of the uninitialised variable, all encoder states", "why_tests_cant": "unspecified evaluation order: a test sees one compiler's choice", "anchors": ["include/libpgfe/abstract_encoder.hpp:AbstractEncoder::update", "src/hmac/hmac_encoder.cpp:HMACEncoder::set_key", "src/otp/abstract_otp.cpp:AbstractOTP::set_secret"]}
{"id": "C60", "title": "Blowfish in place", "statement": "Calling encrypt or decrypt with output == input gives the same bytes and return value as with a separate output buffer, for every context and buffer that is long enough; encrypting and then decrypting in place restores the message followed by its zero padding.", "quantifier": "all contexts, messages and buffers", "why_tests_cant": "aliasing of input and output over all lengths", "anchors": ["src/fishes/blowfish.c:__blowfish_en_decrypt_generic"]}
{"id": "C61", "title": "Different data, same text", "statement": "Two inputs of a base encoder give the same text exactly when they are equal, or both end in a partial unit and agree after filling that unit up with zero bytes. So the encoders are injective on inputs of one length and on inputs of whole units, but not in general: base64 and base32 of 01 and of 01 00 are the same text, although RFC 4648 gives different ones (violation).", "quantifier": "all pairs of byte strings, five encodings", "why_tests_cant": "injectivity ranges over all pairs of inputs", "anchors": ["src/base_encoding/base-encoding-internal.c:encode_base_generic,unittostr", "src/base_encoding/base64.c", "src/base_encoding/base32.c"]}
{"id": "C62", "title": "Padding is optional when decoding", "statement": "Removing all or any number of the trailing '=' of an RFC 4648 text does not change what the decoders return and write.", "quantifier": "all non-empty byte strings, all numbers of '=' left out, five encodings", "why_tests_cant": "all inputs", "anchors": ["src/base_encoding/base-encoding-internal.c:decode_base_generic"]}
{"id": "C63", "title": "Meaning of every text", "statement": "For every non-empty text, well formed or not, and a destination that holds the whole units, decoding returns, and the bytes are: the values of the characters that have one (place in the alphabet in either letter case or either base64 alphabet, '=' is zero, other characters are skipped) taken in groups of a unit, a short last group being completed with zeros, characters after the last complete group starting another zero unit, and the last unit ending before its first zero byte.", "quantifier": "all byte strings as texts, five encodings", "why_tests_cant": "malformed inputs are unbounded in kind", "anchors": ["src/base_encoding/base-encoding-internal.c:decode_base_generic", "src/base_encoding/base16.c", "src/base_encoding/base32.c", "src/base_encoding/base64.c"]}
{"id": "C64", "title": "Hex texts with separators", "statement": "For every non-empty string: if the number of characters that are neither hex digits nor the 0x prefix nor the h suffix is even, pgfe_hex_string_to_hash ignores them: it writes the number written by the digits, big endian, in half as many bytes as digits (rounded up), the same as for the cleaned text. If their number is odd, the last digit is lost: it writes that number divided by 16, in half as many bytes rounded down (violation: \"de:ad\" is read as 0d ea).", "quantifier": "all strings, all buffers", "why_tests_cant": "every placement of every separator", "anchors": ["src/core/utils.c:pgfe_hex_string_to_hash"]}
{"id": "C65", "title": "Keys that HMAC does not distinguish", "statement": "Two keys whose first block agrees, shorter keys being continued with zeros, give the same tag for every message in pgfe_hmac and in every sequence of calls on an HMACEncoder; in particular a key and the same key with zero bytes appended. RFC 2104 has this equivalence for keys of at most a block, not for longer ones (C35).", "quantifier": "all pairs of keys, all messages, all algorithms, all sequences of calls", "why_tests_cant": "pairs of keys and all messages", "anchors": ["src/hmac/hmac.c", "src/core/generic-internal.c:arrcpy", "src/hmac/hmac_encoder.cpp:HMACEncoder::set_key"]}
{"id": "C66", "title": "An HMACEncoder yields one tag", "statement": "A second HMACEncoder::get_digest does not return the tag again but HMAC with the inner hash replaced by what the finished inner context yields (C31), for all keys and messages, reset() making no difference; for each of the twelve algorithms there are key and message for which this differs (violation). With SHA-3 every piece of data added after the first get_digest is ignored by all later calls (violation); with SHA-256 it is authenticated neither alone nor with the earlier data. Keys given as C strings end before the first NUL, as std::string they are used whole.", "quantifier": "all keys, messages, splittings, uninitialised memory, sequences of calls", "why_tests_cant": "all call sequences and messages", "anchors": ["src/hmac/hmac_encoder.cpp:HMACEncoder::get_digest,HMACEncoder::HMACEncoder", "include/libpgfe/hmac/hmac_encoder.hpp:HMACEncoder", "include/libpgfe/abstract_encoder.hpp:AbstractEncoder"]}
{"id": "C67", "title": "A digest collision contains a compression-function collision", "statement": "If two messages of supported length, fed in any pieces, have the same MD5, SHA-1, SHA-256 or SHA-512 digest but differ, then somewhere in the two computations the compression function was given two different (chaining value, block) pairs with the same result; for SHA-224, SHA-384 and SHA-512/t this holds unless the final chaining values differ and only agree in the bytes kept. In particular the library's wrong second padding block (C19-C21) adds no collisions of its own.", "quantifier": "all pairs of messages, all splittings, all contents of fresh memory", "why_tests_cant": "a statement about all pairs of colliding messages", "anchors": ["src/hashes/sha1.c", "src/hashes/sha2-backend.c", "src/hashes/md5.c"]}
{"id": "C68", "title": "Base encoding and decoding in pieces", "statement": "Encoding two byte strings after each other, the first one of whole units, and concatenating the texts gives the text of the concatenation. Decoding texts in pieces of whole groups gives the bytes of the whole text exactly when no piece but the last is cut at a zero byte: a piece whose last unit contains a zero byte loses the bytes from there on (violation: base64 of 01 00 02 03 04 05 decoded four characters at a time gives 01 03 04 05).", "quantifier": "all pairs of byte strings and texts, five encodings", "why_tests_cant": "all contents and all split points", "anchors": ["src/base_encoding/base-encoding-internal.c:encode_base_generic,decode_base_generic"]}
{"id": "C69", "title": "Sort order of base16 and base32hex texts", "statement": "base16 texts, and base32hex texts of whole units, compare (memcmp, strcmp) exactly like the data they encode, which is what RFC 4648 section 7 promises for base32hex; for partial units it does not hold: 01 00 sorts before 01 01 but its text after (violation).", "quantifier": "all pairs of byte strings", "why_tests_cant": "all pairs of inputs", "anchors": ["src/base_encoding/base16.c", "src/base_encoding/base32.c", "src/base_encoding/base-encoding-internal.c"]}
{"id": "C70", "title": "Hashing a stream, one read at a time", "statement": "Whatever the reads of pgfe_*_encode_f deliver, the digest is that of the bytes delivered up to and including the first result shorter than 1024 bytes, and nothing after it is consumed; for a file read without errors that is the digest of its content, and the stream is at its end. A read error is not reported: the output is exactly the one for the file cut off where the error occurred (violation).", "quantifier": "all sequences of read results, all algorithms, all contents of fresh memory", "why_tests_cant": "all ways a stream can be delivered, including failures at every point", "anchors": ["src/hashes/templates.h:FRONTEND_GEN2,FRONTEND_GEN3"]}
{"id": "C71", "title": "What a context holds after digest", "statement": "After digest a SHA-1 context holds nothing but the digest: its block buffer and length counter are zero, and equal digests leave equal contexts. SHA-2 and MD5 contexts keep the last partial block of the message and its length, so that short messages can be read back whole (violation of the wiping SHA-1 does); an HMAC context keeps the key's first block through any updates and digests.", "quantifier": "all messages, splittings, keys and call sequences", "why_tests_cant": "all secrets and all points where memory could be inspected", "anchors": ["src/hashes/templates.h:SHA_DIGEST", "src/hashes/sha2-backend.c", "src/hashes/md5.c:pgfe_md5_digest", "src/hmac/hmac.c"]}
{"id": "C72", "title": "Null pointers", "statement": "For MD5, SHA-1 and SHA-2, updates with a null input and digests with a null output, anywhere among the calls on a context, change nothing, calls on a null context do nothing, the one-shot function with null data gives the digest of the empty message and with null output does nothing. For SHA-3 and SHAKE this is not so: after any updates, an update with a null pointer and a length other than zero reads through it, and a digest into a null output writes through it (violation); with length zero it is harmless.", "quantifier": "all call sequences, all messages, all lengths", "why_tests_cant": "all positions of the null pointers in all histories", "anchors": ["src/hashes/templates.h:SHA_UPDATE,SHA_DIGEST", "src/hashes/md5.c", "src/hashes/sha2-backend.c", "src/hashes/keccak-backend.c:keccak_absorb_b1600,keccak_squeeze_b1600"]}
{"id": "C73", "title": "Encoders and OTP generators through their base classes", "statement": "reset and update of a HashEncoder called through AbstractEncoder or AbstractHashEncoder have the effect of the direct calls, in any mixture with them; get_digest through a base class returns a null pointer whatever was fed, where the direct call returns the digest (violation). generate and generate_str of a TOTP object called through HOTP or AbstractOTP give the HOTP code of the counter stored in the object: that of the last direct generate or set_counter, or uninitialised memory; the clock is never consulted (violation).", "quantifier": "all programs mixing direct calls and calls through base classes, all clocks", "why_tests_cant": "every mixture of calls and every moment of the clock", "anchors": ["include/libpgfe/abstract_encoder.hpp:AbstractEncoder", "include/libpgfe/hashes/hash_encoder.hpp:HashEncoder", "include/libpgfe/otp/abstract_otp.hpp:AbstractOTP", "include/libpgfe/otp/hotp.hpp:HOTP", "include/libpgfe/otp/totp.hpp:TOTP"]}
{"id": "C74", "title": "TOTP::remaining_time", "statement": "After a generate that updated the counter at time u, remaining_time counts down to the end of the step of u; within the step it is the number of seconds, between 1 and the interval, after which the code changes, and update_time is u. Once the step is over it is zero or negative, before the first generate it is minus the clock, and changing interval, initial time, secret or counter does not change it (violations).", "quantifier": "all settings, update times and clocks", "why_tests_cant": "all moments of the clock", "anchors": ["include/libpgfe/otp/totp.hpp:TOTP::remaining_time,TOTP::update_time", "src/otp/totp.cpp"]}
{"id": "C75", "title": "How long a digest returned by HashEncoder can be used", "statement": "The SequentialData that HashEncoder::get_digest returns a pointer to holds the digest until get_digest is called again on the same encoder or that encoder is destroyed, whatever is done with it and other encoders in between (reset and update included); after that, reading through the pointer uses freed memory. No digest is freed twice or leaked: at most one per living encoder exists, none when no encoder is left.", "quantifier": "all programs with any number of encoders, all moments at which the pointer is read", "why_tests_cant": "all interleavings of calls on several objects", "anchors": ["include/libpgfe/hashes/hash_encoder.hpp:HashEncoder", "src/hashes/hash_encoder.cpp:HashEncoder::get_digest,HashEncoder::~HashEncoder"]}
{"id": "C76", "title": "Equal HMAC tags reveal a collision", "statement": "If pgfe_hmac, or two HMACEncoder objects, give the same tag for two different pairs of key and message (keys being the same when their first block, continued with zeros, is), then the two inner or the two outer hash computations are a collision of the hash function: different texts, same digest. For MD5, SHA-1, SHA-256 and SHA-512 those computations contain a collision of the compression function; for the truncated SHA-2 functions that, or two different last chaining values with the same leading bytes. So without such a collision different messages, or keys that C65 does not identify, have different tags.", "quantifier": "all pairs of keys and messages, twelve hash functions, all contents of fresh memory", "why_tests_cant": "a statement about all pairs of colliding inputs", "anchors": ["src/hmac/hmac.c", "src/hmac/hmac_encoder.cpp", "src/hashes/sha1.c", "src/hashes/sha2-backend.c", "src/hashes/md5.c", "src/hashes/keccak-backend.c"]}
{"id": "C77", "title": "A set_secret call that throws", "statement": "Let any allocation fail in any calls of a history of set_secret, set_secret_from_base32 and set_counter calls on a HOTP object (or the HOTP part of a TOTP object), the program catching std::bad_alloc. Only calls in which an allocation fails throw; a call that throws leaves secret and counter as they were, so generate uses the last secret and the last counter of the calls that returned. But if memory ran out while a Base32 secret was being decoded, every later call with a Base32 secret waits for ever (violation); all other calls return.", "quantifier": "all histories of calls, every choice of the allocation that fails in each, all secrets, hash functions and digit counts", "why_tests_cant": "allocation failures at every point of every history", "anchors": ["src/otp/hotp.cpp", "src/otp/abstract_otp.cpp", "src/base_encoding/abstract_base_encoding.cpp"]}
{"id": "C78", "title": "A get_digest call that throws", "statement": "When memory runs out at the end of HashEncoder::get_digest or HMACEncoder::get_digest, the std::bad_alloc being caught, the call counts like one whose result was ignored: the object has been finished, no other object is affected, later supported calls return and give the digests of what their objects were fed, and the digest returned before stays readable. Asking the same object again does not give the digest (violation): the twelve functions of fixed size give another value, the extendable-output functions continue after the bytes that were lost, an HMACEncoder gives a tag that is not the HMAC.", "quantifier": "all programs using any number of encoders in which any get_digest calls throw; all algorithms, messages, arguments, memory contents", "why_tests_cant": "exceptions at every point of every history", "anchors": ["src/hashes/hash_encoder.cpp", "src/hmac/hmac_encoder.cpp"]}
{"id": "C79", "title": "Length extension", "statement": "For MD5, SHA-1, SHA-256 and SHA-512, the digest of a message, its length and any text x of one's own determine, by an explicit computation that does not use the message, the digest of the padded message followed by x. Where the padding depends on the length alone (always for MD5; for the others if the last block has room for it), the digest of a secret followed by a message therefore lets anyone who knows only the lengths compute the digest of the same secret followed by a longer message: a digest of secret and message is no authentication code (the HMAC functions must be used).", "quantifier": "all four functions, all secrets, messages and appended texts within the length limits, all ways of feeding them in pieces", "why_tests_cant": "a relation between the digests of all messages and all their extensions", "anchors": ["src/hashes/md5.c", "src/hashes/md5-backend.c", "src/hashes/sha1.c", "src/hashes/sha2-backend.c", "src/hashes/sha512.c"]}
{"id": "C80", "title": "The Keccak permutation loses nothing: states, messages and digests of SHA-3/SHAKE", "statement": "The permutation behind SHA-3 and SHAKE maps different states to different states. Hence for every one of the eight functions: if the contexts left behind by two digest calls hold the same state, the two messages were the same or the two computations contain an inner collision (two different sequences of blocks, absorbed before the last block, leading to states with the same capacity part); for messages shorter than one block the messages were the same, so the state a digest leaves in the context (which is not wiped, violation) tells which message was hashed; and if two different messages have the same digest, there is an inner collision or the final states differ while agreeing in the output.", "quantifier": "all eight functions and output lengths, all pairs of messages fed in any pieces, all previous contents of the contexts", "why_tests_cant": "ranges over all pairs of messages and of 1600-bit states", "anchors": ["src/hashes/keccak-backend.c", "src/hashes/sha3-256.c", "src/hashes/shake.c"]}
{"id": "C81", "title": "Variadic encode_multiple: sizes as size_t, or as int with a clean upper half", "statement": "A call of an encode_multiple function with input_c pairs of a pointer and a size computes the digest of the concatenation of the data at the non-null pointers when every size is passed as size_t, or as an int whose 64-bit argument slot has a zero upper half; further arguments are ignored. With an int size whose slot holds anything else in its upper half the call reads outside the data, at whichever position it occurs; with fewer than input_c pairs it reads arguments never passed. The HMAC digest functions pass two int constants: they compute the HMAC when both slots are clean, and otherwise have undefined behaviour for every algorithm, key and message (violation: nothing in the C standard makes the slots clean).", "quantifier": "all fixed-size hash functions, all lists of inputs, sizes, slot contents, keys and messages, all previous contents of the contexts and buffers", "why_tests_cant": "the content of the upper halves is up to the compiler and what the registers held before; a test sees one compilation, in which they happen to be zero", "anchors": ["src/hashes/templates.h", "src/hmac/hmac.c"]}
{"id": "C82", "title": "One TOTP object shared by several threads", "statement": "TOTP objects have no lock. Made one at a time (a lock around each call), generate calls by any number of threads give the password of a time shown by the clock during the call. Without a lock, generate calls still cause no undefined operation (taking every member access as indivisible) and every value is the password of a step at which the clock was read during the run, or of the counter the object held at the start; and while the clock stays within the step the object was last updated for, every value is the right one and the object does not change. Violations without a lock, each for every object state of the kind, key and time: between the assignments of another thread's update a thread gets the password of the old step, however long ago; on a new object it gets the password of the uninitialised counter; a thread late with its assignments leaves a counter of an earlier step behind, which calls made alone afterwards return; set_secret during a generate makes it read a deleted secret.", "quantifier": "all algorithms but MD5, all secrets up to a block, all numbers of threads and calls, all schedules at the granularity of member accesses, all clock readings, all orders of evaluation of operands", "why_tests_cant": "ranges over all interleavings of any number of threads; the bad ones need a switch between two particular assignments", "anchors": ["src/otp/totp.cpp", "src/otp/hotp.cpp", "src/otp/totp-internal.c", "include/libpgfe/otp/totp.hpp"]}
{"id": "C83", "title": "Input and output in one array", "statement": "The Base16/32/64 decoders, pgfe_hex_string_to_hash and pgfe_hash_string_clean may be given an output that lies in the same array as the text: if it begins at or before the text (decoding in place included) or after its NUL, the call returns the same value and writes the same bytes as with an output array of its own, including the cases without enough room. pgfe_hash_to_hex_string does so if its n input bytes lie before the output or begin at least n - 1 elements behind the beginning of the output; the base encoders likewise if no unit is overwritten before it was read (quantum - octets elements of distance for every unit but the last); Blowfish encryption and decryption if the output begins at or before the input or behind its end. Violations: encoding two units in place encodes, as second unit, characters of the first; Blowfish with the output one block behind the input encrypts the first block again and again and ignores the rest; printed in place, the second byte comes out as the code of the second digit of the first; with an output that begins one element after the text, Base64 decoding returns too many bytes.", "quantifier": "all five codings, all texts, all arrays and contents, all positions of text and output in the array", "why_tests_cant": "ranges over all overlaps; whether a write hits an unread character depends on lengths, ignored characters and the last partial group", "anchors": ["src/base_encoding/base-encoding-internal.c:decode_base_generic", "src/core/utils.c:pgfe_hex_string_to_hash", "src/core/utils.c:pgfe_hash_string_clean", "src/core/utils.c:pgfe_hash_to_hex_string", "src/base_encoding/base-encoding-internal.c:encode_base_generic", "src/fishes/blowfish.c:__blowfish_en_decrypt_generic"]}
{"id": "C84", "title": "Byte order of the machine", "statement": "The library is written for little-endian machines (README). With the byte order as a parameter, the little-endian instance computes what the other properties say. On a big-endian machine SHA-384, SHA-512, SHA-512/224 and SHA-512/256 compute, for every message and every way of splitting it, SHA-2 with the 32-bit halves of every round constant and initial word exchanged (so not the standard's digests), SHA-3, SHAKE and RawSHAKE compute, likewise for every message, splitting and output length in bytes, the FIPS 202 sponge with every 8 bytes reversed on their way in and on their way out (which is wrong already for the empty message), HOTP with MD5, SHA-1, SHA-224 and SHA-256 gives for a counter the password of the counter with its 8 bytes reversed, and Blowfish derives subkeys other than the published ones; yet Blowfish decryption on the same machine undoes encryption for every context, message and length.", "quantifier": "both byte orders; all messages, pieces and contexts; all counters, secrets and digit counts; all Blowfish keys, contexts and message lengths", "why_tests_cant": "test machines are little-endian; what a big-endian build computes must be known for all inputs, not by trying a few", "anchors": ["README.md", "src/hashes/sha2-backend.c:sha384n512_process_block", "src/hashes/sha512.c", "src/hashes/keccak-backend.c", "src/otp/hotp.c", "src/fishes/blowfish.c"]}
{"id": "C85", "title": "Output lengths in bits", "statement": "The SHAKE and RawSHAKE digest functions take an output length in bits, any size_t. For every message and every sequence of digest calls with any bit lengths the buffers are determined exactly: a request is taken modulo 2^32; only whole bytes are written, starting at the byte that contains the next bit of the stream, and the rest of the buffer stays as it was; at the end of a block of the rate the count starts at a byte again. So one call for d bits below 2^32 writes the first floor(d/8) bytes of the FIPS 202 output; if d is not a multiple of 8 the last bits are never delivered (violation: the buffer holds the FIPS 202 output only if its last byte held these bits before); a call for 2^32 bits writes nothing (violation); after two calls for 4 bits byte 0 has been skipped, and after a call for a length that is not a multiple of 8 the next call that crosses the end of a block loses the last byte of that block (violations).", "quantifier": "all four XOFs, all previous contents of the context, all messages and splittings, all sequences of digest and update calls after the first digest, all bit lengths, all buffer contents", "why_tests_cant": "every combination of bit lengths, stream positions and block boundaries is a different case; tests use whole bytes", "anchors": ["src/hashes/shake.c: pgfe_shake128_digest, pgfe_rawshake128_digest", "src/hashes/keccak-backend.c: keccak_squeeze_b1600", "include/libpgfe/hashes/sha3.h: struct pgfe_keccak_sponge_ctx"]}
{"id": "C86", "title": "What Blowfish ciphertexts show and do not protect", "statement": "For every key: two blocks of ciphertexts are equal exactly when the corresponding blocks of the zero-filled messages are, within a message and between messages, wherever they are. Two messages have the same ciphertext exactly when they take the same number of blocks and one is the other followed by zero bytes, so apart from trailing zeros encryption is injective. Every sequence of whole blocks is accepted by decrypt, and encrypting the result gives it back; blocks of two decrypted buffers are equal exactly when the blocks of the ciphertexts are, so a changed block damages only itself and blocks that are removed, repeated or exchanged are so in the message, undetected.", "quantifier": "all contexts, all pairs of messages or ciphertexts, all block positions, all scratch and output buffers", "why_tests_cant": "the claims are equivalences over all pairs of messages and positions and all keys", "anchors": ["src/fishes/blowfish.c: pgfe_blowfish_encrypt, pgfe_blowfish_decrypt, __blowfish_en_decrypt_generic"]}
{"id": "C87", "title": "Hash objects and threads", "statement": "SHA-1/SHA-2 objects. Threads that update different objects do not disturb each other under any schedule: no undefined behaviour that one thread alone would not have, and an object is afterwards as if its thread had been alone. If every update runs from start to end without another one in between (a lock held by the caller), each object is as if one thread had made the calls in that order. Without a lock one would want the same; it fails, even if every statement of the update loop took effect at once: as long as no block is completed the object is fed the data of the threads mixed byte by byte; every mixture happens under some schedule; the digest can be one that no order of the calls gives (\"ab\" and \"cd\" give the digest of \"acbd\"); and whenever the data of one thread completes a block, some schedule makes another thread write behind the end of the block array. MD5 and Keccak objects (SHA-3, SHAKE): separate objects and one call at a time as above. Shared without a lock, an MD5 object is never written outside its block, but two calls of the same length can leave it as if it had been fed the second one's data and as many bytes of whatever the block held before, so that uninitialised memory enters the digest; a SHA-3 object can lose the first call's data likewise, and two calls that would fill the queue only together can leave it in a state in which the next call, of any thread, reads outside its input.", "quantifier": "MD5, all seven SHA-1/SHA-2 and eight Keccak variants, all numbers of threads, objects and calls, all data, all schedules of the statements of the update loops", "why_tests_cant": "the claims range over all schedules, and the failing ones are rare in practice", "anchors": ["src/hashes/templates.h: SHA_UPDATE", "src/hashes/sha2-backend.c: sha384n512_update", "src/hashes/md5.c: pgfe_md5_update", "src/hashes/keccak-backend.c: keccak_absorb_b1600", "src/hashes/hash_encoder.cpp: HashEncoder::update"]}
{"id": "C88", "title": "Blowfish contexts and threads", "statement": "Blowfish contexts (the C functions and the Blowfish class). Threads may share contexts as long as none of them initialises a context another one uses: whatever the schedule of the single loads and stores, nothing undefined happens that one thread alone would not do, every call returns what it would return alone, and a thread that gets enough steps finishes whatever the others do. Contexts that nobody initialises never change. One would also want that initialising a context again with the key it already has does not disturb a thread that uses it, since the context is the same before and after; it does: in the middle of the initialisation P and the S-boxes are the ones before the expansion, and every block can be encrypted to a block that does not decrypt to it.", "quantifier": "all contexts, keys, blocks, buffers and data, all numbers of threads and calls, all schedules of single accesses to subkey words", "why_tests_cant": "the claims range over all schedules, and the failing ones are rare in practice", "anchors": ["src/fishes/blowfish.c: pgfe_blowfish_init, pgfe_blowfish_encrypt_unit, pgfe_blowfish_decrypt_unit, __blowfish_en_decrypt_generic", "src/fishes/blowfish.cpp"]}
{"id": "C89", "title": "Domain separation of SHA-3, SHAKE and RawSHAKE", "statement": "No two of the eight Keccak functions compute the same thing: whatever the two messages are (also for the same message), if the contexts that a digest call of the one and a digest call of the other leave behind hold the same state, then the two computations contain an inner collision (two different sequences of blocks, absorbed before the last block, leading to states that agree beyond the larger of the two rates). For messages shorter than the functions' blocks the states are never the same. If the outputs agree in any number of first bytes, there is such an inner collision or the final states are different and agree in that output.", "quantifier": "all pairs of two of the eight functions (an output length is not a difference), all output lengths, all pairs of messages fed in any pieces, all previous contents of the contexts and buffers", "why_tests_cant": "ranges over all pairs of messages and states; a test that two outputs differ says nothing about the next pair", "anchors": ["src/hashes/keccak-backend.c", "src/hashes/shake.c", "src/hashes/sha3-224.c", "src/hashes/sha3-256.c", "src/hashes/sha3-384.c", "src/hashes/sha3-512.c"]}
{"id": "C90", "title": "Digests of encoder objects and threads", "statement": "get_digest of HashEncoder and HMACEncoder returns a pointer to a SequentialData the object owns. Threads each of which asks only objects for digests that no other thread asks do not disturb each other, whatever the schedule: every thread reads through its pointers the digests its calls computed, exactly the runs that would be undefined if calls were indivisible and returned values are undefined, and afterwards every digest not deleted is owned by an object. The same holds for objects shared by the threads if a lock is held from the calls that feed the object to the end of reading the digest. Without a lock (violations, for each object and algorithm): two get_digest calls on an object that gave a digest before can delete that digest twice; on an object without one, a thread can be given the other thread's digest while its own is lost undeleted; and with a lock around each call but not around the reading, a thread can read a digest that the other's call deleted.", "quantifier": "all objects of the two classes, all numbers of threads, all programs of updates, resets, get_digest calls and reads, all schedules of the single accesses to the members that own digests", "why_tests_cant": "the claims range over all schedules, and the failing ones are rare in practice", "anchors": ["src/hashes/hash_encoder.cpp: HashEncoder::get_digest", "src/hmac/hmac_encoder.cpp: HMACEncoder::get_digest", "include/libpgfe/hmac/hmac_encoder.hpp"]}
{"id": "C91", "title": "Programs on a TOTP object", "statement": "A program makes a TOTP object, gives it settings in any order and as often as it likes (interval, initial time, secrets of every form, counters), and then asks for values (generate) and texts (generate_str) and sets new secrets, in any order. If the clock does not go backwards and is not before the initial time, then every request gives NotInitializedException when no secret was set before it, and otherwise the RFC 6238 value for the secret set last before it, the interval and the initial time set last, at a time at which the clock was read during that very request; generate_str gives its decimal text with exactly the digits asked for. Hence two objects with the same secret, interval and initial time (a device and a server), whatever their histories, give the same value when both are asked within one step. On any object in any state generate_str has the same effect on the object as generate and gives the text of its value.", "quantifier": "all programs of this form, all arguments, all fixed-size hash functions but MD5, all clock readings that do not go backwards", "why_tests_cant": "the claim is about every history of calls and every course of the clock", "anchors": ["src/otp/totp.cpp: TOTP::generate", "src/otp/totp.cpp: TOTP::set_interval", "src/otp/abstract_otp.cpp: AbstractOTP::generate_str", "include/libpgfe/otp/totp.hpp"]}
{"id": "C92", "title": "Ciphertexts as text", "statement": "A non-empty message is encrypted with Blowfish, the ciphertext is written as hexadecimal text or in one of the five base encodings, the text is decoded and the decoded bytes are decrypted. With hexadecimal and Base16 text the message (followed by its zero padding) always comes back. With Base32 and Base64, in both alphabets, it comes back exactly if no zero byte in the final unit of the ciphertext (5 or 3 bytes or what is left) is followed by a non-zero byte; otherwise bytes are lost without any error (violation): for every context and each of these encodings there are one-block messages for which the result differs from the message, whatever the memory used contains.", "quantifier": "all contexts, messages, encodings, buffers big enough and stack contents", "why_tests_cant": "the failing ciphertexts are about one in a hundred, and which they are depends on the key", "anchors": ["src/fishes/blowfish.c: __blowfish_en_decrypt_generic", "src/base_encoding/base64.c", "src/core/utils.c"]}
{"id": "C93", "title": "Digests as text", "statement": "A program feeds a HashEncoder (made or reset before, among any number of other encoders), asks for its digest and turns it into hexadecimal text with hex_str. For inputs on which the padding is the standard's (C19-C21) the text is the hexadecimal text of the standard's digest, two characters a byte; from_hex_string gives the digest back, and so does pgfe_hash_from_hex_str for the text in any letter case, with or without 0x and h. Two such texts are equal exactly if the digests are. Through one of the five base encodings the digest comes back exactly if it has no zero byte in the final unit of the encoding (1, 5 or 3 bytes, or what is left for it); otherwise it comes back shorter (violation): the SHA-1 digest of the text 25, which ends with a zero byte, survives none of them, whatever the memory contains.", "quantifier": "all algorithms, histories of encoder objects, data, pieces, encodings, buffers big enough and stack contents", "why_tests_cant": "the failing digests are one in 256 or a few times that, and which inputs have them is unpredictable; the claim ranges over all histories of the encoders", "anchors": ["src/hashes/hash_encoder.cpp: HashEncoder::get_digest", "src/core/sequential_data.cpp: SequentialData::hex_str", "src/core/utils.c", "src/base_encoding/base64.c"]}
{"id": "C94", "title": "Secrets typed in as Base32 text", "statement": "A one-time-password secret is given to a HOTP object as its Base32 text (the RFC's or the library's), through any of the four calls that take such text, at any point of a program after which no other secret is set. Then generate gives RFC 4226's password for what the decoder leaves of the secret: everything up to the first zero byte of its final group of five bytes, cut to the hash's block. For a secret of at most a block this is the same HMAC key exactly if no zero byte of the final group is followed by a non-zero one, and then every password is the one of the secret itself; likewise for a TOTP object, in every program of C91. Otherwise (violation) the passwords are those of another secret: all secrets that agree up to that zero byte share them, and for an ordinary 20-byte secret the first password is wrong.", "quantifier": "all standard fixed-size hashes but MD5, secrets, texts, programs of set_secret and set_counter calls, counters, digit counts and uninitialised memory", "why_tests_cant": "the failing secrets are about one in 64 random ones, the passwords they give look like any other, and the claim ranges over all secrets, programs and counters", "anchors": ["src/otp/hotp.cpp: HOTP::set_secret_from_base32, HOTP::generate", "src/otp/hotp.c", "src/base_encoding/base32.c"]}
{"id": "C95", "title": "HMAC keys kept as text", "statement": "An HMAC key is written as text in one of the five base encodings (the RFC's text or the library's), read back with the matching decoder, and the bytes the decoder counts are used as the key. For a key of at most a block of the hash this is the same HMAC key exactly if no zero byte of the final unit of the encoding (1, 5 or 3 bytes, or what is left for it) is followed by a non-zero one; then all tags, of pgfe_hmac and of HMACEncoder objects in every session, are the same as with the original key. With Base16 and with hexadecimal text in any letter case, with or without 0x and h, this is always so. Violation for Base32 and Base64: keys that differ only behind a zero byte of the final unit are read back as one, though HMAC distinguishes them, and for an ordinary 20-byte key a tag comes out wrong.", "quantifier": "all fixed-size hashes, encodings, keys, texts, messages, sessions of HMACEncoder calls, buffers big enough and uninitialised memory", "why_tests_cant": "the failing keys are a small fraction of random ones, and the claim ranges over all keys, messages and call sequences", "anchors": ["src/base_encoding/base64.c", "src/base_encoding/base32.c", "src/hmac/hmac.c", "src/hmac/hmac_encoder.cpp: HMACEncoder", "src/core/utils.c"]}
