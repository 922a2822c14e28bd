# libpgfe in Rocq (Coq 8.16.1): design

Target: chardon55/libpgfe, sources in /repo (C core + C++ wrappers). The code is never built or run here; the
model is a hand transcription, each definition citing the file and lines it models.

## 1. Shape of the development (rocq/theories)

| layer | files | contents |
|---|---|---|
| base | `Base.v` | outcome type, checked reads and writes, machine words as `N` with explicit wrap, list helpers |
| model | `M*.v` | function-by-function transcription of the code; definitions only |
| specification | `S*.v` | the standards (RFC 4648, RFC 1321, FIPS 180-4, FIPS 202, RFC 2104, RFC 4226/6238, Schneier's Blowfish) and the small specifications of the other properties; written from the standard's text, sharing nothing with the model but byte lists |
| proofs | `P*.v` | lemmas |
| theorems | `Prop*.v` | the property theorems (named after the property, `C06_...`), `Print Assumptions` after each, non-vacuity `Example`s beside them |

Reading order for one property: the `Cxx_*` theorem in `Prop*.v`, the `S*.v` definitions it names, the `M*.v` definitions of the
API functions it names.

### Conventions of the model
* `outcome A := Ret a | UB why | Hang`. Undefined behaviour (out-of-bounds access, signed overflow, division by zero, a read of an
  indeterminate value that matters, double free, null dereference) and non-termination are separate results, never assumed away.
* Words are `N` with the wrap written out (`u8`, `u16`, `u32`, `u64`); bytes are `N` (well-formedness `< 256` is a hypothesis of the
  theorems that need it). C strings are the memory at the pointer, with `upto_nul` the part before the NUL; buffers are lists and
  every access is checked against their length.
* Uninitialised memory is an explicit argument ("garbage"), universally quantified in theorems.
* A C function that mutates through a pointer returns the new value.
* C preprocessor templates (`templates.h`, `generic-internal.h`) become definitions with parameters, instantiated per algorithm. No
  functors or module types.
* Names: where the code violates a property, a theorem `_refuted` / `_violation` (or one that says exactly when undefined behaviour
  happens) states it, and the other theorems state the property on the largest domain on which it holds. `_nonvacuous` examples show
  concrete cases meeting the hypotheses.

### Assumed platform
LP64, little-endian (the code itself assumes this through `memcpy` into words), 32-bit `int`, 64-bit `size_t`, `time_t` = int64,
IEEE binary64 `double` with round-to-nearest-even, conversion to a narrower signed type modulo 2^n (gcc, clang), 8-bit bytes.

## 2. Per property: what is modelled, how it is proved

| property | model | specification | method |
|---|---|---|---|
| C01-C05 hex text | `MUtils.v` (utils.c: `to_hex`, `hex_to_hash`, `clean`, `hash_length`; utils.cpp `from_hex_string`), loops with checked indexing | `SHex.v`: positional value of digit strings | induction over the string, carrying nibble parity and accumulator |
| C06-C12 base encodings | `MBase.v`: `transform`, `unittostr`, encode and decode loops at buffer level, with the stack memory around the scratch array as an argument | `SRfc4648.v`: bit lists | regrouping per unit on symbolic bytes, lifted by induction over units; decode characterised by the list of digits |
| C13 cache sizes | `MCppSize.v`: the `ceil(len * 8/bits * 1.2)` computation in Flocq binary64 | integer inequality | error analysis of rounding, all lengths below 2^62 |
| C14-C16 C++ base objects | `MCppBase.v`: object + any number of threads, every program point a scheduling point, allocation failure at every allocation | `SCppBase.v`: what each call must return | invariant over arbitrary schedules; counterexample schedules for the lock leak; a well-founded measure for progress |
| C17-C18 MD5 | `MMd5.v` | `SMd5.v` (RFC 1321) | invariant "context = image of all data so far", any chunking |
| C19-C21, C24 SHA-1/SHA-2 | `MSha.v`, parametrised by algorithm | `SFips180.v`; `SShaLib.v` says what the library computes instead when the second padding block is wrong | as MD5; word lemmas in `PWords.v`; witnesses computed in the kernel |
| C25-C28 SHA-3/SHAKE | `MKeccak.v`: 25 lanes, byte queue, 32-bit bit counters | `SFips202.v`: bit-level state A[x,y,z], LFSR, pad10*1, sponge | testbit reasoning for the five step mappings, invariant for absorb and squeeze |
| C22, C23, C29-C31, C33, C58 front ends | `MFront.v`: `templates.h` (init/update/digest/encode/encode_default/encode_multiple/encode_f) over a record `hash_impl` | `SHash.v`, `SHashFns.v` | per-algorithm "sound table" then generic induction |
| C32 constants | the tables of `MSha.v`, `MMd5.v`, `MKeccak.v`, `MBlowfish.v` | `SConst.v`: fractional parts of roots of the first primes by integer roots, the FIPS 180-4 IV generation function, the FIPS 202 LFSR and walk, floor(2^32 abs(sin i)) over the reals, binary digits of pi over the reals | integer arithmetic; the sines by rational enclosures of the Taylor series proved in `PSin.v`; pi by integer bounds of the arctangent series in `PPi.v` (576 bits: the P-array; the 32768 bits of the S-boxes are too many for a check without VM) |
| C34-C38 HMAC | `MHmac.v`: hmac.c templates, `pgfe_hmac`, class HMACEncoder | `SHmac.v` (RFC 2104) | from the hash theorems; histories by induction |
| C39-C44 OTP functions | `MOtp.v` | `SOtp.v` (RFC 4226, RFC 6238) | truncation on byte lists; signed time arithmetic in `Z` |
| C45-C46 OTP objects | `MOtpObj.v`: classes HOTP and TOTP, clock readings as inputs | `SOtpObj.v` | histories by induction, invariant relating the stored counter to the time of its update |
| C47-C52, C60 Blowfish | `MBlowfish.v`: blowfish.c, class Blowfish, and the in-place call | `SBlowfish.v` (Schneier's description over total functions) | Feistel inverse for any tables; block loops by induction |
| C53-C55 HashEncoder | `MHashEnc.v`: explicit heap of contexts, any number of objects, allocation failures | `SHashEnc.v` | ownership invariant over histories; refinement to a list of data per object |
| C56, C57, C59 SequentialData, names, sizes | `MSeqData.v` | `SSeqData.v` | list reasoning; case analysis over the algorithms |
| C61-C63 base encodings, further | `MBase.v` | `SBaseText.v`: meaning of an arbitrary text | from the digit-list characterisation of the decoder |
| C64 hex texts with separators | `MUtils.v` (`MUtils2.v`: `pgfe_print_hash`, for C01) | `SHexText.v`: counting separators | from the nibble characterisation of C01-C05 |
| C65, C66 HMAC keys, repeated digests | `MHmac.v`, `MHmac2.v`: sessions of public calls on an HMACEncoder | `SHmac2.v`: key equivalence, HMAC with the inner hash replaced | pads from the zero-extended first block; second digests from C31 |
| C67 collisions | `MSha.v`, `MMd5.v` | `SMerkle.v`: where two chained computations collide | backwards induction over the blocks; the padded forms of two messages of different length end in different blocks |
| C68, C69 pieces, sort order of base texts | `MBase.v` | `SOrder.v`: lexicographic order | from C06 (texts) and C63 (meaning of a text) |
| C70 streams | `MFront2.v`: pgfe_*_encode_f one fread at a time | `SStream.v`: what the reads deliver, files with and without errors | induction over the reads, C29 for the digest |
| C71 residues | `MSha.v`, `MMd5.v`, `MHmac.v` | `SWipe.v`: last partial block, first block of a key | the padded last block is in the buffer; the pads xor the key |
| C72 null pointers | `MNull.v`: the checks of templates.h, md5.c, sha2-backend.c; a null pointer without check is a region of no bytes | `SNull.v`: data of a call sequence | calls with data reduce to C22; one loop step of absorb reads the region |
| C73 base classes | `MPoly.v`: which function a call through AbstractEncoder, HOTP or AbstractOTP runs (missing `override`s) | `SPoly.v`: the same program with direct calls | simulation by the direct calls, then C55; C46 for the stored counter |
| C74 remaining_time | `MOtpObj.v` | `SOtpObj.v`: time steps, object updated at a time | arithmetic of the steps |
| C75 lifetime of digests | `MLife.v`: the SequentialData objects owned by `HashEncoder::out`, reads through returned pointers | `SLife.v`: the calls that end a digest's life | ownership invariant (every live one belongs to exactly one living object) over all call sequences |
| C76 equal HMAC tags | as C34, C37, C38, C67 | `SHmac3.v`: inner and outer text, hash collision, traced to the compression function | injectivity of the keyed texts, C37/C38 for the tags, C67 for the two computations |
| C77 failing set_secret calls | `MFail.v`: the setters with the allocation that fails as a parameter, the Base32 member run step by step as in C14 | `SFail.v`: the calls that returned; the calls that threw while decoding | the invariant: the decode mutex is held exactly if some call threw while decoding; C46 for the last secret and counter |
| C78 get_digest that throws | `MFail2.v`: get_digest calls with a failing make_unique, on top of `MLife.v` and `MHmac2.v` | `SFail2.v`: the calls made, counting those that threw | simulation by the run in which the result is ignored (equal but for the member `out`), then C53, C55, C75; two digests in a row from C31 and C26 |
| C79 length extension | `MSha.v`, `MMd5.v` | `SExtend.v`: the computation from a digest and a length; the padding of a length | the chaining value is the digest; padding behind whole blocks; C17, C19-C21 for the digests |
| C80 Keccak permutation | `MKeccak.v` | `SSponge.v`: blocks absorbed, inner collision, on FIPS 202 bit strings | theta on column parities: the 64-th power of 1 + x^4 + x z^63 is 1 + x + x^4, checked to be injective; chi row by row; rho, pi, iota inverted; padding injective; C25, C26 invariants for the contexts |
| C81 variadic calls | `MVariadic.v`: 64-bit argument slots, va_arg, the loop of encode_multiple, the call in `hmac.c` | `SVariadic.v`: inputs meant, their slots | induction over the inputs to C30; keyed invariant of C34 for HMAC; violation by size bounds |
| C82 threads sharing a TOTP | `MTotpThreads.v`: one step per member access, clock reading or assignment; schedules choose thread, operand and time | `STotpThreads.v`: results for counters, calls one at a time | invariants over all schedules; a block of steps with one call refines the sequential call of C45; violations by explicit schedules for all states |
| C83 overlapping input and output | `MAlias.v`, `MAlias2.v`: the functions again (decoders, hex functions; base encoders, Blowfish), reading and writing one array at two indices | the call with an output array of its own (`MBase.v`, `MUtils.v`, `MBlowfish.v`) whose contents are the array from the output index on; `SAlias.v` | simulation: the unread text stays as it is because output never overtakes input; the bytes of a last partial unit that can fall on the NUL are 0 |
| C84 byte order | `MEndian.v`: the functions that copy between integers and bytes with memcpy, unions or pointer casts, with the byte order as a parameter | the little-endian models; `SEndian.v`: reversed bytes, exchanged halves, SHA-2 with the halves of its constants exchanged, the FIPS 202 sponge with the bytes of each lane reversed | pointwise equality for little-endian; big-endian tables as an `instance` of the swapped SHA-2 (then as C21); the sponge proof of C25 with the byte order as a parameter (`PSpongeOn.v`, `PSponge2On.v`); a Feistel network is undone by itself with the subkeys reversed, whatever its round function |
| C85 bits of XOF output | MKeccak (shake_digest, squeeze_loop: already for any bit count) | SXofBits: [delivered] and [expected] say which bytes of the FIPS 202 stream each call writes | invariant of the squeeze loop at bit position p (PXofBits), induction over the calls; FIPS 202 output of d bits as whole bytes plus a last partial byte |
| C86 Blowfish ECB | MBlowfish (blowfish_encrypt, blowfish_decrypt) | [block8], [filled] in PropBlowfish2 | block i of the output is the image of block i of the filled input (PBlowfish3), block encryption and decryption invert each other (C47) |
| C87 hash objects and threads | MHashThreads (ut_step: one statement of SHA_UPDATE of one thread; ut_run: a schedule), MHashThreads2 (the same for MD5 and Keccak) | SHashThreads ([mixed]); [one_at_a_time] and [finished] beside the theorems | what a thread has left to do, composed in one piece, is invariant under its own steps; for a shared object an invariant: the context is the original one with the bytes written so far, the lengths of threads between two statements not yet counted; schedules for every mixture by induction on [mixed]; the overflow by an explicit schedule; MD5 and Keccak: a machine parametrised by the statements of the update function, which are proved to do what the function does |
| C88 Blowfish contexts and threads | MBfThreads (a call as the sequence of its loads and stores of subkey words; bt_step: one access of one thread; bt_run: a schedule) | SBfThreads (the calls one after the other, by the functions of MBlowfish; [no_conflict]) | run alone, the access sequences are MBlowfish's functions; simulation of each thread by its run alone on the contexts it uses; the violation by an explicit schedule (reader: 16 rounds; initialiser: copy and key mixing; reader: P[16], P[17]; initialiser: the rest) |
| C89 domain separation | `MKeccak.v` | `SSponge.v`, as for C80 | the permutation is injective (C80); at equal rates the suffixes end differently at the same place of the padded messages; at different rates the larger one's last padding bit lies where the other writes nothing; C25, C26 invariants for the contexts |
| C90 digests and threads | MDigestThreads (get_digest as: digest function, make_unique, the three steps of the unique_ptr assignment, the returned pointer; g_step: one step of one thread; generic in the class, instances hash_kind and hmac_kind) | SDigestThreads (threads whose calls are indivisible and get digests by value; sections under a lock) | simulation; invariant: every pointer held by a member or a thread's local is live and held once; the violations by explicit schedules |
| C91 programs on a TOTP object | `MTotpProgram.v`: sessions of calls on a TOTP object with the answers of generate and generate_str | `STotpProgram.v`: settings as the last calls of their kind, right answers by position in the program | settings by induction from the right; requests by the invariant of C45 together with the secret of C46 |
| C92 ciphertexts as text | no new model: `MBlowfish.v`, `MBase.v`, `MUtils.v` one after the other | `zeros_at_end`, `with_padding` in `PropPipeline.v` | composes C48, C06, C08 and C01; the cut ciphertext is padded with zeros again by decryption, and decryption is injective |
| C93 digests as text | no new model: `MHashEnc.v`, `MSeqData.v`, `MUtils.v`, `MBase.v` one after the other | `fed`, `digest_of` in `PropDigestText.v` | composes C55, C56, C01, C06 and C08; all digests are byte sequences of the declared size |
| C94 secrets typed in as Base32 text | no new model: `MOtpObj.v`, `MCppBase.v`, `MBase.v`, `MOtp.v`, `MHmac.v` one after the other | `base32_text`, `enters`, `typed_in` in `PropSecretText.v` | composes C46, C08, C39, C65 and C91: the object's secret is the decoder's output, equality of HMAC keys decides when that matters |
| C95 HMAC keys kept as text | no new model: `MBase.v`, `MUtils.v`, `MHmac.v` one after the other | `same_tags` in `PropKeyText.v`, `same_key` of C65, `zeros_at_end` of C92 | composes C08, C01 and C65 |

All properties are expressible in the model; none is marked `not_applicable`. Violations found are part of the statements (see the
property list and the notes in MANIFEST.json).

## 3. Trusted base

* Coq 8.16.1's kernel (and `coqchk`, which rechecks all files). No plugins, no axioms of our own, no `Admitted`, no switched-off checks.
  `vm_compute` is used in some proofs; the independent check evaluates those without the VM.
* `Print Assumptions` (printed after every property theorem during the build):
  * "Closed under the global context" for all theorems except the following;
  * `ClassicalDedekindReals.sig_forall_dec`, `ClassicalDedekindReals.sig_not_dec`, `Classical_Prop.classic`,
    `FunctionalExtensionality.functional_extensionality_dep` (the standard library's axioms for the real numbers, through Flocq, whose
    executable binary64 operations carry proofs about reals) for `C13_*`, `C14_*`, `C15_*`, `C16_history_results`,
    `C16_history_independent`, `C46_hotp_history`, `C46_argument_order_refuted`, `C45_setup_is_fresh`, `C45_set_counter_refuted`, `C73_totp_is_hotp`, `C73_totp_stale_refuted`, `C74_settings_refuted`,
    `C77_*`, `C94_typed_secret`, `C94_secret_kept`, `C94_authenticator`, `C94_merged_refuted`, `C94_wrong_password_refuted`, `C91_totp_program`, `C91_two_parties`, `C91_settings_exist`
    (everything that runs the C++ base encoding objects, whose cache sizes are computed in `double`) `C32_md5_sines` (the sine function) and `C32_blowfish_P` (pi).
  * The sealed modules `Coq.ssr.ssrunder.Under_rel` and `Coq.Reals.Rdefinitions.RbaseSymbolsImpl` of the standard library show up as
    constants without a body when all loaded files are listed; no theorem uses the former.
* The transcription of the code (`M*.v`) and of the standards (`S*.v`); both are meant to be short enough to compare with the source. The
  specifications are tested on published vectors (`Example`s in the `S*.v` and `Prop*.v` files).

### Modelled
Every function of src/core/utils.c, utils.cpp, generic-internal.c, generic.cpp, sequential_data.cpp, algorithm_selectable.cpp,
abstract_symmetric_crypter.cpp; all of src/base_encoding; all of src/hashes (backends, the templates' front ends, HashEncoder);
src/hmac; src/otp; src/fishes; the tables of include/libpgfe/generic.hpp.

### Not modelled
* `operator<<`; stdio itself (a stream is the sequence of results its `fread` calls deliver, C70; elsewhere a file is the list of its bytes).
* Allocation failure outside the places where it is in the model (C++ base encoding caches and results, HashEncoder contexts, `set_secret`
  of the OTP classes (C77), the results of `get_digest` (C78)).
* Data races on one object by several threads except in the C++ base encoding classes, which are the ones with mutexes (C14–C16), TOTP (C82, with indivisible member accesses), hash contexts (C87) and Blowfish contexts (C88), both with indivisible word accesses in a single order; the digest members of HashEncoder and HMACEncoder objects (C90).
* Stack exhaustion (variable-length arrays), address-space limits beyond the stated length limits, timing and side channels.
* Linking and compilation (`inline` without external definition, missing `override`s are noted where they matter), CMake files, tests.
* The HMAC front end passes `int` constants where `va_arg` reads `size_t`; modelled as the values meant in `MHmac.v` (C34–C38), and at the level of 64-bit argument slots in `MVariadic.v` (C81).
* Simplifications are stated in the comment of the definition concerned.
