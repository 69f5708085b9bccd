{
 "claims": [
  {
   "property": "C01",
   "status": "proved",
   "theorems": [
    "C01_roundtrip",
    "C01_writer_accepts",
    "C01_exact_consumption"
   ],
   "note": "all values, any usize width up to 64 bits"
  },
  {
   "property": "C02",
   "status": "proved",
   "theorems": [
    "C02_canonical",
    "C02_injective",
    "C02_canonical_32_refuted"
   ],
   "note": "proved for 64-bit usize; refuted for 32-bit usize by C02_canonical_32_refuted (finding F1)"
  },
  {
   "property": "C03",
   "status": "proved",
   "theorems": [
    "C03_reader_sorted",
    "C03_sorted_unique",
    "C03_order_is_encoding_order",
    "C03_order_total",
    "C03_ctap2_order",
    "C03_ctap2_order_compound_refuted",
    "C03_map_constructor"
   ],
   "note": "agreement with the CTAP2 length-first order holds for keys without nested values; differs on compound keys (finding F2)"
  },
  {
   "property": "C04",
   "status": "proved",
   "theorems": [
    "C04_limit_exact",
    "C04_accepted_within",
    "C04_total",
    "C04_prefix_free"
   ],
   "note": ""
  },
  {
   "property": "C05",
   "status": "proved",
   "theorems": [
    "C05_destructure"
   ],
   "note": ""
  },
  {
   "property": "C06",
   "status": "proved",
   "theorems": [
    "C06_sender_framing",
    "C06_roundtrip"
   ],
   "note": ""
  },
  {
   "property": "C07",
   "status": "proved",
   "theorems": [
    "C07_foreign_inert",
    "C06_roundtrip"
   ],
   "note": "interleavings of foreign packets are part of the C06_roundtrip statement"
  },
  {
   "property": "C08",
   "status": "proved",
   "theorems": [
    "C08_bounds",
    "C09_provenance"
   ],
   "note": "exact announced length is part of C09_provenance"
  },
  {
   "property": "C09",
   "status": "proved",
   "theorems": [
    "C09_provenance",
    "C09_timeout"
   ],
   "note": ""
  },
  {
   "property": "C10",
   "status": "proved",
   "theorems": [
    "C10_unique",
    "C10_only_handed_out",
    "C10_device"
   ],
   "note": ""
  },
  {
   "property": "C11",
   "status": "proved",
   "theorems": [
    "C11_exclusive",
    "C11_duration",
    "C11_origin",
    "C11_only_holder",
    "C11_cross_transport"
   ],
   "note": ""
  },
  {
   "property": "C12",
   "status": "proved",
   "theorems": [
    "C12_init",
    "C12_compact",
    "C12_internal",
    "C12_user",
    "C12_padding",
    "C12_no_confusion"
   ],
   "note": "Every word built by format.rs parses back: page init and compact words, internal entries, user headers and values, padding and deleted headers; distinct entries have distinct words."
  },
  {
   "property": "C13",
   "status": "proved",
   "theorems": [
    "C13_init",
    "C13_compact",
    "C13_internal",
    "C13_user"
   ],
   "note": "For every bit subset between the erased word and the written word; for user entries the header with its footer checksum."
  },
  {
   "property": "C14",
   "status": "proved",
   "theorems": [
    "C14_bijection",
    "C14_monotone",
    "C14_successor",
    "C14_storage",
    "C14_range"
   ],
   "note": "Bijection, order, successor, placement in the physical pages and absence of 32-bit overflow, for every supported geometry."
  },
  {
   "property": "C15",
   "status": "proved",
   "theorems": [
    "C15_calls",
    "C15_transaction",
    "C15_insert",
    "C15_remove",
    "C15_clear",
    "C15_remove_handle",
    "C15_failed",
    "C15_no_capacity"
   ],
   "note": "For every state reachable by any history of calls, power losses and restarts on every supported geometry; storage errors other than power loss are not modelled. NoLifetime may be returned once the used lifetime passes the documented limit."
  },
  {
   "property": "C16",
   "status": "proved",
   "theorems": [
    "C16_histories",
    "C16_atomic",
    "C16_start"
   ],
   "note": "C16_histories covers whole histories with any number of interrupted calls and interrupted recoveries; every start succeeds. Calling recover on a store that is still in memory after a storage error is not modelled."
  },
  {
   "property": "C17",
   "status": "proved",
   "theorems": [
    "C17_compact",
    "C17_progress"
   ],
   "note": "Content kept by complete and interrupted compactions; within the capacity, compactions make the room asked for or the flash is worn out."
  },
  {
   "property": "C18",
   "status": "proved",
   "theorems": [
    "C18_call",
    "C18_start",
    "C18_wear",
    "C18_lifetime"
   ],
   "note": "The flash of the model counts the writes of each word since its page was erased and the erasures of each page, like the reference storage of buffer.rs does: only writes and erasures that complete are counted, so a write that power losses interrupt again and again counts once. Every operation in the log of a call or of a start respects the limits of the storage, and in every reachable state all counters are within the limits."
  },
  {
   "property": "C19",
   "status": "proved",
   "theorems": [
    "C19_read",
    "C19_read_range",
    "C19_write",
    "C19_delete",
    "C19_too_long",
    "C19_accepted",
    "C19_corrupt"
   ],
   "note": "over the abstract content of the store; writing the empty string reads back as absent (stated in C19_write)"
  },
  {
   "property": "C20",
   "status": "proved",
   "theorems": [
    "C20_history",
    "C20_too_long",
    "C20_accepted",
    "C20_no_panic"
   ],
   "note": ""
  },
  {
   "property": "C21",
   "status": "proved",
   "theorems": [
    "C21_write",
    "C21_erase",
    "C21_read",
    "C21_roundtrip",
    "C21_write_out",
    "C21_erase_out",
    "C21_read_out"
   ],
   "note": "For every geometry, for flash that clears bits and for storages that overwrite. Hardware failures and power loss (which the view does not resist, by its documentation) are not modelled; usize overflow of a read range that ends in the last page of the address space is not modelled. A byte written in the middle of a word can write this word three times after the erase."
  },
  {
   "property": "C22",
   "status": "proved",
   "theorems": [
    "C22_guesses_bounded",
    "C22_zero_retries"
   ],
   "note": "histories include store failures, power loss at any point and every interface"
  },
  {
   "property": "C23",
   "status": "partial",
   "theorems": [
    "C23_mismatches_per_cycle_partial",
    "C23_retries_per_cycle_refuted",
    "C23_store_faults_refuted"
   ],
   "note": "three mismatches per power cycle is proved when the store does not fail; both the claim about retries (finding F4) and the claim with a failing store (finding F5) are false and refuted by witnesses"
  },
  {
   "property": "C24",
   "status": "proved",
   "theorems": [
    "C24_pin_changes"
   ],
   "note": "covers every write, so every point at which power may be lost"
  },
  {
   "property": "C25",
   "status": "proved",
   "theorems": [
    "C25_make_credential",
    "C25_get_assertion",
    "C25_large_blob_write",
    "C25_one_rp",
    "C27_authorised",
    "C38_authorised"
   ],
   "note": "registration, assertion, large blob writes; configuration and credential management are C27_authorised and C38_authorised"
  },
  {
   "property": "C26",
   "status": "proved",
   "theorems": [
    "C26_minimum_grows",
    "C26_short_pin_no_token",
    "C24_pin_changes"
   ],
   "note": "that every stored PIN has the minimum length when stored is part of C24_pin_changes"
  },
  {
   "property": "C27",
   "status": "partial",
   "theorems": [
    "C27_authorised",
    "C27_failed_no_change_partial",
    "C27_failed_no_change_refuted"
   ],
   "note": "authorisation is proved in full; 'a request that fails leaves the state unchanged' is proved when the store does not fail and the RP ID list fits, and refuted for a list that is too long (finding F6)"
  },
  {
   "property": "C28",
   "status": "proved",
   "theorems": [
    "C28_invariant",
    "C28_change",
    "C28_register",
    "C28_delete",
    "C28_update",
    "C28_full",
    "C28_count"
   ],
   "note": "all histories, with power loss and store faults; finding by ID is part of C28_delete/C28_update; creation orders are distinct below 2^64 operations"
  },
  {
   "property": "C29",
   "status": "proved",
   "theorems": [
    "C29_disjoint",
    "C29_space",
    "C29_survive",
    "C29_named",
    "C29_fields"
   ],
   "note": "The table of keys of key.rs: pairwise disjoint, within the key space, every write of the authenticator uses a key of the table, exactly the attestation and the former AAGUID survive a reset, and (C29_fields) writes to the key-value store refine updates of the state used by the CTAP model, so that no field disturbs another."
  },
  {
   "property": "C30",
   "status": "proved",
   "theorems": [
    "C30_unwrap",
    "C30_total",
    "C30_only_sealed",
    "C30_accepted",
    "C30_usable",
    "C30_u2f"
   ],
   "note": "Pure sealing (unwrap_pure/wrap_pure) for all keys, IVs, contents; through the API over every history without reset, with power loss and store faults, for CTAP2 and U2F. AES/HMAC are parameters with the laws prims_ok."
  },
  {
   "property": "C31",
   "status": "proved",
   "theorems": [
    "C31_roundtrip",
    "C31_stored"
   ],
   "note": "Round trip for every credential record, and for everything any byte history stores."
  },
  {
   "property": "C32",
   "status": "partial",
   "theorems": [
    "C32_increases_partial",
    "C32_monotone",
    "C32_registration_refuted",
    "C32_next_refuted"
   ],
   "note": "Proved for assertions; C32 theorems with the suffix _refuted show the two places where the code does not move the counter: registrations, and each further assertion returned by getNextAssertion."
  },
  {
   "property": "C33",
   "status": "partial",
   "theorems": [
    "C33_presence",
    "C33_u2f_touch",
    "C33_u2f_dont_enforce_refuted"
   ],
   "note": "CTAP2 and touch-enforcing U2F are proved in full; refuted for U2F authentication without presence enforcement (finding F7)"
  },
  {
   "property": "C34",
   "status": "proved",
   "theorems": [
    "C34_verification",
    "C34_one_presence"
   ],
   "note": ""
  },
  {
   "property": "C35",
   "status": "proved",
   "theorems": [
    "C35_assertion",
    "C35_number",
    "C35_next",
    "C35_excluded",
    "C35_u2f",
    "C35_created"
   ],
   "note": "Assertions with and without allow list, getNextAssertion, the reported number, exclude list, U2F authentication and check-only; policy of new credentials."
  },
  {
   "property": "C36",
   "status": "partial",
   "theorems": [
    "C36_ranked",
    "C36_newest",
    "C36_first",
    "C36_next",
    "C36_complete",
    "C51_continuation",
    "C51_immediately_refuted"
   ],
   "note": "Ranking, first answer, every next answer, the end and (without store faults, in time, no extension output) success are proved for every history; that another CTAP2 command, another channel or 30 seconds end the enumeration is C51_continuation. Not true of the code: messages that are no CTAP2 command (U2F, unparsable) do not end it, see C51_immediately_refuted."
  },
  {
   "property": "C37",
   "status": "proved",
   "theorems": [
    "C37_sets",
    "C37_rps_first",
    "C37_rps_next",
    "C37_rps_complete",
    "C37_creds_first",
    "C37_creds_next",
    "C37_creds_complete"
   ],
   "note": "Sets, totals, each answer by rank, the end, and success in time without store faults."
  },
  {
   "property": "C38",
   "status": "proved",
   "theorems": [
    "C38_authorised"
   ],
   "note": "continuations of enumerations are C51"
  },
  {
   "property": "C39",
   "status": "proved",
   "theorems": [
    "C39_only",
    "C39_erases",
    "C39_all_or_nothing",
    "C39_new_keys",
    "C39_possible"
   ],
   "note": "Timing, disqualifying commands and presence: C39_only; that they are also sufficient when the storage does not fail: C39_possible. Erasure: C39_erases, C39_all_or_nothing (also when interrupted). Old credential ids: the keys sealing them are erased and every later key is drawn after the reset (C39_new_keys). That an old id does not verify under new random keys is then the security of HMAC, which is outside the model. Only CTAP2 commands disqualify: U2F and unparsable messages do not."
  },
  {
   "property": "C40",
   "status": "partial",
   "theorems": [
    "C40_read",
    "C40_written",
    "C40_valid",
    "C40_refused",
    "C40_completed",
    "C40_buffered_partial",
    "C40_buffered_refuted"
   ],
   "note": "Read, write, hash validation and refusal are proved for every history. The bound of the buffer by the announced length is proved for transfers that are not disturbed (C40_buffered_partial); C40_buffered_refuted shows that a refused message at offset 0 leaves its length behind."
  },
  {
   "property": "C41",
   "status": "proved",
   "theorems": [
    "C41_iso_accepted",
    "C41_accepted_only",
    "C41_no_panic",
    "C41_case_2E_refuted",
    "C41_u2f_exact"
   ],
   "note": "every ISO 7816-4 encoding except case 2E is accepted and parsed exactly; case 2E (extended Le only) is rejected, C41_case_2E_refuted (finding F3); no input panics"
  },
  {
   "property": "C42",
   "status": "proved",
   "theorems": [
    "C42_touch",
    "C42_works"
   ],
   "note": ""
  },
  {
   "property": "C43",
   "status": "proved",
   "theorems": [
    "C43_roundtrip",
    "C43_lengths",
    "C43_is_cbc"
   ],
   "note": "Over any block cipher whose decryption inverts encryption on 16-byte blocks."
  },
  {
   "property": "C44",
   "status": "proved",
   "theorems": [
    "C44_streaming",
    "C44_unique",
    "C44_chunking",
    "C44_primes"
   ],
   "note": "For every chunking of a message whose bit length fits 64 bits and whose byte length fits usize (otherwise the code panics); the constants are characterised as roots of primes and the specification is proved functional. This is the software implementation of libraries/crypto; hardware accelerators are not modelled."
  },
  {
   "property": "C45",
   "status": "proved",
   "theorems": [
    "C45_hmac",
    "C45_hkdf"
   ],
   "note": "Keys have 32 bytes by type; message lengths are below 2^32 minus the pads."
  },
  {
   "property": "C46",
   "status": "proved",
   "theorems": [
    "C46_add",
    "C46_add_digit",
    "C46_sub",
    "C46_compare",
    "C46_modular",
    "C46_modmul",
    "C46_modpow",
    "C46_bits",
    "C46_bytes_out",
    "C46_bytes_in",
    "C46_constants",
    "C46_uniform",
    "C46_curve",
    "C46_order_prime",
    "C46_inverse",
    "C46_product_nonzero"
   ],
   "note": "Products and powers for moduli whose highest digit is 0xffffffff, as the code requires. Inversion is proved to be the power n - 2. The Montgomery form is in C57 and point arithmetic in C58."
  },
  {
   "property": "C47",
   "status": "proved",
   "theorems": [
    "C47_decrypt",
    "C47_verify",
    "C47_shared_verify",
    "C47_agree"
   ],
   "note": "Symmetry of ECDH and validity of public points are hypotheses (the curve arithmetic is a parameter)."
  },
  {
   "property": "C48",
   "status": "proved",
   "theorems": [
    "C48_exact",
    "C48_exact_first",
    "C48_long_lower",
    "C48_gap_needed"
   ],
   "note": "exact inside the horizon stated in the theorem; C48_gap_needed shows that the horizon is needed"
  },
  {
   "property": "C49",
   "status": "proved",
   "theorems": [
    "C49_confined",
    "C49_running",
    "C49_metadata",
    "C49_identity",
    "C49_complete",
    "C49_applied"
   ],
   "note": "For every sequence of vendor messages and every failure or interruption of flash driver calls: only the other partition and its metadata page are written; a changed metadata page means acceptable, signed metadata; success means the data is in flash and, for the last part, that the hash matches. Signature verification and SHA-256 are parameters."
  },
  {
   "property": "C50",
   "status": "proved",
   "theorems": [
    "C50_boot",
    "C50_version",
    "C50_signed"
   ],
   "note": "The bootloader boots the newest valid partition; over any number of boots, messages and interruptions the version never decreases; C50_signed: what is booted is signed, provided no metadata page is left half written and the initial pages are signed or blank."
  },
  {
   "property": "C51",
   "status": "partial",
   "theorems": [
    "C51_one_answer",
    "C51_continuation",
    "C51_immediately_refuted"
   ],
   "note": "totality and the guard on continuations are proved; the word 'immediately' of the property is refuted by C51_immediately_refuted: messages that are no CTAP2 commands (unparsable ones, U2F) may come in between (finding F8). Panic freedom is for histories whose provisioned attestation keys are valid scalars"
  },
  {
   "property": "C52",
   "status": "proved",
   "theorems": [
    "C52_der",
    "C52_der_unique",
    "C52_raw",
    "C52_range",
    "C52_key"
   ],
   "note": ""
  },
  {
   "property": "C53",
   "status": "proved",
   "theorems": [
    "C53_wink"
   ],
   "note": ""
  },
  {
   "property": "C54",
   "status": "proved",
   "theorems": [
    "C54_output",
    "C54_next",
    "C54_stable"
   ],
   "note": "The primitives (HMAC, HKDF, AES, ECDH) are parameters with the laws of prims_ok. C54_next covers getNextAssertion."
  },
  {
   "property": "C55",
   "status": "proved",
   "theorems": [
    "C55_names",
    "C55_verified"
   ],
   "note": "Read from the flags byte of the answer itself."
  },
  {
   "property": "C56",
   "status": "proved",
   "theorems": [
    "C56_cipher",
    "C56_inverse",
    "C56_standard",
    "C56_cbc_encrypt",
    "C56_cbc_decrypt",
    "C56_cbc_round_trip",
    "C56_software",
    "C56_software_blocks",
    "C56_software_cbc"
   ],
   "note": "The S-box is specified as inversion in GF(2^8) followed by the affine map, the key schedule and both ciphers as in FIPS 197. Lengths of keys and blocks are by type in the code. Erasing round keys from memory is not modelled."
  },
  {
   "property": "C57",
   "status": "proved",
   "theorems": [
    "C57_one_element",
    "C57_modulus_prime",
    "C57_constants",
    "C57_add",
    "C57_sub",
    "C57_multiples",
    "C57_is_zero",
    "C57_mul",
    "C57_square",
    "C57_inv",
    "C57_checked_same",
    "C57_checked_mul_refuted",
    "C57_to_montgomery",
    "C57_from_montgomery",
    "C57_from_montgomery_refuted"
   ],
   "note": "Two findings: C57_checked_mul_refuted (a product of field elements panics in a build with overflow checks, which release builds do not have) and C57_from_montgomery_refuted (the conversion to an integer drops a carry for limbs at or above 2^257, which sums may give; the callers only convert products). Running time and constant-time behaviour are not modelled."
  },
  {
   "property": "C58",
   "status": "proved",
   "theorems": [
    "C58_group",
    "C58_inverse",
    "C58_order",
    "C58_add",
    "C58_add_mixed",
    "C58_coordinates",
    "C58_table",
    "C58_base_mul",
    "C58_mul",
    "C58_points_mul",
    "C58_points_mul_refuted"
   ],
   "note": "Without overflow checks, as in release builds. Finding: C58_points_mul_refuted (0 G + P is not P, because scalar_base_mul of zero gives the projective point (0, 0, 1)). Constant-time behaviour is not modelled."
  },
  {
   "property": "C59",
   "status": "partial",
   "theorems": [
    "C59_public_key",
    "C59_sign",
    "C59_standard",
    "C59_verify_hash_partial",
    "C59_verify_partial",
    "C59_sign_rfc6979",
    "C59_sign_rng",
    "C59_verify_hash_refuted"
   ],
   "note": "Without overflow checks, as in release builds. Missing: verification when the hash is a multiple of n, where the claim is false of the code (C59_verify_hash_refuted: with a hash of 32 zero bytes a valid signature is refused, through C58_points_mul_refuted). That the loops of signing end is a matter of probability and not modelled: sign_rng takes the list of draws, sign_rfc6979 a number of rounds. Constant-time behaviour is not modelled."
  },
  {
   "property": "C60",
   "status": "partial",
   "theorems": [
    "C60_pin_protocols_partial",
    "C60_from_coordinates",
    "C60_public_key_travels_partial",
    "C60_from_coordinates_refuted",
    "C60_exchange",
    "C60_agreement"
   ],
   "note": "Finding: C60_from_coordinates_refuted (the two points of the curve with x = 0 are refused, so a public key with x = 0 would not be read back; C60_public_key_travels_partial excludes it). That such a public key, if it exists, is found with probability 2^-255 is outside the model. Constant-time behaviour is not modelled. C60_pin_protocols_partial states the agreement for the PIN/UV auth protocols of CTAP."
  },
  {
   "property": "C61",
   "status": "partial",
   "theorems": [
    "C61_candidates",
    "C61_rfc6979_partial",
    "C61_rfc6979_refuted"
   ],
   "note": "Proved when the first candidate of RFC 6979 gives a signature (probability 1 - 2^-32). Otherwise the claim is false of the code: C61_rfc6979_refuted (Rfc6979::next derives the next key from the old V instead of the candidate). The signature is still valid (C59_sign_rfc6979)."
  },
  {
   "property": "C62",
   "status": "proved",
   "theorems": [
    "C62_registered",
    "C62_u2f",
    "C62_assertion"
   ],
   "note": "For machines of 64 bits and messages below 2^61 bytes. The model of signing takes a number of candidates for the nonce and answers with no bytes when none of them gives a signature, where the code would try the next; the theorems are about answers with a signature. Ed25519 is a parameter. The success of a CTAP2 registration is shown to be reachable with the small primitives only (C30_nonvacuous); with the library primitives CTAP1 registration, CTAP1 authentication and a CTAP2 assertion are (C62_nonvacuous)."
  },
  {
   "property": "C63",
   "status": "proved",
   "theorems": [
    "C63_outcomes",
    "C63_confirmed",
    "C63_cancel",
    "C63_timeout",
    "C63_others",
    "C63_busy_refuted"
   ],
   "note": "The durations of the calls are inputs; the bounds on time assume that waits and sends keep to their timeouts. A packet of another client that arrives meanwhile is dropped without the busy error: C63_busy_refuted (finding F17)."
  },
  {
   "property": "C64",
   "status": "proved",
   "theorems": [
    "C64_conversation",
    "C64_one_at_a_time",
    "C64_complete"
   ],
   "note": "The USB driver is an input: for each iteration it says what it did and how long it took. A panic of the firmware stops the loop; the reply is then unfinished. Keepalives sent while a request waits for the user are C63."
  },
  {
   "property": "C65",
   "status": "proved",
   "theorems": [
    "C65_history",
    "C65_exchange",
    "C65_u2f",
    "C65_init"
   ],
   "note": "C65_exchange is about the main endpoint, no lock in force at the start and no packets on the vendor endpoint meanwhile. Responses over 7609 bytes are replaced by an error (C06). The process of waiting for the user is one step here; its packets are C63."
  },
  {
   "property": "C66",
   "status": "proved",
   "theorems": [
    "C66_permanent",
    "C66_provisioned",
    "C66_rest",
    "C66_no_enterprise",
    "C66_answer",
    "C66_installs",
    "C66_main_endpoint",
    "C66_upgrades"
   ],
   "note": "lock_firmware_protection is a stub that returns false in this code base, hence a lockdown never succeeds (in C66_answer). The presence check is the compiled one (not feature std). The upgrade commands are those of Upgrade/ (C66_upgrades)."
  },
  {
   "property": "C67",
   "status": "partial",
   "theorems": [
    "C67_answered_partial",
    "C67_answered_refuted",
    "C67_usable_key_refuted"
   ],
   "note": "False as stated. An empty message panics wherever vendor commands are taken (C67_answered_refuted, finding F18), and a provisioned key that ECDSA refuses makes every U2F registration panic (C67_usable_key_refuted, finding F19). C67_answered_partial proves that nothing else does."
  },
  {
   "property": "C68",
   "status": "proved",
   "theorems": [
    "C68_new",
    "C68_places",
    "C68_read",
    "C68_write",
    "C68_erase",
    "C68_empty_refuted",
    "C68_call",
    "C68_start",
    "C68_words",
    "C68_interrupted"
   ],
   "note": "C68_call and C68_start connect the model of the kernel, libtock and TockStorage to the store's model of Store/ (do_call, boot), C68_interrupted connects power loss. A slice of no bytes at the end of the last page is refused although it is in bounds (C68_empty_refuted, finding F22); the statements about slices ask for an offset inside a page."
  },
  {
   "property": "C69",
   "status": "partial",
   "theorems": [
    "C69_confined_partial",
    "C69_confined_refuted",
    "C69_library",
    "C69_simulated",
    "C69_messages",
    "C69_running",
    "C69_applied",
    "C69_available_partial",
    "C69_stuck",
    "C69_starved",
    "C69_available_refuted"
   ],
   "note": "False as stated in two points. The filter checks the length that a command names and the driver writes the whole allowed slice (C69_confined_refuted, finding F20); C69_confined_partial covers commands whose length covers the slice, which is all that the repository's code issues (C69_library). One vendor message makes the flash unavailable until a restart (C69_stuck, C69_starved, C69_available_refuted, finding F21); C69_available_partial covers messages with whole words, at most a page each. C69_simulated and C69_messages carry C49 and C50 over to the kernel."
  },
  {
   "property": "C70",
   "status": "partial",
   "theorems": [
    "C70_received",
    "C70_complete_partial",
    "C70_woken",
    "C70_fair",
    "C70_given",
    "C70_reported_partial",
    "C70_panic_partial",
    "C70_panic_refuted",
    "C70_panic_prompt_refuted",
    "C70_panic_race_refuted",
    "C70_complete_refuted",
    "C70_not_sent_refuted",
    "C70_reported_refuted",
    "C70_error_refuted",
    "C70_received_refuted"
   ],
   "note": "C70_received, C70_woken, C70_fair and C70_given hold for every schedule (the first three as long as no call returned an error). False as stated beyond that: the kernel can panic (C70_panic_refuted, C70_panic_prompt_refuted, C70_panic_race_refuted, finding F23), a packet can be lost at a timeout (C70_complete_refuted), with two endpoints a packet may be reported as sent that the host did not get and a call may be refused (C70_reported_refuted, C70_error_refuted, finding F24), and a call that received a packet may still have sent its own (C70_not_sent_refuted, finding F25). C70_panic_partial, C70_complete_partial and C70_reported_partial are what holds."
  },
  {
   "property": "C71",
   "status": "partial",
   "theorems": [
    "C71_digest_partial",
    "C71_again_partial",
    "C71_digest_refuted",
    "C71_reuse_refuted",
    "C71_bootloader",
    "C71_boot"
   ],
   "note": "The hardware is described by what the driver relies on. The bootloader's use is proved in full (C71_bootloader, C71_boot). In general an empty piece ends the message although its size is a multiple of 64 (C71_digest_refuted), and a driver that was cleared cannot be used again (C71_reuse_refuted, finding F26); C71_digest_partial and C71_again_partial exclude both."
  },
  {
   "property": "C72",
   "status": "partial",
   "theorems": [
    "C72_confirmed",
    "C72_timeout",
    "C72_zero",
    "C72_not_ignored",
    "C72_ends",
    "C72_touch",
    "C72_listens",
    "C72_clean",
    "C72_panic_partial",
    "C72_panic_refuted",
    "C72_between_refuted",
    "C72_early_refuted",
    "C72_presence",
    "C72_whole"
   ],
   "note": "Everything but the absence of panics is proved for every interleaving that starts between two calls. The call can panic although no system call fails: the alarm goes off after the touch and before the alarm is stopped (C72_panic_refuted, finding F27); C72_panic_partial says that this is the only way. Also refuted: that touches between two waits of one presence check count (C72_between_refuted, F28), and that a failed call leaves no alarm behind (C72_early_refuted, F29). C72_presence and C72_whole join the calls of one request: check_user_presence (C63) on the hardware, with whatever happens between the calls."
  },
  {
   "property": "C73",
   "status": "partial",
   "theorems": [
    "C73_recover_partial",
    "C73_recover_refuted",
    "C73_continue_refuted"
   ],
   "note": "C73_recover_partial holds whatever the store has in memory, unless a compaction is under way in the flash while entries are in memory. In that case recover may be refused (C73_recover_refuted, finding F30). If the store is used without recover, as the firmware does, a successful insertion may be lost at the next restart (C73_continue_refuted, finding F31)."
  },
  {
   "property": "C74",
   "status": "partial",
   "theorems": [
    "C74_filled",
    "C74_failed",
    "C74_clean",
    "C74_ends",
    "C74_once",
    "C74_silent_refuted"
   ],
   "note": "Everything is proved for the function that fills the buffer. That a failed request is not taken for random is refuted: fill_bytes drops the result, and a key of zeros is returned (C74_silent_refuted, finding F32); C74_failed says that this needs a failing system call."
  },
  {
   "property": "C75",
   "status": "proved",
   "theorems": [
    "C75_endurance",
    "C75_counter",
    "C75_ten_years"
   ],
   "note": "The documentation's own formula promises slightly more increments (1.96 million) than the bound proved (1.84 million on a new device); its use, 500 per day for ten years, is proved. The sequence has no power loss inside: after one, the theorem applies again with the lifetime then used."
  },
  {
   "property": "C76",
   "status": "proved",
   "theorems": [
    "C76_certificate",
    "C76_enterprise",
    "C76_enabled",
    "C76_one_kind",
    "C76_u2f"
   ],
   "note": "U2F registrations always present the batch certificate, whatever use_batch_attestation says (C76_u2f): the statement about customization is for CTAP2. An attestation key is ECDSA P-256, as in the code."
  },
  {
   "property": "C77",
   "status": "partial",
   "theorems": [
    "C77_assumed",
    "C77_exact",
    "C77_pin_usable_refuted",
    "C77_pin_usable_partial"
   ],
   "note": "That a PIN is usable is refuted: max_pin_retries = 0 passes the check, and then every PIN is blocked as soon as it is set (C77_pin_usable_refuted, finding F33). With at least one attempt it is proved (C77_pin_usable_partial). The bound on resident keys is tested elsewhere in the repository and is a hypothesis."
  },
  {
   "property": "C78",
   "status": "proved",
   "theorems": [
    "C78_set_pin",
    "C78_token",
    "C78_token_permissions",
    "C78_after_restart"
   ],
   "note": "Assumes that the storage does not fail (a failed storage operation ends the request with an error) and the laws of the cryptographic primitives (prims_ok). That both sides derive the same shared secret is C47_agree."
  },
  {
   "property": "C79",
   "status": "proved",
   "theorems": [
    "C79_register",
    "C79_login",
    "C79_u2f_register",
    "C79_u2f_login"
   ],
   "note": "Assumes that the storage does not fail, the laws of the cryptographic primitives (prims_ok), that drawn bytes are ECDSA keys (a draw is outside the range with probability below 2^-32; then the request ends with an error), and with batch attestation that its key is provisioned. Credentials that the device stores are C80; exclude lists and hmac-secret are not part of the claim."
  },
  {
   "property": "C80",
   "status": "proved",
   "theorems": [
    "C80_delete",
    "C80_register",
    "C80_place",
    "C80_login",
    "C80_update"
   ],
   "note": "Assumes that the storage does not fail (its physical capacity is C75), the laws of the cryptographic primitives (prims_ok), that drawn bytes are ECDSA keys, and with batch attestation that its key is provisioned. Exclude lists and hmac-secret are not part of the claim."
  },
  {
   "property": "C81",
   "status": "proved",
   "theorems": [
    "C81_info",
    "C81_retries",
    "C81_metadata",
    "C81_key"
   ],
   "note": "Assumes that the storage does not fail. That the told room can be used is C80_register; that the told attempts are there is C22 and C78."
  },
  {
   "property": "C82",
   "status": "proved",
   "theorems": [
    "C82_min_pin",
    "C82_toggle"
   ],
   "note": "Assumes that the storage does not fail and the laws of the cryptographic primitives. Who may not is C27."
  }
 ]
}