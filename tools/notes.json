{
 "C01": {
  "status": "proved",
  "note": "all values, any usize width up to 64 bits"
 },
 "C02": {
  "status": "proved",
  "note": "proved for 64-bit usize; refuted for 32-bit usize by C02_canonical_32_refuted (finding F1)"
 },
 "C03": {
  "status": "proved",
  "note": "agreement with the CTAP2 length-first order holds for keys without nested values; differs on compound keys (finding F2)"
 },
 "C04": {
  "status": "proved",
  "note": ""
 },
 "C05": {
  "status": "proved",
  "note": ""
 },
 "C07": {
  "status": "proved",
  "note": "interleavings of foreign packets are part of the C06_roundtrip statement",
  "also": [
   "C06_roundtrip"
  ]
 },
 "C08": {
  "status": "proved",
  "note": "exact announced length is part of C09_provenance",
  "also": [
   "C09_provenance"
  ]
 },
 "C41": {
  "status": "proved",
  "note": "every ISO 7816-4 encoding except case 2E is accepted and parsed exactly; case 2E (extended Le only) is rejected, C41_case_2E_refuted (finding F3); no input panics"
 },
 "C42": {
  "status": "proved",
  "note": ""
 },
 "C48": {
  "status": "proved",
  "note": "exact inside the horizon stated in the theorem; C48_gap_needed shows that the horizon is needed"
 },
 "C19": {
  "status": "proved",
  "note": "over the abstract content of the store; writing the empty string reads back as absent (stated in C19_write)"
 },
 "C20": {
  "status": "proved",
  "note": ""
 },
 "C22": {
  "status": "proved",
  "note": "histories include store failures, power loss at any point and every interface"
 },
 "C24": {
  "status": "proved",
  "note": "covers every write, so every point at which power may be lost"
 },
 "C26": {
  "status": "proved",
  "note": "that every stored PIN has the minimum length when stored is part of C24_pin_changes",
  "also": [
   "C24_pin_changes"
  ]
 },
 "C23": {
  "status": "partial",
  "note": "three mismatches per power cycle is proved when the store does not fail; both the claim about retries (finding F4) and the claim with a failing store (finding F5) are false and refuted by witnesses"
 },
 "C25": {
  "status": "proved",
  "note": "registration, assertion, large blob writes; configuration and credential management are C27_authorised and C38_authorised",
  "also": [
   "C27_authorised",
   "C38_authorised"
  ]
 },
 "C27": {
  "status": "partial",
  "note": "authorisation is proved in full; 'a request that fails leaves the state unchanged' is proved when the store does not fail and the RP ID list fits, and refuted for a list that is too long (finding F6)"
 },
 "C33": {
  "status": "partial",
  "note": "CTAP2 and touch-enforcing U2F are proved in full; refuted for U2F authentication without presence enforcement (finding F7)"
 },
 "C34": {
  "status": "proved",
  "note": ""
 },
 "C38": {
  "status": "proved",
  "note": "continuations of enumerations are C51"
 },
 "C28": {
  "status": "proved",
  "note": "all histories, with power loss and store faults; finding by ID is part of C28_delete/C28_update; creation orders are distinct below 2^64 operations"
 },
 "C51": {
  "status": "partial",
  "note": "totality and the guard on continuations are proved; the word 'immediately' of the property is refuted by C51_immediately_refuted: messages that are no CTAP2 commands (unparsable ones, U2F) may come in between (finding F8). Panic freedom is for histories whose provisioned attestation keys are valid scalars"
 },
 "C36": {
  "status": "partial",
  "note": "Ranking, first answer, every next answer, the end and (without store faults, in time, no extension output) success are proved for every history; that another CTAP2 command, another channel or 30 seconds end the enumeration is C51_continuation. Not true of the code: messages that are no CTAP2 command (U2F, unparsable) do not end it, see C51_immediately_refuted.",
  "also": [
   "C51_continuation",
   "C51_immediately_refuted"
  ]
 },
 "C37": {
  "status": "proved",
  "note": "Sets, totals, each answer by rank, the end, and success in time without store faults."
 },
 "C39": {
  "status": "proved",
  "note": "Timing, disqualifying commands and presence: C39_only; that they are also sufficient when the storage does not fail: C39_possible. Erasure: C39_erases, C39_all_or_nothing (also when interrupted). Old credential ids: the keys sealing them are erased and every later key is drawn after the reset (C39_new_keys). That an old id does not verify under new random keys is then the security of HMAC, which is outside the model. Only CTAP2 commands disqualify: U2F and unparsable messages do not."
 },
 "C30": {
  "status": "proved",
  "note": "Pure sealing (unwrap_pure/wrap_pure) for all keys, IVs, contents; through the API over every history without reset, with power loss and store faults, for CTAP2 and U2F. AES/HMAC are parameters with the laws prims_ok."
 },
 "C31": {
  "status": "proved",
  "note": "Round trip for every credential record, and for everything any byte history stores."
 },
 "C35": {
  "status": "proved",
  "note": "Assertions with and without allow list, getNextAssertion, the reported number, exclude list, U2F authentication and check-only; policy of new credentials."
 },
 "C43": {
  "status": "proved",
  "note": "Over any block cipher whose decryption inverts encryption on 16-byte blocks."
 },
 "C47": {
  "status": "proved",
  "note": "Symmetry of ECDH and validity of public points are hypotheses (the curve arithmetic is a parameter)."
 },
 "C29": {
  "status": "proved",
  "note": "The table of keys of key.rs: pairwise disjoint, within the key space, every write of the authenticator uses a key of the table, exactly the attestation and the former AAGUID survive a reset, and (C29_fields) writes to the key-value store refine updates of the state used by the CTAP model, so that no field disturbs another."
 },
 "C32": {
  "status": "partial",
  "note": "Proved for assertions; C32 theorems with the suffix _refuted show the two places where the code does not move the counter: registrations, and each further assertion returned by getNextAssertion."
 },
 "C40": {
  "status": "partial",
  "note": "Read, write, hash validation and refusal are proved for every history. The bound of the buffer by the announced length is proved for transfers that are not disturbed (C40_buffered_partial); C40_buffered_refuted shows that a refused message at offset 0 leaves its length behind."
 },
 "C49": {
  "status": "proved",
  "note": "For every sequence of vendor messages and every failure or interruption of flash driver calls: only the other partition and its metadata page are written; a changed metadata page means acceptable, signed metadata; success means the data is in flash and, for the last part, that the hash matches. Signature verification and SHA-256 are parameters."
 },
 "C50": {
  "status": "proved",
  "note": "The bootloader boots the newest valid partition; over any number of boots, messages and interruptions the version never decreases; C50_signed: what is booted is signed, provided no metadata page is left half written and the initial pages are signed or blank."
 },
 "C44": {
  "status": "proved",
  "note": "For every chunking of a message whose bit length fits 64 bits and whose byte length fits usize (otherwise the code panics); the constants are characterised as roots of primes and the specification is proved functional. This is the software implementation of libraries/crypto; hardware accelerators are not modelled."
 },
 "C45": {
  "status": "proved",
  "note": "Keys have 32 bytes by type; message lengths are below 2^32 minus the pads."
 },
 "C46": {
  "status": "proved",
  "note": "Products and powers for moduli whose highest digit is 0xffffffff, as the code requires. Inversion is proved to be the power n - 2. The Montgomery form is in C57 and point arithmetic in C58."
 },
 "C52": {
  "status": "proved",
  "note": ""
 },
 "C12": {
  "status": "proved",
  "note": "Every word built by format.rs parses back: page init and compact words, internal entries, user headers and values, padding and deleted headers; distinct entries have distinct words."
 },
 "C13": {
  "status": "proved",
  "note": "For every bit subset between the erased word and the written word; for user entries the header with its footer checksum."
 },
 "C14": {
  "status": "proved",
  "note": "Bijection, order, successor, placement in the physical pages and absence of 32-bit overflow, for every supported geometry."
 },
 "C15": {
  "status": "proved",
  "note": "For every state reachable by any history of calls, power losses and restarts on every supported geometry; storage errors other than power loss are not modelled. NoLifetime may be returned once the used lifetime passes the documented limit."
 },
 "C16": {
  "status": "proved",
  "note": "C16_histories covers whole histories with any number of interrupted calls and interrupted recoveries; every start succeeds. Calling recover on a store that is still in memory after a storage error is not modelled."
 },
 "C17": {
  "status": "proved",
  "note": "Content kept by complete and interrupted compactions; within the capacity, compactions make the room asked for or the flash is worn out."
 },
 "C18": {
  "status": "proved",
  "note": "The flash of the model counts the writes of each word since its page was erased and the erasures of each page, like the reference storage of buffer.rs does: only writes and erasures that complete are counted, so a write that power losses interrupt again and again counts once. Every operation in the log of a call or of a start respects the limits of the storage, and in every reachable state all counters are within the limits."
 },
 "C21": {
  "status": "proved",
  "note": "For every geometry, for flash that clears bits and for storages that overwrite. Hardware failures and power loss (which the view does not resist, by its documentation) are not modelled; usize overflow of a read range that ends in the last page of the address space is not modelled. A byte written in the middle of a word can write this word three times after the erase."
 },
 "C54": {
  "status": "proved",
  "note": "The primitives (HMAC, HKDF, AES, ECDH) are parameters with the laws of prims_ok. C54_next covers getNextAssertion."
 },
 "C55": {
  "status": "proved",
  "note": "Read from the flags byte of the answer itself."
 },
 "C56": {
  "status": "proved",
  "note": "The S-box is specified as inversion in GF(2^8) followed by the affine map, the key schedule and both ciphers as in FIPS 197. Lengths of keys and blocks are by type in the code. Erasing round keys from memory is not modelled."
 },
 "C57": {
  "status": "proved",
  "note": "Two findings: C57_checked_mul_refuted (a product of field elements panics in a build with overflow checks, which release builds do not have) and C57_from_montgomery_refuted (the conversion to an integer drops a carry for limbs at or above 2^257, which sums may give; the callers only convert products). Running time and constant-time behaviour are not modelled."
 },
 "C58": {
  "status": "proved",
  "note": "Without overflow checks, as in release builds. Finding: C58_points_mul_refuted (0 G + P is not P, because scalar_base_mul of zero gives the projective point (0, 0, 1)). Constant-time behaviour is not modelled."
 },
 "C59": {
  "status": "partial",
  "note": "Without overflow checks, as in release builds. Missing: verification when the hash is a multiple of n, where the claim is false of the code (C59_verify_hash_refuted: with a hash of 32 zero bytes a valid signature is refused, through C58_points_mul_refuted). That the loops of signing end is a matter of probability and not modelled: sign_rng takes the list of draws, sign_rfc6979 a number of rounds. Constant-time behaviour is not modelled."
 },
 "C60": {
  "status": "partial",
  "note": "Finding: C60_from_coordinates_refuted (the two points of the curve with x = 0 are refused, so a public key with x = 0 would not be read back; C60_public_key_travels_partial excludes it). That such a public key, if it exists, is found with probability 2^-255 is outside the model. Constant-time behaviour is not modelled. C60_pin_protocols_partial states the agreement for the PIN/UV auth protocols of CTAP."
 },
 "C61": {
  "status": "partial",
  "note": "Proved when the first candidate of RFC 6979 gives a signature (probability 1 - 2^-32). Otherwise the claim is false of the code: C61_rfc6979_refuted (Rfc6979::next derives the next key from the old V instead of the candidate). The signature is still valid (C59_sign_rfc6979)."
 },
 "C62": {
  "status": "proved",
  "note": "For machines of 64 bits and messages below 2^61 bytes. The model of signing takes a number of candidates for the nonce and answers with no bytes when none of them gives a signature, where the code would try the next; the theorems are about answers with a signature. Ed25519 is a parameter. The success of a CTAP2 registration is shown to be reachable with the small primitives only (C30_nonvacuous); with the library primitives CTAP1 registration, CTAP1 authentication and a CTAP2 assertion are (C62_nonvacuous)."
 },
 "C63": {
  "status": "proved",
  "note": "The durations of the calls are inputs; the bounds on time assume that waits and sends keep to their timeouts. A packet of another client that arrives meanwhile is dropped without the busy error: C63_busy_refuted (finding F17)."
 },
 "C64": {
  "status": "proved",
  "note": "The USB driver is an input: for each iteration it says what it did and how long it took. A panic of the firmware stops the loop; the reply is then unfinished. Keepalives sent while a request waits for the user are C63."
 },
 "C65": {
  "status": "proved",
  "note": "C65_exchange is about the main endpoint, no lock in force at the start and no packets on the vendor endpoint meanwhile. Responses over 7609 bytes are replaced by an error (C06). The process of waiting for the user is one step here; its packets are C63."
 },
 "C66": {
  "status": "proved",
  "note": "lock_firmware_protection is a stub that returns false in this code base, hence a lockdown never succeeds (in C66_answer). The presence check is the compiled one (not feature std). The upgrade commands are those of Upgrade/ (C66_upgrades)."
 },
 "C67": {
  "status": "partial",
  "note": "False as stated. An empty message panics wherever vendor commands are taken (C67_answered_refuted, finding F18), and a provisioned key that ECDSA refuses makes every U2F registration panic (C67_usable_key_refuted, finding F19). C67_answered_partial proves that nothing else does."
 },
 "C68": {
  "status": "proved",
  "note": "C68_call and C68_start connect the model of the kernel, libtock and TockStorage to the store's model of Store/ (do_call, boot), C68_interrupted connects power loss. A slice of no bytes at the end of the last page is refused although it is in bounds (C68_empty_refuted, finding F22); the statements about slices ask for an offset inside a page."
 },
 "C69": {
  "status": "partial",
  "note": "False as stated in two points. The filter checks the length that a command names and the driver writes the whole allowed slice (C69_confined_refuted, finding F20); C69_confined_partial covers commands whose length covers the slice, which is all that the repository's code issues (C69_library). One vendor message makes the flash unavailable until a restart (C69_stuck, C69_starved, C69_available_refuted, finding F21); C69_available_partial covers messages with whole words, at most a page each. C69_simulated and C69_messages carry C49 and C50 over to the kernel."
 },
 "C70": {
  "status": "partial",
  "note": "C70_received, C70_woken, C70_fair and C70_given hold for every schedule (the first three as long as no call returned an error). False as stated beyond that: the kernel can panic (C70_panic_refuted, C70_panic_prompt_refuted, C70_panic_race_refuted, finding F23), a packet can be lost at a timeout (C70_complete_refuted), with two endpoints a packet may be reported as sent that the host did not get and a call may be refused (C70_reported_refuted, C70_error_refuted, finding F24), and a call that received a packet may still have sent its own (C70_not_sent_refuted, finding F25). C70_panic_partial, C70_complete_partial and C70_reported_partial are what holds."
 },
 "C71": {
  "status": "partial",
  "note": "The hardware is described by what the driver relies on. The bootloader's use is proved in full (C71_bootloader, C71_boot). In general an empty piece ends the message although its size is a multiple of 64 (C71_digest_refuted), and a driver that was cleared cannot be used again (C71_reuse_refuted, finding F26); C71_digest_partial and C71_again_partial exclude both."
 },
 "C72": {
  "status": "partial",
  "note": "Everything but the absence of panics is proved for every interleaving that starts between two calls. The call can panic although no system call fails: the alarm goes off after the touch and before the alarm is stopped (C72_panic_refuted, finding F27); C72_panic_partial says that this is the only way. Also refuted: that touches between two waits of one presence check count (C72_between_refuted, F28), and that a failed call leaves no alarm behind (C72_early_refuted, F29). C72_presence and C72_whole join the calls of one request: check_user_presence (C63) on the hardware, with whatever happens between the calls."
 },
 "C73": {
  "status": "partial",
  "note": "C73_recover_partial holds whatever the store has in memory, unless a compaction is under way in the flash while entries are in memory. In that case recover may be refused (C73_recover_refuted, finding F30). If the store is used without recover, as the firmware does, a successful insertion may be lost at the next restart (C73_continue_refuted, finding F31)."
 },
 "C74": {
  "status": "partial",
  "note": "Everything is proved for the function that fills the buffer. That a failed request is not taken for random is refuted: fill_bytes drops the result, and a key of zeros is returned (C74_silent_refuted, finding F32); C74_failed says that this needs a failing system call."
 },
 "C75": {
  "status": "proved",
  "note": "The documentation's own formula promises slightly more increments (1.96 million) than the bound proved (1.84 million on a new device); its use, 500 per day for ten years, is proved. The sequence has no power loss inside: after one, the theorem applies again with the lifetime then used."
 },
 "C76": {
  "status": "proved",
  "note": "U2F registrations always present the batch certificate, whatever use_batch_attestation says (C76_u2f): the statement about customization is for CTAP2. An attestation key is ECDSA P-256, as in the code."
 },
 "C77": {
  "status": "partial",
  "note": "That a PIN is usable is refuted: max_pin_retries = 0 passes the check, and then every PIN is blocked as soon as it is set (C77_pin_usable_refuted, finding F33). With at least one attempt it is proved (C77_pin_usable_partial). The bound on resident keys is tested elsewhere in the repository and is a hypothesis."
 },
 "C78": {
  "status": "proved",
  "note": "Assumes that the storage does not fail (a failed storage operation ends the request with an error) and the laws of the cryptographic primitives (prims_ok). That both sides derive the same shared secret is C47_agree."
 },
 "C79": {
  "status": "proved",
  "note": "Assumes that the storage does not fail, the laws of the cryptographic primitives (prims_ok), that drawn bytes are ECDSA keys (a draw is outside the range with probability below 2^-32; then the request ends with an error), and with batch attestation that its key is provisioned. Credentials that the device stores are C80; exclude lists and hmac-secret are not part of the claim."
 },
 "C80": {
  "status": "proved",
  "note": "Assumes that the storage does not fail (its physical capacity is C75), the laws of the cryptographic primitives (prims_ok), that drawn bytes are ECDSA keys, and with batch attestation that its key is provisioned. Exclude lists and hmac-secret are not part of the claim."
 },
 "C81": {
  "status": "proved",
  "note": "Assumes that the storage does not fail. That the told room can be used is C80_register; that the told attempts are there is C22 and C78."
 },
 "C82": {
  "status": "proved",
  "note": "Assumes that the storage does not fail and the laws of the cryptographic primitives. Who may not is C27."
 }
}