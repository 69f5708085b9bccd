{"id": "C01", "title": "CBOR round trip", "statement": "Any CBOR value the writer accepts, once encoded with the writer, is decoded by the reader to exactly the same value, consuming exactly the bytes written.", "quantifier": "every CBOR value of any size and nesting within the depth limit", "why_tests_cant": "the set of values (integers up to 2^64, arbitrary strings, arrays, maps, tags) is infinite", "anchors": ["libraries/cbor/src/reader.rs: read, read_nested, Reader::decode_complete_data_item", "libraries/cbor/src/writer.rs: write, write_nested, Writer::encode_cbor"]}
{"id": "C02", "title": "CBOR canonicity", "statement": "If the reader accepts a byte string then the writer, given the decoded value, produces that same byte string; hence no two different byte strings decode to the same value.", "quantifier": "every byte string", "why_tests_cant": "acceptance of a single odd non-canonical encoding among infinitely many inputs breaks it", "anchors": ["libraries/cbor/src/reader.rs: Reader::decode_complete_data_item, read_variadic_length_integer", "libraries/cbor/src/writer.rs: Writer::encode_cbor"]}
{"id": "C03", "title": "CBOR map keys are strictly ordered and unique", "statement": "Every map in a value produced by the reader, or emitted by the writer, has strictly increasing keys in the CTAP2 canonical order, and the order used by the library on values is exactly the canonical order of their encodings (a total order).", "quantifier": "every accepted byte string, and every pair or triple of values", "why_tests_cant": "order laws range over all pairs/triples of values", "anchors": ["libraries/cbor/src/values.rs: Ord for Value, Value::map", "libraries/cbor/src/reader.rs: read_map_content"]}
{"id": "C04", "title": "CBOR nesting limit is exact and decoding is total", "statement": "The reader accepts no value nested more deeply than the limit, rejects no well-formed value within the limit because of nesting, never reads beyond the input, and always terminates with a value or an error; truncations of valid encodings are rejected.", "quantifier": "every byte string and every nesting limit", "why_tests_cant": "totality over all byte strings", "anchors": ["libraries/cbor/src/reader.rs: read_nested, Reader::read_bytes"]}
{"id": "C05", "title": "CBOR map destructuring is exact lookup", "statement": "Destructuring a map with sorted keys yields for every requested key exactly the value stored under that key, and none if it is absent, whatever other keys the map contains.", "quantifier": "every strictly sorted map and every strictly sorted list of requested keys", "why_tests_cant": "interleavings of present, absent and extra keys are unbounded", "anchors": ["libraries/cbor/src/macros.rs: destructure_cbor_map, destructure_cbor_map_peek_value"]}
{"id": "C06", "title": "HID fragmentation round trip", "statement": "A message of at most 7609 bytes, split into packets by the sender and fed in order and in time to a receiver that is idle, is delivered exactly once, unchanged, on the last packet, and nothing is delivered before.", "quantifier": "every channel, command and payload of length 0..7609", "why_tests_cant": "payload contents and lengths are far beyond enumeration", "anchors": ["libraries/opensk/src/ctap/hid/send.rs: HidPacketIterator", "libraries/opensk/src/ctap/hid/receive.rs: MessageAssembler::parse_packet"]}
{"id": "C07", "title": "HID channel isolation", "statement": "Packets on other channels arriving between the packets of a message neither change nor delay the message being assembled; they only receive a busy error.", "quantifier": "every interleaving of foreign packets into a message", "why_tests_cant": "number of interleavings is unbounded", "anchors": ["libraries/opensk/src/ctap/hid/receive.rs: MessageAssembler::parse_packet"]}
{"id": "C08", "title": "HID receiver invariants", "statement": "In every state reachable from power-up the receiver buffers no more bytes than announced and never more than the maximum message size, never wraps the sequence number, is empty when idle, and every delivered message has exactly the announced length.", "quantifier": "every sequence of packets and times", "why_tests_cant": "an invariant over unbounded packet histories", "anchors": ["libraries/opensk/src/ctap/hid/receive.rs: MessageAssembler"]}
{"id": "C09", "title": "HID stale messages time out", "statement": "A partially received message is discarded as soon as the receive timeout elapses: bytes received before a timeout are never part of a message delivered after it.", "quantifier": "every sequence of packets and times", "why_tests_cant": "requires all packet/time histories", "anchors": ["libraries/opensk/src/ctap/hid/receive.rs: MessageAssembler::parse_packet"]}
{"id": "C10", "title": "HID channel allocation is unique", "statement": "The channel ids handed out by INIT on the broadcast channel are pairwise different, never the broadcast or reserved id, and a message on a channel that was never handed out is never processed.", "quantifier": "every history of INIT requests up to the counter limit", "why_tests_cant": "2^32 allocations and arbitrary histories", "anchors": ["libraries/opensk/src/ctap/hid/mod.rs: CtapHid::process_init, is_allocated_channel, has_valid_channel"]}
{"id": "C11", "title": "HID lock is exclusive and bounded", "statement": "While a channel holds a lock, packets of any other channel get a busy error and cause no state change; the lock lasts at most the requested number of seconds (never more than 10), and only its holder can extend or release it.", "quantifier": "every history of packets, locks and times", "why_tests_cant": "arbitrary histories and times", "anchors": ["libraries/opensk/src/ctap/hid/mod.rs: CtapHid::process_lock, parse_packet, receive.rs: parse_packet"]}
{"id": "C12", "title": "Store entries round trip", "statement": "Every word or header written by the store (page init, compaction, user header, padding, erase, clear, marker and remove entries) parses back to exactly the same fields, and the different kinds of words are never confused with one another nor with erased flash.", "quantifier": "every field value in range", "why_tests_cant": "field combinations exceed enumeration by tests", "anchors": ["libraries/persistent_store/src/format.rs: build_*, parse_*, WordState", "libraries/persistent_store/src/format/bitfield.rs: Field, Bit, Checksum"]}
{"id": "C13", "title": "Store words detect interruption", "statement": "If writing an internal or header word is interrupted so that an arbitrary strict subset of the bits to be cleared is cleared, the word is recognised as erased or partial, never as a valid word with other content.", "quantifier": "every word value and every subset of its bits", "why_tests_cant": "2^32 words times subsets of bits", "anchors": ["libraries/persistent_store/src/format/bitfield.rs: Checksum::get", "libraries/persistent_store/src/lib.rs: checksum argument"]}
{"id": "C14", "title": "Store positions are a faithful address space", "statement": "The linear position used by the log is a strictly monotone bijection with (erase cycle, page, word), and advancing by one visits every data word of every page in order, wrapping pages and incrementing the cycle.", "quantifier": "every format geometry and every position", "why_tests_cant": "all geometries and positions", "anchors": ["libraries/persistent_store/src/format.rs: Position, Format"]}
{"id": "C15", "title": "Store behaves as a key-value map", "statement": "Under any sequence of transactions, clear, prepare, insert, remove and lookups without interruption, the store returns what a simple map from keys to byte strings would return, and reports lack of capacity exactly when the map model does.", "quantifier": "every sequence of operations on every valid geometry", "why_tests_cant": "refinement over unbounded histories, including all compactions", "anchors": ["libraries/persistent_store/src/store.rs: Store", "libraries/persistent_store/src/model.rs: StoreModel"]}
{"id": "C16", "title": "Store transactions are crash atomic", "statement": "If power is lost at any point during an operation, then after reopening the store the content is either the content before or the content after the operation (a clear may be completed), never anything else; recovery may itself be interrupted any number of times.", "quantifier": "every operation, interruption point, bit subset and repeated crash", "why_tests_cant": "crash points times bit subsets times nested crashes", "anchors": ["libraries/persistent_store/src/store.rs: Store::new, recover*, transaction, clear"]}
{"id": "C17", "title": "Store compaction preserves content", "statement": "Compaction never changes the key-value content and always makes progress within the guaranteed capacity.", "quantifier": "every store state and any number of compactions", "why_tests_cant": "reachable layouts are unbounded", "anchors": ["libraries/persistent_store/src/store.rs: compact, compact_copy, compact_erase"]}
{"id": "C18", "title": "Store respects flash constraints", "statement": "The store never tries to set a bit from 0 to 1 without erasing the page, never writes a word more often than allowed, and stays within its declared lifetime.", "quantifier": "every history of operations", "why_tests_cant": "history property", "anchors": ["libraries/persistent_store/src/store.rs: write_slice, storage_write_slice", "libraries/persistent_store/src/buffer.rs: BufferStorage"]}
{"id": "C19", "title": "Fragmented values round trip", "statement": "Reading a fragmented value returns exactly the last value written to that key sequence, reading a range returns the truncated range of it, deletion removes all fragments, other keys are untouched, and too long values are rejected without effect.", "quantifier": "every key range, previous content, value and range", "why_tests_cant": "unbounded values and ranges", "anchors": ["libraries/persistent_store/src/fragment.rs: read, read_range, write, delete"]}
{"id": "C20", "title": "Concatenated values behave as a map", "statement": "For a well-formed entry, writing index i makes reading i return the written value and leaves all other indices unchanged; deleting removes only that index; malformed entries are rejected and never cause out-of-bounds access.", "quantifier": "every entry content, index and value", "why_tests_cant": "unbounded values", "anchors": ["libraries/persistent_store/src/concat.rs: read, write, delete, find"]}
{"id": "C21", "title": "Linear storage view", "statement": "The linear view of a paged storage reads back what was written across page boundaries and leaves all other bytes unchanged.", "quantifier": "every storage geometry, offset, length and content", "why_tests_cant": "unbounded offsets and geometries", "anchors": ["libraries/persistent_store/src/linear.rs: Linear"]}
{"id": "C22", "title": "PIN guesses are bounded across power loss", "statement": "Between two successful PIN entries (or PIN set / reset), at most max_pin_retries PIN candidates are ever compared with the stored PIN hash, even if the device loses power at any point and is restarted any number of times; at zero retries nothing is compared.", "quantifier": "every history of PIN commands, power cycles and crash points", "why_tests_cant": "history and crash quantification", "anchors": ["libraries/opensk/src/ctap/client_pin.rs: verify_pin_hash_enc", "libraries/opensk/src/ctap/storage.rs: decr_pin_retries, reset_pin_retries"]}
{"id": "C23", "title": "At most three PIN mismatches per power cycle", "statement": "In one power cycle the device compares at most three wrong PIN candidates before it blocks PIN entry until restart; and (claimed) consumes at most three retries per power cycle.", "quantifier": "every history of PIN commands within a power cycle", "why_tests_cant": "history quantification", "anchors": ["libraries/opensk/src/ctap/client_pin.rs: verify_pin_hash_enc, consecutive_pin_mismatches"]}
{"id": "C24", "title": "The PIN changes only as authorised", "statement": "The stored PIN hash changes only by setPIN when no PIN is set, by changePIN after a comparison that matched the current PIN, or by an authenticator reset; a PIN that is stored satisfies the minimum code point length and is at most 63 bytes.", "quantifier": "every history of client PIN commands", "why_tests_cant": "history quantification over all message contents", "anchors": ["libraries/opensk/src/ctap/client_pin.rs: process_set_pin, process_change_pin, check_and_store_new_pin, decrypt_pin"]}
{"id": "C25", "title": "PIN tokens are needed, scoped and expire", "statement": "A command that requires a PIN/UV auth token succeeds only if a token was issued in this power cycle, is still in its usage window, its MAC verifies, and the token carries the needed permission and, where required, the matching RP id; tokens issued earlier become invalid when a new token is issued.", "quantifier": "every history of token issuance, commands and time", "why_tests_cant": "history quantification", "anchors": ["libraries/opensk/src/ctap/token_state.rs: PinUvAuthTokenState", "libraries/opensk/src/ctap/client_pin.rs: verify_pin_uv_auth_token, has_permission, ensure_rp_id_permission"]}
{"id": "C26", "title": "Minimum PIN length is monotone and enforced", "statement": "The minimum PIN length never decreases except by reset, every stored PIN had at least the minimum length in force when stored, and raising the minimum above the current PIN length forces a PIN change before any new token is issued.", "quantifier": "every history of commands", "why_tests_cant": "history quantification", "anchors": ["libraries/opensk/src/ctap/config_command.rs: process_set_min_pin_length", "libraries/opensk/src/ctap/client_pin.rs: get_pin_token, check_and_store_new_pin"]}
{"id": "C27", "title": "Configuration commands take effect only when authorised", "statement": "authenticatorConfig changes persistent state only if the request carries a MAC over exactly the subcommand and its parameters by a valid token with the authenticator-configuration permission (or no user verification is configured where the protocol allows it), and a request that fails leaves the state unchanged.", "quantifier": "every request and state", "why_tests_cant": "all requests and states", "anchors": ["libraries/opensk/src/ctap/config_command.rs"]}
{"id": "C28", "title": "Resident credentials behave as a map", "statement": "Storing a resident credential for an RP and user replaces exactly the previous credential for that pair, otherwise takes a free slot; find, update, delete and count agree with a map from credential id to credential; at most the configured number are stored and when full storing fails without effect.", "quantifier": "every history of credential operations", "why_tests_cant": "history quantification over arbitrary credentials", "anchors": ["libraries/opensk/src/ctap/storage.rs: store_credential, find_credential, update_credential, delete_credential, count_credentials, new_creation_order"]}
{"id": "C29", "title": "Storage keys do not collide", "statement": "All persistent storage keys and key ranges used by the authenticator are pairwise disjoint, within the store's key space, and exactly the keys below the persistent limit survive a reset.", "quantifier": "every pair of keys", "why_tests_cant": "finite but easily broken by edits; proved for every key", "anchors": ["libraries/opensk/src/ctap/storage/key.rs"]}
{"id": "C30", "title": "Credential ids are sealed and bound to the RP", "statement": "Unwrapping a credential id produced for an RP returns the same private key, credProtect policy and credBlob; unwrapping succeeds only for ids whose authentication tag verifies; and for any other RP id hash it fails.", "quantifier": "every credential, every byte string, every RP id hash", "why_tests_cant": "infinite domain", "anchors": ["libraries/opensk/src/api/key_store.rs: wrap_credential, unwrap_credential, add_padding, remove_padding"]}
{"id": "C31", "title": "Stored credential records round trip", "statement": "A resident credential written to storage as CBOR is read back as the same credential, for every combination of optional fields.", "quantifier": "every credential record", "why_tests_cant": "2^n optional fields, arbitrary strings", "anchors": ["libraries/opensk/src/ctap/data_formats.rs: From<PublicKeyCredentialSource> for cbor::Value, TryFrom<cbor::Value> for PublicKeyCredentialSource", "libraries/opensk/src/ctap/storage.rs: serialize_credential, deserialize_credential"]}
{"id": "C32", "title": "The signature counter never repeats", "statement": "When the signature counter is enabled, each successful assertion or registration response carries a counter value strictly greater than all previous ones since the last reset, also across power loss, until the 32-bit counter wraps.", "quantifier": "every history of signing operations and power losses", "why_tests_cant": "history quantification", "anchors": ["libraries/opensk/src/ctap/storage.rs: global_signature_counter, incr_global_signature_counter", "libraries/opensk/src/ctap/mod.rs: increment_global_signature_counter"]}
{"id": "C33", "title": "User presence flag is truthful", "statement": "An assertion or registration response with the user-presence bit set is produced only after user presence was confirmed for that request (CTAP2) or an unconsumed touch was available (U2F).", "quantifier": "every request and state", "why_tests_cant": "all request contents and states", "anchors": ["libraries/opensk/src/ctap/mod.rs: process_get_assertion, process_make_credential", "libraries/opensk/src/ctap/ctap1.rs: process_authenticate, process_register"]}
{"id": "C34", "title": "User verification flag is truthful", "statement": "The user-verification bit is set in a response only if the request carried a valid token MAC over its client data hash, with the needed permission, an RP id matching the token, and the token's user-verified flag still set; the flag is cleared after use so that one PIN entry cannot cover two presence-consuming operations.", "quantifier": "every request and state", "why_tests_cant": "all request contents and states", "anchors": ["libraries/opensk/src/ctap/mod.rs: process_make_credential, process_get_assertion", "libraries/opensk/src/ctap/token_state.rs: clear_token_flags"]}
{"id": "C35", "title": "Credential protection is enforced", "statement": "A credential with policy userVerificationRequired is never used or revealed without user verification, and one with userVerificationOptionalWithCredentialIDList only with user verification or when named in the allow list.", "quantifier": "every request and stored credential set", "why_tests_cant": "all requests and credential sets", "anchors": ["libraries/opensk/src/ctap/mod.rs: get_any_credential_from_allow_list, process_get_assertion, process_make_credential", "libraries/opensk/src/ctap/ctap1.rs"]}
{"id": "C36", "title": "Assertions enumerate all matching credentials once", "statement": "getAssertion followed by getNextAssertion calls on the same channel yields every eligible discoverable credential exactly once, most recently created first, then fails; other commands, other channels or timeouts end the enumeration.", "quantifier": "every credential set and every schedule of commands, channels and times", "why_tests_cant": "history quantification", "anchors": ["libraries/opensk/src/ctap/mod.rs: StatefulPermission, process_get_next_assertion"]}
{"id": "C37", "title": "Credential management enumerates exactly once", "statement": "enumerateRPsBegin/GetNext and enumerateCredentialsBegin/GetNext report every RP with credentials, respectively every credential of the RP, exactly once, with correct totals.", "quantifier": "every credential set", "why_tests_cant": "unbounded credential sets", "anchors": ["libraries/opensk/src/ctap/credential_management.rs"]}
{"id": "C38", "title": "Credential management is authorised", "statement": "Every credential management subcommand that reveals or changes credentials requires a valid token MAC over the subcommand and parameters with the credential-management permission, and respects the RP id bound to the token.", "quantifier": "every request and state", "why_tests_cant": "all requests", "anchors": ["libraries/opensk/src/ctap/credential_management.rs: process_credential_management"]}
{"id": "C39", "title": "Reset only right after power-up and erases everything", "statement": "A reset request succeeds only within 10 seconds of power-up, before any other disqualifying command, with user presence; under these conditions it does succeed, whatever happened before the power-up, a forgotten or blocked PIN included; afterwards no credential, PIN, or configuration set by the user remains and old credential ids no longer unwrap.", "quantifier": "every history of commands and times", "why_tests_cant": "history quantification", "anchors": ["libraries/opensk/src/ctap/mod.rs: process_reset, StatefulPermission", "libraries/opensk/src/ctap/storage.rs: reset"]}
{"id": "C40", "title": "Large blob array integrity", "statement": "The large blob array that can be read back is always either the initial one or one whose fragments were all received in order, complete, with valid trailing hash, and authorised whenever a PIN is set; interrupted or failed writes leave the old array readable; the buffered amount never exceeds the maximum (claimed).", "quantifier": "every history of largeBlobs commands", "why_tests_cant": "history quantification", "anchors": ["libraries/opensk/src/ctap/large_blobs.rs: LargeBlobState"]}
{"id": "C41", "title": "APDU parsing agrees with ISO 7816-4", "statement": "Every short and extended length command APDU (cases 1, 2S, 3S, 4S, 2E, 3E, 4E) is parsed to its header, data and expected length, and every other byte string is rejected; parsing never panics.", "quantifier": "every byte string", "why_tests_cant": "infinite domain", "anchors": ["libraries/opensk/src/ctap/apdu.rs: Apdu::try_from"]}
{"id": "C42", "title": "U2F touch is one-shot and time-limited", "statement": "A touch lets at most one U2F operation through, only if it was requested before (a prompt was pending) and within the time limits.", "quantifier": "every history of touches, requests and times", "why_tests_cant": "history quantification", "anchors": ["libraries/opensk/src/ctap/u2f_up.rs: U2fUserPresenceState"]}
{"id": "C43", "title": "AES-CBC decryption inverts encryption", "statement": "Decrypting what was encrypted with the same key and IV returns the plaintext, in all embedded-IV modes, and inputs of wrong length are rejected.", "quantifier": "every key, IV, plaintext", "why_tests_cant": "infinite domain", "anchors": ["libraries/crypto/src/cbc.rs", "libraries/opensk/src/ctap/crypto_wrapper.rs"]}
{"id": "C44", "title": "SHA-256 streaming equals one-shot FIPS 180-4", "statement": "Feeding a message in any chunks gives the hash of the concatenation, which is the FIPS 180-4 iteration over the padded message.", "quantifier": "every message and every chunking", "why_tests_cant": "chunkings are unbounded", "anchors": ["libraries/crypto/src/sha256.rs: update, finalize, digest"]}
{"id": "C45", "title": "HMAC and HKDF follow their definitions", "statement": "HMAC over any key of the 32 bytes that the interface accepts and any message, its verification (of the whole MAC and of its first 16 bytes), and the HKDF used by PIN protocol 2 and hmac-secret, with or without a salt, equal the RFC 2104 and RFC 5869 definitions over SHA-256.", "quantifier": "every key, message and chunking", "why_tests_cant": "infinite domain", "anchors": ["libraries/crypto/src/hmac.rs", "libraries/crypto/src/hkdf.rs"]}
{"id": "C46", "title": "256-bit modular arithmetic is correct", "statement": "The big-integer operations used by ECDSA (add, subtract, modular add, subtract, multiply, comparison, byte conversions) compute exactly the mathematical result for all operands in range and never overflow.", "quantifier": "all 256-bit operands", "why_tests_cant": "2^512 operand pairs", "anchors": ["libraries/crypto/src/ec/int256.rs"]}
{"id": "C47", "title": "PIN protocol primitives round trip", "statement": "For both PIN protocols, decrypt inverts encrypt for the shared secret, verification accepts exactly the MAC that authenticate produces, and the decapsulated shared secrets of both sides agree.", "quantifier": "every key, message", "why_tests_cant": "infinite domain", "anchors": ["libraries/opensk/src/ctap/pin_protocol.rs"]}
{"id": "C48", "title": "Timers are reliable despite counter wrap", "statement": "Provided the clock is consulted at least once per hardware counter period, a timer is reported as elapsed exactly when the real tick count has reached its deadline, never before, and stays elapsed.", "quantifier": "every schedule of queries", "why_tests_cant": "unbounded schedules and counter wraps", "anchors": ["src/env/tock/clock.rs: TockClock"]}
{"id": "C49", "title": "Upgrade writes stay in the other partition and need a signature", "statement": "Firmware upgrade writes only touch addresses of the non-running partition and its metadata page; metadata is only ever written if its signature over the hash verifies, its version is not lower than the running one and its address matches.", "quantifier": "every sequence of upgrade requests", "why_tests_cant": "history quantification over offsets and lengths", "anchors": ["src/env/tock/storage.rs: TockUpgradeStorage::write_bundle", "src/env/tock/storage_helper.rs", "src/env/tock/upgrade_helper.rs: check_metadata"]}
{"id": "C50", "title": "The bootloader boots the newest valid partition", "statement": "The bootloader boots a partition only if its hash and address match its metadata, boots the one with higher version if both are valid, and combined with upgrades the booted version never decreases as long as the running partition is intact.", "quantifier": "every flash content and upgrade history", "why_tests_cant": "all flash contents", "anchors": ["bootloader/src/main.rs", "src/env/tock/upgrade_helper.rs"]}
{"id": "C51", "title": "Command dispatch is total and stateful commands are guarded", "statement": "Every byte string sent as a CTAP2 command yields exactly one status or response; continuation commands (GetNextAssertion, GetNextRP, GetNextCredential) fail unless the matching begin command immediately preceded them on the same channel within the time limit.", "quantifier": "every byte string and command history", "why_tests_cant": "all inputs and histories", "anchors": ["libraries/opensk/src/ctap/mod.rs: process_command, process_parsed_command", "libraries/opensk/src/ctap/command.rs: Command::deserialize"]}
{"id": "C52", "title": "ECDSA signatures are serialised faithfully", "statement": "The DER encoding of a signature decodes to the same pair (r, s), is minimal, and is at most 72 bytes; raw encodings round trip and out-of-range values are rejected.", "quantifier": "all r, s below the group order", "why_tests_cant": "2^512 pairs", "anchors": ["libraries/crypto/src/ecdsa.rs: Signature::to_asn1_der, from_bytes", "libraries/crypto/src/ec/int256.rs: from_bin, to_bin, to_minimal_encoding"]}
{"id": "C53", "title": "Wink only on request", "statement": "The device winks only within 5 seconds after a WINK request on the main HID interface, and any other complete message stops the winking.", "quantifier": "every history of packets and times", "why_tests_cant": "winking state depends on arbitrary interleavings of messages and times", "anchors": ["libraries/opensk/src/ctap/main_hid.rs: MainHid::process_message, MainHid::should_wink"]}
{"id": "C54", "title": "hmac-secret is a stable function of credential, salts and verification", "statement": "When an assertion is made with the hmac-secret extension, the encrypted output decrypts under the session's shared secret to HMAC(S, salt1), followed by HMAC(S, salt2) if a second salt was sent, where S is derived from the credential's private key and from the part of the device's master secret that belongs to the verification state (with or without user verification); the salts carried a valid MAC, user presence was asked for, and the master secret is the same across any history without a reset.", "quantifier": "every history, request, credential, session, protocol version, crash point and store fault", "why_tests_cant": "the output must agree across arbitrary sessions, reboots and other commands in between, for all salts and credentials", "anchors": ["libraries/opensk/src/ctap/client_pin.rs: ClientPin::process_hmac_secret", "libraries/opensk/src/ctap/mod.rs: CtapState::generate_cred_random, assertion_response", "libraries/opensk/src/api/key_store.rs: cred_random"]}
{"id": "C55", "title": "Names of users are disclosed only after user verification", "statement": "An answer to getAssertion or getNextAssertion whose authenticator data does not have the user verified flag contains no name, display name or icon of the user; the flag is set exactly when the (original) getAssertion carried a valid PIN/UV auth parameter.", "quantifier": "every history and every assertion answered in it", "why_tests_cant": "getNextAssertion answers depend on a state set by an earlier command in an arbitrary history", "anchors": ["libraries/opensk/src/ctap/mod.rs: CtapState::assertion_response, process_get_assertion, process_get_next_assertion"]}
{"id": "C56", "title": "AES-256 and CBC of the library are those of the standards", "statement": "With any 32-byte key, encrypting and decrypting a block gives the result of the cipher and the inverse cipher of FIPS 197, decryption inverts encryption and encryption inverts decryption; CBC encryption and decryption of any whole number of blocks are those of NIST SP 800-38A and invert each other, and any other length is refused by a panic. The laws that the theorems about the authenticator assume of its primitives hold of the library's SHA-256, HMAC, HKDF and AES-256.", "quantifier": "every key, block, initialisation vector and message", "why_tests_cant": "there are 2^384 keys and blocks; test vectors cover a few, and a wrong table entry or multiplication shows on some inputs only", "anchors": ["libraries/crypto/src/aes256.rs: EncryptionKey::new, encrypt_block, DecryptionKey::new, decrypt_block", "libraries/crypto/src/cbc.rs: cbc_encrypt, cbc_decrypt", "libraries/opensk/src/api/crypto/software_crypto.rs: SoftwareAes256, SoftwareHmac256, SoftwareHkdf256, SoftwareSha256"]}
{"id": "C57", "title": "Field arithmetic of P-256 is exact", "statement": "Every operation of the library on elements of the field of P-256 (sum, difference, small multiples, product, square, inverse, test for zero, conversion from and to integers) gives the element that the mathematics prescribes, for every internal representation that the operations can produce, and stays within the representation; the modulus is prime, so every element but zero has the inverse that is computed. In builds with overflow checks a product may panic, and the conversion to an integer needs a bound that products satisfy and sums do not.", "quantifier": "all elements of the field and all their redundant representations", "why_tests_cant": "2^522 pairs of representations; the carries that go wrong show on a vanishing fraction of them", "anchors": ["libraries/crypto/src/ec/montgomery.rs: Montgomery::add, sub, mul, square, inv, mul_scalar2, mul_scalar3, mul_scalar4, mul_scalar8, is_zero_vartime, field_to_montgomery, montgomery_to_field", "libraries/crypto/src/ec/gfp256.rs: GFP256::mul_top"]}
{"id": "C58", "title": "Points of P-256 are added and multiplied as the standard says", "statement": "The points of the curve P-256 form a commutative group under the addition of SEC 1, and the base point has the prime order n. For any two points, including equal, opposite and infinite ones, the library's projective addition, mixed addition and doubling compute the representation of their sum. Every entry of the precomputed table is the multiple of the base point it should be. For every number k of 256 bits and every point P other than infinity, base_point_mul gives the coordinates of k times the base point G and mul those of k times P, with zero coordinates for the point at infinity; points_mul gives those of n1 G + n2 P when n1 and n2 are not zero, and a wrong result for some zero n1.", "quantifier": "all points, all representations of their coordinates, all multipliers", "why_tests_cant": "the exceptional cases of addition formulas and of windowed multiplication (equal, opposite and infinite intermediate sums, zero windows) are too rare to be met by random tests", "anchors": ["libraries/crypto/src/ec/point.rs: PointProjective::add, add_mixed, double, to_affine, select_point, scalar_base_mul, PointAffine::scalar_mul, PointP256::base_point_mul, mul, points_mul, from_projective", "libraries/crypto/src/ec/precomputed.rs: PRECOMPUTED"]}
{"id": "C59", "title": "ECDSA signs and verifies as the standard says", "statement": "The public key of a private key d is the point d G. For every ephemeral key, signing gives the signature of SEC 1, or none exactly when there is none for that ephemeral key. Signing never panics, and every signature the library returns, for whatever random numbers, is valid under the signer's public key and accepted by the library's verification. Verification never panics and accepts a signature if and only if the standard says it is valid.", "quantifier": "all private keys, ephemeral keys, messages, random draws, public keys on the curve, and pairs (r, s) in range", "why_tests_cant": "the exceptional cases (reduction of coordinates above n, sums that carry, zero results) have negligible probability in random tests and known-answer tests cover a few dozen keys", "anchors": ["libraries/crypto/src/ecdsa.rs: SecKey::genpk, try_sign, sign_rng, sign_rfc6979, PubKey::verify_hash_vartime, verify_vartime", "libraries/crypto/src/ec/exponent256.rs: ExponentP256::modn, NonZeroExponentP256, mul_mod, inv"]}
{"id": "C60", "title": "Key agreement gives both parties the same secret, on the curve", "statement": "For any two private keys a and b, exchange_x of a with the public key of b and of b with the public key of a give the same 32 bytes, the x coordinate of the point a b G, which is not at infinity. Coordinates received from the other party are accepted as a key if and only if they are those of a point of the curve, so the secret is always computed from a point of the curve; a public key is read back from its coordinates unchanged.", "quantifier": "all private keys, all received coordinates of 32 bytes", "why_tests_cant": "the space of keys and of malicious coordinates is 2^256 and more; one accepted point off the curve would leak key bits", "anchors": ["libraries/crypto/src/ecdh.rs: SecKey::genpk, exchange_raw, exchange_x, PubKey::from_coordinates, to_coordinates", "libraries/crypto/src/ecdsa.rs: PubKey::from_coordinates, to_coordinates"]}
{"id": "C61", "title": "Deterministic signatures use the nonces of RFC 6979", "statement": "Deterministic signing of a message with a private key returns the signature that RFC 6979 prescribes for SHA-256 and P-256: the one for the first candidate of its sequence of nonces that gives a signature.", "quantifier": "all private keys and messages, all positions in the sequence of candidates", "why_tests_cant": "the second candidate is needed with probability 2^-32, so no test vector reaches it", "anchors": ["libraries/crypto/src/ecdsa.rs: SecKey::sign_rfc6979, Rfc6979::new, Rfc6979::next"]}
{"id": "C62", "title": "What the device signs is accepted for the key it reported", "statement": "Every assertion and every CTAP1 authentication made with an ES256 credential is a DER signature that a verifier following FIPS 186-4 accepts, over the data that WebAuthn and U2F prescribe, with the public key that the registration reported; this remains so after any later commands, faults and power losses other than a reset.", "quantifier": "all registrations and later histories without a reset, all messages, for the library's own SHA-256, HMAC, AES and P-256", "why_tests_cant": "it composes sealing, CBOR, hashing, the curve and the signature for all keys and histories; tests check a few keys with a verifier from the same library", "anchors": ["libraries/opensk/src/ctap/mod.rs: process_make_credential, process_get_assertion, assertion_response", "libraries/opensk/src/ctap/ctap1.rs: process_register, process_authenticate", "libraries/opensk/src/ctap/crypto_wrapper.rs: PrivateKey::sign_and_encode", "libraries/opensk/src/api/crypto/software_crypto.rs: SoftwareEcdsaSecretKey, SoftwareEcdsaSignature"]}
{"id": "C63", "title": "Waiting for the user ends as it should", "statement": "While the authenticator asks for the user, it sends keepalives on the channel of the request and nothing else. The request is confirmed exactly when the user acts before 300 waits have passed and before a CANCEL on that channel; a CANCEL on that channel ends the wait with that result; without either it ends with a timeout after at least 30 and at most 60.1 seconds. Packets of other channels and a platform that does not read change neither the result nor what is sent.", "quantifier": "all behaviours of the presence hardware and of the USB link during the wait, all channels", "why_tests_cant": "the outcome depends on the interleaving of up to 301 rounds of presence checks and packets; tests use a mock that always confirms or one scripted sequence", "anchors": ["libraries/opensk/src/ctap/mod.rs: check_user_presence, send_keepalive_up_needed"]}
{"id": "C64", "title": "Every reply answers the packet before it", "statement": "On the USB endpoints the device only ever sends, after a packet it received, the packets of one well-formed message for the channel of that packet, on the same endpoint and in order. The reply is complete unless the host does not take one of its packets or power is lost; nothing is sent unasked, replies are never mixed, and nothing is received while a reply is still to be sent.", "quantifier": "all sequences of received packets on both endpoints, timeouts, touches, store compactions and power losses", "why_tests_cant": "the order in which packets, timeouts and power losses interleave is unbounded; the loop is in the firmware binary and has no tests", "anchors": ["src/main.rs: main, EndpointReply, EndpointReplies::next_packet", "libraries/opensk/src/lib.rs: Ctap::process_hid_packet"]}
{"id": "C65", "title": "From packets to packets the device is the authenticator", "statement": "Whatever happens on the USB endpoints, the state of the authenticator is that of a history of requests, ticks, touches and power losses in which every request was completed by a packet on its own channel and endpoint. A request whose packets arrive each within 100 ms of the one before, with packets of other channels in between, is processed exactly once in that state, and the packets that the client then reads are the framing of the response.", "quantifier": "all lives of the device before the request, all requests up to the maximal message size, all interleavings with packets of other channels", "why_tests_cant": "it composes the loop, the receiver, the dispatcher and the authenticator over unbounded histories; unit tests call the layers one by one", "anchors": ["src/main.rs: main", "libraries/opensk/src/lib.rs: Ctap::process_hid_packet", "libraries/opensk/src/ctap/main_hid.rs: MainHid::process_hid_packet", "libraries/opensk/src/ctap/mod.rs: CtapState::process_command"]}
{"id": "C66", "title": "The attestation is provisioned once, by a present user, on the vendor endpoint", "statement": "The batch attestation (private key and certificate) is stored only by a vendor configure message that carries it, received on an endpoint that takes vendor commands, while the user confirms presence. From then on it is never replaced or removed. Configure answers truthfully whether an attestation is stored, changes nothing else, and the main endpoint refuses vendor commands if there is a vendor endpoint.", "quantifier": "all histories of CTAP2, CTAP1 and vendor messages on both endpoints, with touches, compaction, storage faults and power loss at any point", "why_tests_cant": "unit tests try a few sequences of configure calls without the presence check (it is compiled out) and without power loss or other commands in between", "anchors": ["src/env/tock/commands.rs: process_vendor_command", "src/env/tock/commands.rs: process_vendor_configure", "libraries/opensk/src/api/attestation_store.rs: helper_set", "src/env/tock/mod.rs: AttestationStore for TockEnv", "libraries/opensk/src/ctap/mod.rs: CtapState::process_command"]}
{"id": "C67", "title": "The firmware answers every message", "statement": "With its vendor commands compiled in, the firmware answers every message on every endpoint and never panics.", "quantifier": "all histories of messages, including malformed and empty ones, on both endpoints, with any provisioned attestation, storage faults and power loss", "why_tests_cant": "a panic may depend on any byte of any message and on what was provisioned before", "anchors": ["src/env/tock/commands.rs: process_cbor", "src/env/tock/commands.rs: AttestationMaterial", "libraries/opensk/src/ctap/mod.rs: CtapState::process_command", "libraries/opensk/src/ctap/ctap1.rs: Ctap1Command::process_register"]}
{"id": "C68", "title": "The board's flash is the flash the store expects", "statement": "The storage that a board gives to the persistent store behaves as the store requires. It can be created iff the kernel's locations for the store are whole pages. Every byte of every page of the store has its own address inside those locations and outside the upgrade partitions. Reads return that memory; aligned writes within a page clear exactly the given bits, count only words that change and touch nothing else; an erase sets exactly one page; anything else is refused and changes nothing. Every operation of the store and its start-up, done through the system calls of the kernel, succeeds and keeps the flash equal to the one of the store's model, and a loss of power inside the kernel leaves a flash that the store recovers from.", "quantifier": "all lists of locations, memory contents, pages, offsets and values; all reachable states of the store and all calls; all points of power loss", "why_tests_cant": "tests run the store on a buffer in memory, never through the kernel driver; the address arithmetic must be right for every layout and offset", "anchors": ["src/env/tock/storage.rs: TockStorage", "src/env/tock/storage_helper.rs: find_slice", "third_party/libtock-drivers/src/storage.rs: write_slice", "third_party/libtock-drivers/src/storage.rs: erase_page", "patches/tock/06-persistent-storage.patch: SyscallDriver", "boards/nordic/nrf52840_dongle_opensk/src/main.rs: filter_syscall"]}
{"id": "C69", "title": "The kernel protects the flash and keeps it available", "statement": "An application cannot change flash outside of the storage locations of the kernel; the store and the messages of a host change only these, and messages of a host change neither the running firmware, nor its metadata, nor the store. Upgrades on the kernel behave as in the model of C49 and C50, and a driver that is ready installs every page. Nothing that the store does, and no message of a host, makes the flash unavailable.", "quantifier": "all commands of an application with any arguments, all histories of store operations and vendor messages, all memory contents", "why_tests_cant": "the driver and the filter run in the kernel only; a refused command leaves state behind that matters in every later command", "anchors": ["patches/tock/06-persistent-storage.patch: SyscallDriver", "patches/tock/06-persistent-storage.patch: fits_in_storage_location", "boards/nordic/nrf52840dk_opensk/src/main.rs: filter_syscall", "third_party/libtock-drivers/src/storage.rs: block_command", "src/env/tock/storage.rs: TockUpgradeStorage", "src/env/tock/commands.rs: process_vendor_upgrade"]}
{"id": "C70", "title": "USB packets arrive once, in order and at the right endpoint", "statement": "The packets that receiving calls of the firmware return for an endpoint are the packets that the host sent to it, in order and none twice; a waiting call is woken by a packet, and no endpoint waits for ever while packets of others are received. The packets that the host gets from an endpoint are the packets given to sending calls for it, in order and none twice, and a packet reported as sent was got by the host. No schedule of calls, timeouts and transactions makes a call fail or the kernel panic.", "quantifier": "all interleavings of system calls, upcalls, alarms and transactions of the host, any number of endpoints, all packets", "why_tests_cant": "the kernel, the process, the alarm and the host run concurrently; the errors are in windows between a timeout, a cancellation and the end of a transaction", "anchors": ["patches/tock/03-add-ctap-modules.patch: send_packet_to_client", "patches/tock/03-add-ctap-modules.patch: cancel_transaction", "patches/tock/03-add-ctap-modules.patch: app_packet_received", "third_party/libtock-drivers/src/usb_ctap_hid.rs: recv_with_timeout", "third_party/libtock-drivers/src/usb_ctap_hid.rs: send_with_timeout_detail", "third_party/libtock-drivers/src/usb_ctap_hid.rs: send_or_recv_with_timeout"]}
{"id": "C71", "title": "The bootloader's hash accelerator computes SHA-256", "statement": "A message given to the driver of the hash accelerator in pieces, all of them but the last of whole blocks, yields the SHA-256 digest of FIPS 180-4 of the whole message, also after other uses. The bootloader therefore compares the metadata with the SHA-256 hash of the signed metadata and the whole firmware, and starts the partition that C50 says.", "quantifier": "all messages below the limits of the hardware, all ways to cut them, all states left by earlier uses, all memory contents", "why_tests_cant": "the driver only runs on the hardware, and a test covers a few lengths and cuts", "anchors": ["bootloader/src/crypto_cell.rs: update", "bootloader/src/crypto_cell.rs: finalize_and_clear", "bootloader/src/main.rs: compute_upgrade_hash", "bootloader/src/main.rs: read_version"]}
{"id": "C72", "title": "A touch counts during the wait, and only then", "statement": "wait_with_timeout reports the user as present only if a button was pressed during that call while the device listened; it times out only if the time asked for has passed and no button was pressed before; a press while it listens makes it return that the user is present, soon and whatever else happens on the buttons; it never waits forever after a press or the alarm, and leaves no subscription behind. It does not panic.", "quantifier": "all interleavings of presses, releases, time, the alarm interrupt and the process's system calls, any number of buttons, any timeout, any failing system calls", "why_tests_cant": "the touch and the alarm race with every system call of the function; the assertion fails in a window of a few microseconds", "anchors": ["src/env/tock/mod.rs: wait_with_timeout", "third_party/libtock-drivers/src/timer.rs: stop_alarm", "third_party/libtock-drivers/src/timer.rs: set_alarm", "third_party/libtock-drivers/src/util.rs: yieldk_for"]}
{"id": "C73", "title": "After a storage error the store recovers without a restart", "statement": "When a storage operation fails during a call of the store, calling recover on the store in memory succeeds, the failed call is then done or not done, and the store behaves as after a restart; what later calls store without error is not lost.", "quantifier": "all reachable stores, all calls, all storage operations of a call that may fail and all states between its two in which it may leave the flash, whatever the store has in memory at that point", "why_tests_cant": "the repository's tests interrupt operations and open the storage anew; the combination of a half-done storage operation with the memory of the store has as many cases as the calls have storage operations and bits", "anchors": ["libraries/persistent_store/src/store.rs: recover", "libraries/persistent_store/src/store.rs: StoreError::StorageError", "libraries/persistent_store/src/store.rs: compact_copy", "libraries/persistent_store/src/store.rs: compact_erase", "libraries/opensk/src/ctap/storage.rs: From<StoreError>"]}
{"id": "C74", "title": "Random bytes are fresh bytes of the hardware", "statement": "A request for random bytes overwrites the whole buffer with bytes that the hardware generator gave after the request, each used at most once over all requests; it ends once the hardware has given enough, and a request that could not be served is not taken for random.", "quantifier": "all buffer lengths, former contents, numbers of requests, and interleavings of the hardware's bytes, the system calls and their failures", "why_tests_cant": "the generator is a driver of the kernel with interrupts; the tests of the repository use a deterministic generator instead, and no test can try every interleaving", "anchors": ["third_party/libtock-drivers/src/rng.rs: fill_buffer", "src/env/tock/mod.rs: TockRng::fill_bytes, try_fill_bytes", "libraries/opensk/src/api/rng.rs: gen_uniform_u8x32"]}
{"id": "C75", "title": "The flash lasts as long as promised", "statement": "A store whose content stays below a limit accepts every further insertion until the words written reach a bound computed from the geometry of the flash, the limit and the lifetime already used. With 20 pages of 4096 bytes erased at most 10000 times, 150 credentials of 500 bytes and at most a million words used before, the signature counter can be stored 500 times per day for ten years.", "quantifier": "all formats of the flash, all stores reachable by any history of calls, power losses and restarts, and all sequences of insertions, of any keys and values, within the limit", "why_tests_cant": "the promise is about millions of writes and the compactions between them, from every state the store may be in; simulating one life of the device takes one path through it", "anchors": ["libraries/opensk/src/api/customization.rs: max_supported_resident_keys", "libraries/persistent_store/src/store.rs: insert, reserve, compact, lifetime", "libraries/persistent_store/src/format.rs: total_capacity, total_lifetime"]}
{"id": "C76", "title": "Attestation discloses no more than configured", "statement": "A new credential is attested by its own key, unless the device is customized for batch attestation, or enterprise attestation is configured, was switched on by an authorised message since the last reset, was requested, and is permitted for this relying party. The enterprise certificate is presented exactly then, and the response says so. A validly customized device never presents both certificates over CTAP2.", "quantifier": "all registration requests, relying parties, customizations, stored certificates and histories of the device, with power losses and storage faults", "why_tests_cant": "an identifying certificate must not leave the device in any history; tests try a few sequences of enabling and registering", "anchors": ["libraries/opensk/src/ctap/mod.rs: process_make_credential", "libraries/opensk/src/ctap/config_command.rs: process_enable_enterprise_attestation, process_config", "libraries/opensk/src/ctap/storage.rs: enterprise_attestation, enable_enterprise_attestation", "libraries/opensk/src/ctap/ctap1.rs: process_register", "libraries/opensk/src/api/customization.rs: is_valid, EnterpriseAttestationMode"]}
{"id": "C77", "title": "An accepted customization is sound", "statement": "The check of a customization accepts exactly the customizations its comments describe; an accepted one meets what the protocol code relies on, and on a device built with it a PIN that was set can be used.", "quantifier": "all customizations", "why_tests_cant": "the test of the repository checks one customization, the one that is compiled in", "anchors": ["libraries/opensk/src/api/customization.rs: is_valid"]}
{"id": "C78", "title": "Whoever knows the PIN can use it", "statement": "On a device without a PIN every PIN of permitted length can be set. A token request with the hash of the stored PIN is answered with a fresh token that the platform can decrypt and that has the requested permissions, as long as attempts are left, fewer than three wrong PINs were tried since power-up and no change of the PIN is due; a restart clears the block after three wrong PINs. Afterwards all attempts are available again.", "quantifier": "all histories of the device, PINs, platform keys, both PIN protocols, permissions and RP IDs", "why_tests_cant": "that the owner is never locked out must hold after every history, not only after the ones tried", "anchors": ["libraries/opensk/src/ctap/client_pin.rs: process_set_pin, process_get_pin_token, process_get_pin_uv_auth_token_using_pin_with_permissions, verify_pin_hash_enc, check_and_store_new_pin, decrypt_pin", "libraries/opensk/src/ctap/storage.rs: decr_pin_retries, reset_pin_retries, set_pin", "libraries/opensk/src/ctap/pin_protocol.rs: decapsulate, SharedSecret"]}
{"id": "C79", "title": "Registrations and logins succeed", "statement": "A registration of a credential that the device does not store, for an algorithm the device has and without an exclude list or enterprise attestation, is answered with a credential whenever the request is permitted (no token where none is demanded, or the correct MAC under a token in force with the permission and for the RP) and the user confirms. From then on until a reset, across power losses, a login that names its ID for its RP, is permitted and is confirmed is answered with this ID and a signature by the registered key. Over CTAP1, a registration on a device with its attestation key and an authentication with an issued key handle are answered at once or refused for want of a touch; after a touch within 10 seconds the same request, repeated within 30 seconds, is answered.", "quantifier": "all histories before the registration and between registration and login, requests, tokens, RP IDs and devices whose storage does not fail", "why_tests_cant": "that the owner is never locked out of an account must hold after every history, not only after the ones tried", "anchors": ["libraries/opensk/src/ctap/mod.rs: process_make_credential, process_get_assertion, get_any_credential_from_allow_list, pin_uv_auth_precheck, check_user_presence, assertion_response, generate_auth_data", "libraries/opensk/src/api/key_store.rs: wrap_credential, unwrap_credential, get_master_keys", "libraries/opensk/src/ctap/client_pin.rs: verify_pin_uv_auth_token, ensure_rp_id_permission", "libraries/opensk/src/ctap/storage.rs: find_credential, incr_global_signature_counter", "libraries/opensk/src/ctap/ctap1.rs: process_command, process_register, process_authenticate", "libraries/opensk/src/ctap/u2f_up.rs: consume_up, grant_up"]}
{"id": "C80", "title": "Passkeys can be stored while there is room, and used", "statement": "A registration of a credential that the device is to store, for an algorithm it has and without an exclude list or enterprise attestation, is answered and the credential is stored whenever the request is permitted, the user confirms and there is a place: fewer credentials are stored than the device can hold, or one of the same account is there to be replaced; without a place no such registration is answered. A login without an allow list is answered whenever it is permitted, confirmed, and a credential of the RP is stored whose protection the request meets; the answer is by a newest of these. A deletion of the one stored credential with an ID is answered and carried out whenever it carries the correct MAC under a token in force for credential management. So is a change of the user's names in it, which leaves its ID, key, RP, user ID and protection as they are.", "quantifier": "all histories of the device, interrupted or not, requests, tokens, RP IDs, accounts and capacities, on devices whose storage does not fail", "why_tests_cant": "that a place counts as free and a stored credential is found must hold for every content of the storage that any history leaves", "anchors": ["libraries/opensk/src/ctap/mod.rs: process_make_credential, process_get_assertion, assertion_response", "libraries/opensk/src/ctap/storage.rs: store_credential, iter_credentials, get_credential, new_creation_order, serialize_credential"]}
{"id": "C81", "title": "The device always says how it stands, and truly", "statement": "getInfo is always answered, and tells whether a PIN is set, whether verification is always demanded, whether enterprise attestation is on, whether the PIN must be changed, its least length and exactly how many credentials still fit; U2F is listed exactly when it is usable without verification. The number of remaining PIN attempts and whether a restart is needed are always told, and so is the public key for the exchange of PINs, for each protocol its own. The number of stored credentials and of those that still fit is told to whoever has a token in force for credential management that is bound to no RP. None of these changes anything stored.", "quantifier": "all histories of the device, interrupted or not, channels and configurations, on devices whose storage does not fail", "why_tests_cant": "the count of remaining credentials is an error when the stored ones exceed the capacity; that no history gets there needs an invariant", "anchors": ["libraries/opensk/src/ctap/mod.rs: process_get_info", "libraries/opensk/src/ctap/storage.rs: remaining_credentials, count_credentials, pin_retries, min_pin_length, has_always_uv", "libraries/opensk/src/ctap/client_pin.rs: process_get_pin_retries"]}
{"id": "C82", "title": "The settings can be changed by who may", "statement": "A request to toggle the demand for verification is answered, on a device whose configuration does not enforce that demand, whenever no PIN is set or the request carries the correct MAC under a token in force with the permission for the configuration; the demand is then the opposite of what it was, and the PIN, its attempts and the credentials are as before. Likewise a request to set the least length of a PIN to one not below the length in force, without a list of RPs: the length is then in force, and the PIN must be changed exactly if the request says so, if it is shorter than the new length, or if it had to be changed before.", "quantifier": "all histories of the device, interrupted or not, requests, tokens and protocols, on devices whose storage does not fail", "why_tests_cant": "every state that any history leaves must accept the request; a test settles only the states it sets up", "anchors": ["libraries/opensk/src/ctap/config_command.rs: process_config, process_toggle_always_uv, process_set_min_pin_length", "libraries/opensk/src/ctap/storage.rs: toggle_always_uv, has_always_uv"]}
