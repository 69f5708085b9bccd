# Formal model of OpenSK in Rocq (Coq 8.16.1)

## Approach

The Rust sources in /repo are read as text and re-written, function by function,
as total Gallina functions.  Every definition of the model carries a comment with
the file and lines it models and the simplifications made.  Per area there is a
directory under `rocq/theories/` with

* `Model.v`  – the model (executable, no proofs),
* `Spec.v`   – where useful, a small independent specification,
* `Proofs.v` – lemmas,
* `Props.v`  – only the property theorems, each closed by `exact ...`, with
  `Print Assumptions` under it, and `Example`s showing that the hypotheses are met
  by a concrete non-trivial case.

Modelling conventions

* `u8/u16/u32/u64/usize` values are `N` (or `Z`), with the wrap, truncation or
  overflow check written out where the code can reach it; lengths/indices are `nat`.
* byte strings are `list N`; well-formedness (`< 256`) is an explicit hypothesis
  (`bytes_ok`) where it matters.
* `Result`/`Option` stay data; a Rust panic is an explicit error value, and
  "never panics" is a theorem.
* loops are structural recursion or folds, or recursion on explicit fuel with the
  out-of-fuel result excluded by a theorem.
* cryptographic primitives and the RNG are Section variables (universally
  quantified in the final theorems); the assumptions used about them (for example
  that a block decryption inverts block encryption) are explicit hypotheses of the
  theorem, and each such hypothesis is shown satisfiable by an `Example`.
* time is a natural number supplied with each event; a timer is its deadline.
* the flash of the store is a function from page and word to a 32-bit value.  An interrupted write
  clears any subset of the bits it would clear; an interrupted erase leaves any bits of the page
  set (the contract of `libraries/persistent_store/src/lib.rs`, `buffer.rs`).  Like `buffer.rs`, the
  flash counts the completed writes of each word since its page was erased and the completed
  erasures of each page; an interrupted operation counts only when it left what it would have left.
* "for every history" means: for every finite list of events from the initial (or a provisioned)
  state, with power loss possible after every single write to the persistent store, and in the
  CTAP model with store calls failing at any point.

## Trusted base

* Coq's kernel (8.16.1), and coqchk, which rechecks the compiled files.
* The reading of the Rust code into the model, cited line by line in the comments.
* `Print Assumptions` of every property theorem prints "Closed under the global context": no axiom
  is used, not even one of the standard library.  The table at the end lists the theorems; every
  `Props*.v` file runs `Print Assumptions` after each of them, so the output of `make` shows it.
  coqchk lists, for the libraries that are loaded, the seven parameters of `Coq.ssr.ssrunder`
  (`Under_rel` and companions, from the ssreflect tactic library); no theorem depends on them.
* Hypotheses instead of axioms.  Things outside the model are parameters of the theorems:
  * `prims` (Ctap/Crypto.v): SHA-256, HMAC, HKDF, AES block, ECDH, signatures.  `prims_ok` states the
    only laws used: output lengths, outputs are bytes, AES decryption inverts AES encryption.
    Ctap/Toy.v gives primitives that satisfy `prims_ok`, so the hypothesis is satisfiable.
    SHA-256, HMAC, HKDF and AES-256 of `libraries/crypto` are proved to satisfy all of them
    (`C56_software` in Ctap/PropsSoftware.v).
  * Events of a history carry the outcome of what the environment decides: user presence answers,
    random bytes, the time, faults of the store.
  * Upgrade/: SHA-256, the signature check and the flash driver's failures are parameters.

## What is modelled

| directory | code in /repo | remarks |
|---|---|---|
| Cbor/ | `libraries/cbor/src/{reader,writer,values,macros}.rs` | whole library; the width of `usize` is a parameter (32 and 64 bits) |
| Hid/ | `libraries/opensk/src/ctap/hid/{mod,receive,send}.rs`, `main_hid.rs`, `vendor_hid.rs` | packets are 64 bytes; the processing of a complete message is a parameter |
| U2f/ | `ctap/{apdu,u2f_up}.rs` | whole files |
| Clock/ | `src/env/tock/clock.rs`, `api/clock.rs` | ticks of the hardware counter are a natural number |
| Store/ | `libraries/persistent_store/src/{store,format}.rs`, `format/bitfield.rs`, contract of `lib.rs`, `storage.rs`, `buffer.rs`; `model.rs` is the shape of the specification | all operations: open, transaction, insert, remove, clear, prepare, find, iterate, capacity, lifetime, recovery.  Keys and values as in the code |
| Kv/ | `libraries/persistent_store/src/{fragment,concat}.rs` | over the abstract content of the store |
| Linear/ | `libraries/persistent_store/src/linear.rs` | over a paged byte storage |
| Ctap/ | `libraries/opensk/src/ctap/{mod,command,response,data_formats,client_pin,pin_protocol,token_state,credential_management,config_command,large_blobs,storage,storage/key,ctap1,crypto_wrapper,status_code}.rs`, `api/{key_store,attestation_store,private_key,customization}.rs`, `libraries/crypto/src/cbc.rs` | the whole authenticator as a step function from message bytes (CTAP2 and U2F), channel, time, presence answers, random bytes and store faults to response bytes and a new state |
| Hash/ | `libraries/crypto/src/{sha256,hmac,hkdf}.rs` | software implementation |
| Aes/ | `libraries/crypto/src/{aes256,cbc}.rs`, `util.rs` | software implementation, against FIPS 197 and SP 800-38A |
| Field/ | `libraries/crypto/src/ec/montgomery.rs`, `gfp256.rs` (`mul_top`) | with and without overflow checks |
| Curve/ | none: the curve, its group and the projective formulas, over any field and over the integers modulo p | specification and mathematics |
| Point/ | `libraries/crypto/src/ec/point.rs`, `precomputed.rs` | Table.v and Hints.v are generated by tools/curve.py from the source |
| Sign/ | `libraries/crypto/src/ecdsa.rs`, `ecdh.rs`, `ec/exponent256.rs` (signing, verification, RFC 6979, key agreement, coordinates) | the draws of `gen_uniform` and the number of rounds are arguments; DER encoding is in Int/ |
| Prime/ | (mathematics) | both primes of the curve, by Pocklington certificates |
| Int/ | `libraries/crypto/src/ec/{int256,exponent256}.rs`, parts of `gfp256.rs`, `ecdsa.rs`, `point.rs` (encodings) | 32-bit digits with carries |
| Device/ | `libraries/opensk/src/ctap/mod.rs` 250-371 (waiting for the user); `src/main.rs` and `libraries/opensk/src/lib.rs` (the event loop around the models of Hid/ and Ctap/); `src/env/tock/commands.rs` and the attestation store of `src/env/tock/mod.rs` (Vendor.v) | the answers of the presence hardware and of the USB link, and their durations, are inputs |
| Upgrade/ | `src/env/tock/{upgrade_helper,commands,storage,storage_helper}.rs` (upgrade part), `bootloader/src/main.rs` | flash of the upgrade partitions by page |
| Flash/ | `patches/tock/06-persistent-storage.patch` (driver of the flash, storage locations), the system call filter of the boards' `main.rs`, `third_party/libtock-drivers/src/storage.rs`, `src/env/tock/{storage,storage_helper}.rs` (the storage of the store, and upgrades on the kernel) | one application; the flash controller gets ready in the end |
| Usb/ | `patches/tock/03-add-ctap-modules.patch` (driver of the USB packets, except descriptors, the control endpoint and CONNECT), `third_party/libtock-drivers/src/usb_ctap_hid.rs` | the USB controller by what the driver requires of it; one application; allows, subscriptions and alarms do not fail |
| Boot/ | `bootloader/src/crypto_cell.rs`, and its use in `bootloader/src/main.rs` | the accelerator by what the driver relies on; waiting for it, byte order, clocks and interrupts are left out |
| Touch/ | `src/env/tock/mod.rs` (wait_with_timeout), `third_party/libtock-drivers/src/timer.rs` (callbacks, set_alarm, stop_alarm), `util.rs` | the kernel's button and alarm drivers and its upcalls by their documented interface; unbounded queue; no LEDs |
| Rng/ | `third_party/libtock-drivers/src/rng.rs`, `src/env/tock/mod.rs` (TockRng), `libraries/opensk/src/api/rng.rs` | the kernel's driver by its documented interface; one application |

Simplifications are stated in the comment of each definition.  The ones that matter most:

* Ctap/ uses the abstract content of the store (a map with atomic updates, each of which may fail
  or be the last one before power is lost).  That the real store provides this is C15 and C16.
* Kinds of heap exhaustion (`alloc` failure) and stack overflow are not modelled.
* Debug output, `ctap/secret.rs` zeroing and timing side channels are not modelled.

## What is not modelled

* Ed25519: a parameter.
* `api/crypto/rust_crypto.rs` (bindings to external crates), the hash accelerator of the bootloader as hardware, the Tock kernel, drivers and boards other than their flash and USB packets (buttons, the alarm and the random generator are modelled by their interface to applications, in Touch/ and Rng/), the USB controller and descriptors, LEDs.
* In `src/main.rs` the LEDs and debug output; `src/env/tock/mod.rs` except what the step functions take as events.
* Which head and entries are in memory when a storage operation fails (C73 quantifies over all of them).
* `libraries/persistent_store/src/{driver,buffer,file,test}.rs` as code: they are test support.
  `buffer.rs` is used as the definition of the flash contract.
* Tools, fuzzers, examples and tests.

## Findings

Statements of the list that are false of the code, with a witness proved in Coq (suffix `_refuted`):

* F1 (C02): with a 32-bit `usize` the reader truncates 64-bit lengths, so two encodings decode to
  the same value.  `C02_canonical_32_refuted`.
* F2 (C03): on compound map keys the order of the library is not the CTAP2 length-first order.
  `C03_ctap2_order_compound_refuted`.
* F3 (C41): an APDU with only an extended Le (case 2E) is refused.  `C41_case_2E_refuted`.
* F4 (C23): requests whose pinHashEnc does not decrypt cost a retry but are not counted as
  mismatches, so one power cycle can consume all retries.  `C23_retries_per_cycle_refuted`.
* F5 (C23): if the store fails to answer right after a wrong guess was compared, the guess is not
  counted as a mismatch.  `C23_store_faults_refuted`.
* F6 (C27): setMinPINLength raises the minimum and forces a PIN change before it rejects a list of
  RP IDs that is too long.
  `C27_failed_no_change_refuted`.
* F7 (C33): U2F authentication without presence enforcement answers with the presence bit set.
  `C33_u2f_dont_enforce_refuted`.
* F8 (C51, C36, C39): messages that do not parse and U2F messages neither end an enumeration nor
  disqualify a reset.  `C51_immediately_refuted`.
* F9, F10 (C32): registrations do not move the signature counter; each getNextAssertion repeats the
  counter of its getAssertion.  `C32_registration_refuted`, `C32_next_refuted`.
* F11 (C40): a refused large blob message at offset 0 leaves its announced length behind.
  `C40_buffered_refuted`.
* F12 (C57): in builds with overflow checks the product of two field elements may panic (release
  builds wrap around and are right).  `C57_checked_mul_refuted`.
* F13 (C57): the conversion of a field element to an integer loses a carry when the limbs stand for
  2^257 or more, as a sum may; callers only convert products.  `C57_from_montgomery_refuted`.
* F14 (C58): `points_mul` with a first factor of zero gives a wrong point, because `scalar_base_mul`
  of zero returns the projective point (0, 0, 1).  The verification of a signature of a hash that is
  a multiple of n meets this case.  `C58_points_mul_refuted`, `C59_verify_hash_refuted`.
* F15 (C61): `Rfc6979::next` computes the next K from the old V, where RFC 6979 (3.2.h) first replaces V by the
  candidate.  From the second candidate on the nonces are not those of the RFC.  `C61_rfc6979_refuted`.
* F16 (C60): `from_coordinates` refuses the points of the curve whose x is zero.  `C60_from_coordinates_refuted`.
* F17 (C63): a packet that another client sends while the authenticator waits for the user is received and dropped: no reply,
  not even the error that the channel is busy.  `C63_busy_refuted`.
* F18 (C67): `process_cbor` reads `bytes[0]` of every message, also of an empty one: an empty CTAPHID_CBOR message (on any
  endpoint, or on the vendor endpoint with feature vendor_hid) panics the firmware.  `C67_answered_refuted`.
* F19 (C67): configure accepts 32 bytes that are no private key, reports success and never lets them be replaced; every U2F
  registration then panics, also after power cycles.  `C67_usable_key_refuted`.
* F20 (C69): the system call filter checks that the length which a command names fits in a storage location, but the driver
  ignores that length and writes the whole slice that the application allows (up to 4096 bytes).  An application can write past
  the end of a location: with partition B running, a command for 0x5FFFC of length 4 overwrites the start of the running
  firmware at 0x60000.  `C69_confined_refuted`.
* F21 (C69): the driver marks the application as waiting before it checks alignment, and takes its buffer before it checks
  sizes; a refused command leaves the mark set (every later command is BUSY) or loses the buffer (every later write fails).  A
  host reaches this without user presence by one upgrade message (vendor command 0x42) with one byte of data, or with more
  than 4096 bytes: the store cannot write any more until the device restarts.  `C69_stuck`, `C69_starved`,
  `C69_available_refuted`.
* F22 (C68): a slice of no bytes at the end of the last page is in bounds, but `find_slice` refuses it with OutOfBounds.
  Nothing in the store reads such a slice.  `C68_empty_refuted`.
* F23 (C70): the kernel's USB driver panics on ordinary behaviour of a host.  A response that the host does not fetch before the
  sending call times out is cancelled but may stay in the controller; its completion then clears `pending_out` while the
  firmware waits for a packet, and the next packet fails the assertion in `send_packet_to_client` (`C70_panic_refuted`).  With
  two endpoints it also happens when the host fetches every packet at once (`C70_panic_prompt_refuted`).  A packet that arrives
  after the library gave back its buffer and before it cancels is copied to an empty buffer, which is a `panic!()`
  (`C70_panic_race_refuted`); one that arrives slightly earlier is lost (`C70_complete_refuted`).
* F24 (C70): with two endpoints (feature vendor_hid) the completion of a cancelled packet on one endpoint is reported as the
  completion of a packet on the other (`C70_reported_refuted`), and after `send_or_recv` returned a packet of the other
  endpoint the next call on the first one is refused with BUSY (`C70_error_refuted`), after which packets may be attributed to
  the wrong endpoint (`C70_received_refuted`).
* F25 (C70): the documentation of `send_or_recv_with_timeout` says that a packet is not sent if another one was received; the
  packet may already be in the controller, and the host gets it (`C70_not_sent_refuted`).
* F26 (C71): `finalize_and_clear` of the bootloader's hash driver promises that the driver can be used again, but clearing sets
  the state to zero instead of the initial value of SHA-256, so that a second digest would be wrong (`C71_reuse_refuted`); an
  empty piece is processed as the end of the message (`C71_digest_refuted`).  The bootloader does neither.
* F27 (C72): `wait_with_timeout` asserts that an alarm which cannot be stopped any more has been reported.  If the user touches the
  button and the alarm goes off in the few system calls before it is stopped, unsubscribing drops the report, stopping answers
  ALREADY, and the assertion fails: the touch crashes the application (`C72_panic_refuted`).
* F28 (C72): a touch between two waits of one presence check, while a keepalive packet is sent, is lost
  (`C72_between_refuted`).  It has to be repeated; no false presence follows.
* F29 (C72): if disabling the interrupts of a button fails, the call returns without stopping its alarm, which may end the next
  call at once (`C72_early_refuted`).
* F30 (C73): the store's documentation asks to call `recover` after a storage error.  If the error happened during a compaction,
  `recover` continues it with the entries that are in memory, from which the entry being copied was already removed, and
  returns InvalidStorage (`C73_recover_refuted`); opening the storage anew works.  `recover` should forget the entries first.
* F31 (C73): the firmware never calls `recover`: after a storage error it goes on with the store.  If the error left a partly
  written entry, a later insertion is written behind it, succeeds and is seen, and is wiped together with the partial entry at
  the next start (`C73_continue_refuted`).  The number of PIN retries is stored by such insertions.
* F32 (C74): `TockRng::fill_bytes` ignores the result of `fill_buffer`, and `try_fill_bytes` always gives Ok.  If a system call of the
  generator fails, the buffer keeps its zeros and is used as a key, a PIN token or a credential ID (`C74_silent_refuted`).
* F33 (C77): `is_valid` accepts `max_pin_retries() == 0`.  On such a device a PIN can be set, and is refused as blocked at its first
  use (`C77_pin_usable_refuted`); only a reset helps.  The check should ask for at least one.

Observations made while modelling, not violations of a listed property:

* Upgrade: the kernel flash driver's bounds are not checked again by the helper; `waiting` stays set
  after a failed call; the bootloader checks hashes, not signatures (C50_signed says when what it
  boots is nevertheless signed); the offset of the vendor upgrade command is truncated to `usize`.
* `sha256.rs`: the `BUSY` assertion is on a `const` cell and therefore never effective.
* `hmac.rs`: the branch for keys longer than a block cannot be reached (keys have 32 bytes by type).
* `linear.rs`: writing a byte in the middle of a word can write this word three times after an erase,
  which the storage contract forbids; the check `end < start` is dead code.
* `store.rs`: after an interrupted transaction is rolled back, the values that it had written stay in
  flash (not wiped) until they are compacted; a stale handle is only recognised by its position.
* A registration may fail after the credential was stored; changePIN leaves a token in use.

## Plan per property

| id | model | proof |
|----|-------|-------|
| C01 | reader and writer of `libraries/cbor` | induction on values (nested induction principle), fuel = input length |
| C02 | same | induction on the reader's fuel; 32-bit `usize` truncation modelled, gives a `_refuted` on 32-bit targets |
| C03 | `Ord for Value` and map reading | order laws by nested induction; comparison equals lexicographic order of encodings |
| C04 | same | exactness of depth by induction; totality is by construction, out-of-fuel excluded |
| C05 | `destructure_cbor_map` loop over peekable iterator | induction over keys and map |
| C06–C09 | `MessageAssembler`, `HidPacketIterator` as step functions with time | induction over packets; invariants over histories |
| C10–C11 | `CtapHid` step function | invariants over histories |
| C12–C14 | bit fields, words, `Position` | bit-level lemmas (popcount), arithmetic |
| C15–C18 | log-structured store over a flash model with interruptions | layered: flash, log of entries, refinement to a map |
| C19–C21 | fragment, concat, linear | list induction; fragment over the abstract store map |
| C22–C26 | client PIN state machine with persistent/volatile split, crash events | invariants over traces with ghost history |
| C27 | authenticatorConfig | case analysis on the request; non-atomic failure gives a `_refuted` |
| C28–C29 | credential storage over the abstract store map; key table | refinement to a map; disjointness by computation on intervals |
| C30–C31 | credential id wrapping, CBOR records | round trip |
| C32–C39 | CTAP2 command state machine | trace invariants |
| C40 | large blob state machine | trace invariants with ghost history; buffer bound gives a `_refuted` |
| C41–C42 | APDU parser, U2F user presence | case analysis; trace invariants |
| C43–C47, C52 | CBC, SHA-256, HMAC, HKDF, Int256, PIN protocol, DER | list induction, big-integer arithmetic by `lia`/`nia` |
| C48 | `TockClock` | invariant relating model time to real ticks |
| C49–C50 | upgrade storage and bootloader | invariants over histories |
| C51 | command dispatch | trace invariants |
| C53 | wink permission of `main_hid.rs` | invariant over packets |
| C54 | hmac-secret of assertions | unfolding of the successful command; the keys follow from an invariant over histories |
| C55 | user entity of assertions | same; the flags byte is read from the answer |
| C56 | tables, key schedules, both ciphers and CBC over bytes | the specification is FIPS 197 with GF(2^8) by definition; equality by computation on all bytes and induction on rounds and blocks |
| C57 | limbs as integers, with and without overflow checks | a mixed-radix value and bounds carried through each loop; Montgomery elimination as an exact integer identity; Pocklington certificates for the primes |
| C58 | projective and affine points over the limbs of C57, loops over windows and table columns | group law over any field of odd characteristic by explicit polynomial identities; completeness of the formulas because x^3 - 3x + b has no root; chain of doublings of the base point checked with slopes given as hints; invariants of the two multiplications |
| C59 | `try_sign`, the two loops around it and verification over Int/, Point/ and Hash/ | the specification is SEC 1 over the group of C58; algebra modulo the prime n |
| C60 | `exchange_x`, `from_coordinates`, `to_coordinates` | C58 and the order of the base point |
| C61 | `Rfc6979::new`, `next` with HMAC of C45 | equality with a transcription of RFC 6979 for the first candidate; refuted by computation for the second |
| C62 | the CTAP model with its primitives instantiated by the models of SHA-256, HMAC, AES and P-256 (Ctap/PropsEcdsa.v) | composition of C30, C35 with C59: what is signed satisfies the verification equation for the reported point |
| C63 | the loop of `check_user_presence` over arbitrary answers of hardware and link (Device/) | induction over the rounds: a normal form of the calls made, from which each claim follows |
| C64 | the event loop: queues of replies, the driver as input (Device/Loop.v) | invariant over lives: what was seen is a list of exchanges and a prefix of one that the queues continue |
| C65 | the event loop around Hid/ and Ctap/ | invariant: the receiver is the fold of the packets seen, the state of the authenticator is that of a history accounted for by them; composition with C06 and C09 |
| C66 | configure and the dispatch of vendor commands around the models of Ctap/ and Upgrade/ (Device/Vendor.v) | normal form of the effect of configure on the log; frame lemma for all other commands; induction over histories with power loss |
| C67 | the same firmware with panics as a value | invariant over histories: stored keys are usable, the large blob buffer is sane; refuted beyond that |
| C68 | the kernel's flash driver and filter, libtock and TockStorage on a byte memory with wear counters (Flash/) | address arithmetic over any list of locations; refinement of the store's flash, by the fact that every action the store does is legal (Store/Wp.v) |
| C69 | the same kernel under commands with any arguments, and the upgrade commands on it (Flash/) | case analysis of a command; simulation by the model of Upgrade/ with suitable failures of its driver; induction over uses; refuted beyond that |
| C70 | the kernel's USB driver, the library and the host as one machine (Usb/) | an invariant over all events that counts every packet as received, pending or held; refuted by schedules where it fails |
| C71 | the driver of the hash accelerator on a description of the hardware (Boot/) | the state after whole blocks is that of the standard; uniqueness of the digest carries it to the model of C50 |
| C72 | the function, the button listener, the alarm and the kernel's queue of upcalls as one machine (Touch/) | an invariant over all interleavings that relates the cells and the queue to the history; a measure for termination; refuted by schedules where it fails |
| C73 | `recover` on any memory content with the flash of an interrupted call (Store/PropsError.v) | the recovery does not depend on the memory, so that C16 applies; refuted by computed runs |
| C74 | the request for random bytes as a step function interleaved with the hardware and failing system calls (Rng/) | invariant over the course of a call; induction over the calls |
| C75 | sequences of insertions on the model of the store (Store/Endure.v) | a potential: the used lifetime weighed against how far the values are from the end of the log; it pays for each compaction, since a compaction happens only when the log is full |
| C76 | registrations and authenticatorConfig on the model of the device (Ctap/Attest.v) | inversion of the request; frames of the stored attestation data; induction over the history for the switch |
| C77 | the check `is_valid` as a boolean function (Ctap/Attest.v) | case analysis; the refuted part by a witness |
| C78 | the PIN commands on the model of the device (Ctap/Owner.v) | total correctness: rules that the computation ends with a result, for each operation of the model's monad |
| C79 | makeCredential and getAssertion and their CTAP1 counterparts on the model of the device (Ctap/Works.v, Ctap/WorksU2f.v) | total correctness with the rules of C78; the result is then known from the lemmas of C30 |
| C80 | makeCredential with rk and getAssertion without allow list on the model of the device (Ctap/Resident.v), deleteCredential (Ctap/DeleteWorks.v), updateUserInformation (Ctap/UpdateWorks.v) | total correctness with the rules of C78, from the invariant of C28 on the stored credentials; the result is then known from C28_register and C36_first |
| C81 | getInfo, getPINRetries and getKeyAgreement on the model of the device (Ctap/PropsInfo.v, Ctap/PropsUpdate.v), getCredsMetadata (Ctap/PropsMetadata.v) | total correctness with the rules of C78, from the bound of C28 on the stored credentials |
| C82 | authenticatorConfig on the model of the device (Ctap/PropsToggle.v, Ctap/PropsMinPin.v) | total correctness with the rules of C78 |

## Theorems

"closed" means that `Print Assumptions` prints "Closed under the global context".

<!-- theorems begin -->
| property | status | theorems (file) | Print Assumptions |
|---|---|---|---|
| C01 CBOR round trip | proved | `C01_roundtrip`, `C01_writer_accepts`, `C01_exact_consumption` (Cbor/Props.v) | closed |
| C02 CBOR canonicity | proved | `C02_canonical`, `C02_injective`, `C02_canonical_32_refuted` (Cbor/Props.v) | closed |
| C03 CBOR map keys are strictly ordered and unique | proved | `C03_reader_sorted`, `C03_sorted_unique`, `C03_order_is_encoding_order`, `C03_order_total`, `C03_ctap2_order`, `C03_ctap2_order_compound_refuted`, `C03_map_constructor` (Cbor/Props.v) | closed |
| C04 CBOR nesting limit is exact and decoding is total | proved | `C04_limit_exact`, `C04_accepted_within`, `C04_total`, `C04_prefix_free` (Cbor/Props.v) | closed |
| C05 CBOR map destructuring is exact lookup | proved | `C05_destructure` (Cbor/Props.v) | closed |
| C06 HID fragmentation round trip | proved | `C06_sender_framing`, `C06_roundtrip` (Hid/Props.v) | closed |
| C07 HID channel isolation | proved | `C07_foreign_inert`, `C06_roundtrip` (Hid/Props.v) | closed |
| C08 HID receiver invariants | proved | `C08_bounds`, `C09_provenance` (Hid/Props.v) | closed |
| C09 HID stale messages time out | proved | `C09_provenance`, `C09_timeout` (Hid/Props.v) | closed |
| C10 HID channel allocation is unique | proved | `C10_unique`, `C10_only_handed_out`, `C10_device` (Hid/Props.v) | closed |
| C11 HID lock is exclusive and bounded | proved | `C11_exclusive`, `C11_duration`, `C11_origin`, `C11_only_holder`, `C11_cross_transport` (Hid/Props.v) | closed |
| C12 Store entries round trip | proved | `C12_init`, `C12_compact`, `C12_internal`, `C12_user`, `C12_padding`, `C12_no_confusion` (Store/PropsFormat.v) | closed |
| C13 Store words detect interruption | proved | `C13_init`, `C13_compact`, `C13_internal`, `C13_user` (Store/PropsFormat.v) | closed |
| C14 Store positions are a faithful address space | proved | `C14_bijection`, `C14_monotone`, `C14_successor`, `C14_storage`, `C14_range` (Store/PropsFormat.v) | closed |
| C15 Store behaves as a key-value map | proved | `C15_calls`, `C15_transaction`, `C15_insert`, `C15_remove`, `C15_clear`, `C15_remove_handle`, `C15_failed`, `C15_no_capacity` (Store/PropsStore.v) | closed |
| C16 Store transactions are crash atomic | proved | `C16_histories`, `C16_atomic`, `C16_start` (Store/PropsStore.v) | closed |
| C17 Store compaction preserves content | proved | `C17_compact`, `C17_progress` (Store/PropsStore.v) | closed |
| C18 Store respects flash constraints | proved | `C18_call`, `C18_start`, `C18_wear`, `C18_lifetime` (Store/PropsStore.v) | closed |
| C19 Fragmented values round trip | proved | `C19_read`, `C19_read_range`, `C19_write`, `C19_delete`, `C19_too_long`, `C19_accepted`, `C19_corrupt` (Kv/Props.v) | closed |
| C20 Concatenated values behave as a map | proved | `C20_history`, `C20_too_long`, `C20_accepted`, `C20_no_panic` (Kv/Props.v) | closed |
| C21 Linear storage view | proved | `C21_write`, `C21_erase`, `C21_read`, `C21_roundtrip`, `C21_write_out`, `C21_erase_out`, `C21_read_out` (Linear/Props.v) | closed |
| C22 PIN guesses are bounded across power loss | proved | `C22_guesses_bounded`, `C22_zero_retries` (Ctap/PropsPin.v) | closed |
| C23 At most three PIN mismatches per power cycle | partial | `C23_mismatches_per_cycle_partial`, `C23_retries_per_cycle_refuted`, `C23_store_faults_refuted` (Ctap/PropsPin.v) | closed |
| C24 The PIN changes only as authorised | proved | `C24_pin_changes` (Ctap/PropsPin.v) | closed |
| C25 PIN tokens are needed, scoped and expire | proved | `C25_make_credential`, `C25_get_assertion`, `C25_large_blob_write`, `C25_one_rp`, `C27_authorised`, `C38_authorised` (Ctap/PropsToken.v) | closed |
| C26 Minimum PIN length is monotone and enforced | proved | `C26_minimum_grows`, `C26_short_pin_no_token`, `C24_pin_changes` (Ctap/PropsPin.v) | closed |
| C27 Configuration commands take effect only when authorised | partial | `C27_authorised`, `C27_failed_no_change_partial`, `C27_failed_no_change_refuted` (Ctap/PropsToken.v) | closed |
| C28 Resident credentials behave as a map | proved | `C28_invariant`, `C28_change`, `C28_register`, `C28_delete`, `C28_update`, `C28_full`, `C28_count` (Ctap/PropsCreds.v) | closed |
| C29 Storage keys do not collide | proved | `C29_disjoint`, `C29_space`, `C29_survive`, `C29_named`, `C29_fields` (Ctap/PropsLayout.v) | closed |
| C30 Credential ids are sealed and bound to the RP | proved | `C30_unwrap`, `C30_total`, `C30_only_sealed`, `C30_accepted`, `C30_usable`, `C30_u2f` (Ctap/PropsSeal.v) | closed |
| C31 Stored credential records round trip | proved | `C31_roundtrip`, `C31_stored` (Ctap/PropsSeal.v) | closed |
| C32 The signature counter never repeats | partial | `C32_increases_partial`, `C32_monotone`, `C32_registration_refuted`, `C32_next_refuted` (Ctap/PropsCounter.v) | closed |
| C33 User presence flag is truthful | partial | `C33_presence`, `C33_u2f_touch`, `C33_u2f_dont_enforce_refuted` (Ctap/PropsToken.v) | closed |
| C34 User verification flag is truthful | proved | `C34_verification`, `C34_one_presence` (Ctap/PropsToken.v) | closed |
| C35 Credential protection is enforced | proved | `C35_assertion`, `C35_number`, `C35_next`, `C35_excluded`, `C35_u2f`, `C35_created` (Ctap/PropsProtect.v) | closed |
| C36 Assertions enumerate all matching credentials once | partial | `C36_ranked`, `C36_newest`, `C36_first`, `C36_next`, `C36_complete` (Ctap/PropsEnumerate.v); `C51_continuation`, `C51_immediately_refuted` (Ctap/PropsEnum.v) | closed |
| C37 Credential management enumerates exactly once | proved | `C37_sets`, `C37_rps_first`, `C37_rps_next`, `C37_rps_complete`, `C37_creds_first`, `C37_creds_next`, `C37_creds_complete` (Ctap/PropsEnumerate.v) | closed |
| C38 Credential management is authorised | proved | `C38_authorised` (Ctap/PropsToken.v) | closed |
| C39 Reset only right after power-up and erases everything | proved | `C39_only`, `C39_erases`, `C39_all_or_nothing`, `C39_new_keys` (Ctap/PropsReset.v); `C39_possible` (Ctap/PropsResetPossible.v) | closed |
| C40 Large blob array integrity | partial | `C40_read`, `C40_written`, `C40_valid`, `C40_refused`, `C40_completed`, `C40_buffered_partial`, `C40_buffered_refuted` (Ctap/PropsBlob.v) | closed |
| C41 APDU parsing agrees with ISO 7816-4 | proved | `C41_iso_accepted`, `C41_accepted_only`, `C41_no_panic`, `C41_case_2E_refuted`, `C41_u2f_exact` (U2f/Props.v) | closed |
| C42 U2F touch is one-shot and time-limited | proved | `C42_touch`, `C42_works` (U2f/Props.v) | closed |
| C43 AES-CBC decryption inverts encryption | proved | `C43_roundtrip`, `C43_lengths`, `C43_is_cbc` (Ctap/PropsSeal.v) | closed |
| C44 SHA-256 streaming equals one-shot FIPS 180-4 | proved | `C44_streaming`, `C44_unique`, `C44_chunking`, `C44_primes` (Hash/Props.v) | closed |
| C45 HMAC and HKDF follow their definitions | proved | `C45_hmac`, `C45_hkdf` (Hash/Props.v) | closed |
| C46 256-bit modular arithmetic is correct | proved | `C46_add`, `C46_add_digit`, `C46_sub`, `C46_compare`, `C46_modular`, `C46_modmul`, `C46_modpow`, `C46_bits`, `C46_bytes_out`, `C46_bytes_in`, `C46_constants`, `C46_uniform`, `C46_curve` (Int/Props.v); `C46_order_prime`, `C46_inverse`, `C46_product_nonzero` (Prime/Props.v) | closed |
| C47 PIN protocol primitives round trip | proved | `C47_decrypt`, `C47_verify`, `C47_shared_verify`, `C47_agree` (Ctap/PropsSeal.v) | closed |
| C48 Timers are reliable despite counter wrap | proved | `C48_exact`, `C48_exact_first`, `C48_long_lower`, `C48_gap_needed` (Clock/Props.v) | closed |
| C49 Upgrade writes stay in the other partition and need a signature | proved | `C49_confined`, `C49_running`, `C49_metadata`, `C49_identity`, `C49_complete`, `C49_applied` (Upgrade/Props.v) | closed |
| C50 The bootloader boots the newest valid partition | proved | `C50_boot`, `C50_version`, `C50_signed` (Upgrade/Props.v) | closed |
| C51 Command dispatch is total and stateful commands are guarded | partial | `C51_one_answer`, `C51_continuation`, `C51_immediately_refuted` (Ctap/PropsEnum.v) | closed |
| C52 ECDSA signatures are serialised faithfully | proved | `C52_der`, `C52_der_unique`, `C52_raw`, `C52_range`, `C52_key` (Int/Props.v) | closed |
| C53 Wink only on request | proved | `C53_wink` (Hid/Props.v) | closed |
| C54 hmac-secret is a stable function of credential, salts and verification | proved | `C54_output`, `C54_next`, `C54_stable` (Ctap/PropsHmac.v) | closed |
| C55 Names of users are disclosed only after user verification | proved | `C55_names`, `C55_verified` (Ctap/PropsHmac.v) | closed |
| C56 AES-256 and CBC of the library are those of the standards | proved | `C56_cipher`, `C56_inverse`, `C56_standard`, `C56_cbc_encrypt`, `C56_cbc_decrypt`, `C56_cbc_round_trip` (Aes/Props.v); `C56_software`, `C56_software_blocks`, `C56_software_cbc` (Ctap/PropsSoftware.v) | closed |
| C57 Field arithmetic of P-256 is exact | proved | `C57_one_element`, `C57_modulus_prime`, `C57_constants`, `C57_add`, `C57_sub`, `C57_multiples`, `C57_is_zero`, `C57_mul`, `C57_square`, `C57_inv`, `C57_checked_same`, `C57_checked_mul_refuted`, `C57_to_montgomery`, `C57_from_montgomery`, `C57_from_montgomery_refuted` (Field/Props.v) | closed |
| C58 Points of P-256 are added and multiplied as the standard says | proved | `C58_group`, `C58_inverse`, `C58_order`, `C58_add`, `C58_add_mixed`, `C58_coordinates`, `C58_table`, `C58_base_mul`, `C58_mul`, `C58_points_mul`, `C58_points_mul_refuted` (Point/Props.v) | closed |
| C59 ECDSA signs and verifies as the standard says | partial | `C59_public_key`, `C59_sign`, `C59_standard`, `C59_verify_hash_partial`, `C59_verify_partial`, `C59_sign_rfc6979`, `C59_sign_rng`, `C59_verify_hash_refuted` (Sign/Props.v) | closed |
| C60 Key agreement gives both parties the same secret, on the curve | partial | `C60_pin_protocols_partial` (Ctap/PropsEcdsa.v); `C60_from_coordinates`, `C60_public_key_travels_partial`, `C60_from_coordinates_refuted`, `C60_exchange`, `C60_agreement` (Sign/Props.v) | closed |
| C61 Deterministic signatures use the nonces of RFC 6979 | partial | `C61_candidates`, `C61_rfc6979_partial`, `C61_rfc6979_refuted` (Sign/Props.v) | closed |
| C62 What the device signs is accepted for the key it reported | proved | `C62_registered`, `C62_u2f`, `C62_assertion` (Ctap/PropsEcdsa.v) | closed |
| C63 Waiting for the user ends as it should | proved | `C63_outcomes`, `C63_confirmed`, `C63_cancel`, `C63_timeout`, `C63_others`, `C63_busy_refuted` (Device/PropsWait.v) | closed |
| C64 Every reply answers the packet before it | proved | `C64_conversation`, `C64_one_at_a_time`, `C64_complete` (Device/Props.v) | closed |
| C65 From packets to packets the device is the authenticator | proved | `C65_history`, `C65_exchange`, `C65_u2f`, `C65_init` (Device/Props.v) | closed |
| C66 The attestation is provisioned once, by a present user, on the vendor endpoint | proved | `C66_permanent`, `C66_provisioned`, `C66_rest`, `C66_no_enterprise`, `C66_answer`, `C66_installs`, `C66_main_endpoint`, `C66_upgrades` (Device/PropsVendor.v) | closed |
| C67 The firmware answers every message | partial | `C67_answered_partial`, `C67_answered_refuted`, `C67_usable_key_refuted` (Device/PropsVendor.v) | closed |
| C68 The board's flash is the flash the store expects | proved | `C68_new`, `C68_places`, `C68_read`, `C68_write`, `C68_erase`, `C68_empty_refuted`, `C68_call`, `C68_start`, `C68_words`, `C68_interrupted` (Flash/Props.v) | closed |
| C69 The kernel protects the flash and keeps it available | partial | `C69_confined_partial`, `C69_confined_refuted`, `C69_library`, `C69_simulated`, `C69_messages`, `C69_running`, `C69_applied`, `C69_available_partial`, `C69_stuck`, `C69_starved`, `C69_available_refuted` (Flash/PropsGuard.v) | closed |
| C70 USB packets arrive once, in order and at the right endpoint | partial | `C70_received`, `C70_complete_partial`, `C70_woken`, `C70_fair`, `C70_given`, `C70_reported_partial`, `C70_panic_partial`, `C70_panic_refuted`, `C70_panic_prompt_refuted`, `C70_panic_race_refuted`, `C70_complete_refuted`, `C70_not_sent_refuted`, `C70_reported_refuted`, `C70_error_refuted`, `C70_received_refuted` (Usb/Props.v) | closed |
| C71 The bootloader's hash accelerator computes SHA-256 | partial | `C71_digest_partial`, `C71_again_partial`, `C71_digest_refuted`, `C71_reuse_refuted`, `C71_bootloader`, `C71_boot` (Boot/Props.v) | closed |
| C72 A touch counts during the wait, and only then | partial | `C72_confirmed`, `C72_timeout`, `C72_zero`, `C72_not_ignored`, `C72_ends`, `C72_touch`, `C72_listens`, `C72_clean`, `C72_panic_partial`, `C72_panic_refuted`, `C72_between_refuted`, `C72_early_refuted` (Touch/Props.v); `C72_presence`, `C72_whole` (Touch/PropsPresence.v) | closed |
| C73 After a storage error the store recovers without a restart | partial | `C73_recover_partial`, `C73_recover_refuted`, `C73_continue_refuted` (Store/PropsError.v) | closed |
| C74 Random bytes are fresh bytes of the hardware | partial | `C74_filled`, `C74_failed`, `C74_clean`, `C74_ends`, `C74_once`, `C74_silent_refuted` (Rng/Props.v) | closed |
| C75 The flash lasts as long as promised | proved | `C75_endurance`, `C75_counter`, `C75_ten_years` (Store/PropsEndure.v) | closed |
| C76 Attestation discloses no more than configured | proved | `C76_certificate`, `C76_enterprise`, `C76_enabled`, `C76_one_kind`, `C76_u2f` (Ctap/PropsAttest.v) | closed |
| C77 An accepted customization is sound | partial | `C77_assumed`, `C77_exact`, `C77_pin_usable_refuted` (Ctap/PropsAttest.v); `C77_pin_usable_partial` (Ctap/PropsOwner.v) | closed |
| C78 Whoever knows the PIN can use it | proved | `C78_set_pin`, `C78_token`, `C78_token_permissions`, `C78_after_restart` (Ctap/PropsOwner.v) | closed |
| C79 Registrations and logins succeed | proved | `C79_register`, `C79_login` (Ctap/PropsWorks.v); `C79_u2f_register`, `C79_u2f_login` (Ctap/PropsWorksU2f.v) | closed |
| C80 Passkeys can be stored while there is room, and used | proved | `C80_delete` (Ctap/PropsDelete.v); `C80_register`, `C80_place`, `C80_login` (Ctap/PropsResident.v); `C80_update` (Ctap/PropsUpdate.v) | closed |
| C81 The device always says how it stands, and truly | proved | `C81_info`, `C81_retries` (Ctap/PropsInfo.v); `C81_metadata` (Ctap/PropsMetadata.v); `C81_key` (Ctap/PropsUpdate.v) | closed |
| C82 The settings can be changed by who may | proved | `C82_min_pin` (Ctap/PropsMinPin.v); `C82_toggle` (Ctap/PropsToggle.v) | closed |
<!-- theorems end -->
