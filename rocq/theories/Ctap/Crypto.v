(** Cryptographic primitives as parameters, and the code built directly on them:
    AES-CBC (/repo/libraries/crypto/src/cbc.rs, opensk/src/ctap/crypto_wrapper.rs) and the two
    PIN protocols (opensk/src/ctap/pin_protocol.rs). *)
From Verif Require Import Base.
From Coq Require Import String Ascii.
Import List ListNotations.
Open Scope list_scope.

(** ASCII string literals of the source as byte strings. *)
Fixpoint str (s : string) : bytes :=
  match s with
  | EmptyString => []
  | String c s' => N_of_ascii c :: str s'
  end.
Arguments str : simpl never.

(** data_formats.rs 510-516, private_key.rs 36-40: a private key is an algorithm and its 32 secret
    bytes (for Ed25519 the seed). *)
Inductive alg := Es256 | Eddsa.
Record priv := mkPriv { pk_alg : alg; pk_bytes : bytes }.

(** data_formats.rs 720-727: CoseKey. *)
Record cose := mkCose { cx : bytes; cy : bytes; calg : Z; ckty : Z; ccrv : Z }.

(** The primitives, from the trait Env::Crypto (api/crypto/*.rs): hashes, MACs, the AES-256 block
    cipher, P-256 ECDH, and signatures.  They are arbitrary functions; theorems that need one of
    their laws state it (see [prims_ok]). *)
Record prims := mkPrims {
  sha256 : bytes -> bytes;
  hmac : bytes -> bytes -> bytes;                 (* key, message *)
  hkdf : bytes -> bytes -> bytes -> bytes;        (* key material, salt, info *)
  hkdf_empty_salt : bytes -> bytes -> bytes;      (* key material, info *)
  aes_enc : bytes -> bytes -> bytes;              (* key, 16-byte block *)
  aes_dec : bytes -> bytes -> bytes;
  ecdh_pub : bytes -> bytes * bytes;              (* secret key to public coordinates *)
  ecdh_on_curve : bytes * bytes -> bool;          (* from_coordinates succeeds *)
  ecdh_shared : bytes -> bytes * bytes -> bytes;  (* x coordinate of the product *)
  ecdsa_valid : bytes -> bool;                    (* SecretKey::from_slice succeeds *)
  sign : priv -> bytes -> bytes;                  (* encoded signature *)
  pub_of : priv -> cose
}.

(** Laws of the primitives used by some theorems: output lengths, outputs are bytes, and AES
    decryption inverts encryption of a block. *)
Record prims_ok (c : prims) : Prop := mkPrimsOk {
  ok_sha_len : forall m, length (sha256 c m) = 32%nat;
  ok_sha_bytes : forall m, bytes_ok (sha256 c m) = true;
  ok_hmac_len : forall k m, length (hmac c k m) = 32%nat;
  ok_hmac_bytes : forall k m, bytes_ok (hmac c k m) = true;
  ok_hkdf_len : forall k s i, length (hkdf c k s i) = 32%nat;
  ok_enc_len : forall k b, length b = 16%nat -> length (aes_enc c k b) = 16%nat;
  ok_dec_len : forall k b, length b = 16%nat -> length (aes_dec c k b) = 16%nat;
  ok_enc_bytes : forall k b, length b = 16%nat -> bytes_ok (aes_enc c k b) = true;
  ok_dec_enc : forall k b, length b = 16%nat -> bytes_ok b = true ->
    aes_dec c k (aes_enc c k b) = b
}.

(** Errors of the wrapper: CTAP1_ERR_INVALID_PARAMETER is the only one. *)
Section Cbc.
  Variable c : prims.

  (** crypto/src/util.rs: xor_block_16. *)
  Definition xor_block (a b : bytes) : bytes := map (fun p => N.lxor (fst p) (snd p)) (combine a b).

  (** crypto/src/cbc.rs 24-31: cbc_encrypt; the loop over chunks of 16 bytes, [n] of them.  The
      callers below ensure that the length is a multiple of 16. *)
  Fixpoint cbc_enc (key iv : bytes) (n : nat) (l : bytes) : bytes :=
    match n with
    | O => []
    | S n' =>
        let blk := aes_enc c key (xor_block (firstn 16 l) iv) in
        blk ++ cbc_enc key blk n' (skipn 16 l)
    end.

  (** crypto/src/cbc.rs 38-46: cbc_decrypt. *)
  Fixpoint cbc_dec (key iv : bytes) (n : nat) (l : bytes) : bytes :=
    match n with
    | O => []
    | S n' =>
        let blk := firstn 16 l in
        xor_block (aes_dec c key blk) iv ++ cbc_dec key blk n' (skipn 16 l)
    end.

  Definition zero_iv : bytes := repeat 0%N 16.

  (** crypto_wrapper.rs 23-44: aes256_cbc_encrypt; [iv] is what the random number generator
      returns, used only if [embeds_iv].  [None] is CTAP1_ERR_INVALID_PARAMETER. *)
  Definition cbc_encrypt (key iv : bytes) (embeds_iv : bool) (plain : bytes) : option bytes :=
    if negb (Nat.eqb (length plain mod 16) 0) then None
    else if embeds_iv then Some (iv ++ cbc_enc key iv (length plain / 16) plain)
    else Some (cbc_enc key zero_iv (length plain / 16) plain).

  (** crypto_wrapper.rs 47-65: aes256_cbc_decrypt. *)
  Definition cbc_decrypt (key : bytes) (embeds_iv : bool) (cipher : bytes) : option bytes :=
    if negb (Nat.eqb (length cipher mod 16) 0) || (embeds_iv && Nat.eqb (length cipher) 0)
    then None
    else if embeds_iv then
      let body := skipn 16 cipher in
      Some (cbc_dec key (firstn 16 cipher) (length body / 16) body)
    else Some (cbc_dec key zero_iv (length cipher / 16) cipher).
End Cbc.

(** data_formats.rs 897-901: PinUvAuthProtocol. *)
Inductive pin_proto := V1 | V2.
Definition proto_eqb (a b : pin_proto) : bool :=
  match a, b with V1, V1 => true | V2, V2 => true | _, _ => false end.

Definition bytes_eqb (a b : bytes) : bool :=
  match lexcmp a b with Eq => true | _ => false end.

(** Outcome of a MAC check: accepted, wrong MAC (CTAP2_ERR_PIN_AUTH_INVALID) or wrong length
    (CTAP1_ERR_INVALID_PARAMETER). *)
Inductive mac_result := MacOk | MacInvalid | MacBadLength.

Section PinProtocol.
  Variable c : prims.

  (** pin_protocol.rs 180-193: verify_v1 (Hmac256::verify_truncated_left compares the first 16
      bytes). *)
  Definition verify_v1 (key msg sg : bytes) : mac_result :=
    if negb (Nat.eqb (length sg) 16) then MacBadLength
    else if bytes_eqb (firstn 16 (hmac c key msg)) sg then MacOk else MacInvalid.

  (** pin_protocol.rs 195-208: verify_v2. *)
  Definition verify_v2 (key msg sg : bytes) : mac_result :=
    if negb (Nat.eqb (length sg) 32) then MacBadLength
    else if bytes_eqb (hmac c key msg) sg then MacOk else MacInvalid.

  (** pin_protocol.rs 117-127: verify_pin_uv_auth_token. *)
  Definition verify_token (p : pin_proto) (token msg sg : bytes) : mac_result :=
    match p with V1 => verify_v1 token msg sg | V2 => verify_v2 token msg sg end.

  (** pin_protocol.rs 103-115: authenticate_pin_uv_auth_token (what a client computes; compiled in
      the source for tests only). *)
  Definition authenticate (p : pin_proto) (key msg : bytes) : bytes :=
    match p with V1 => firstn 16 (hmac c key msg) | V2 => hmac c key msg end.

  (** pin_protocol.rs 129-144, 210-225, 247-263: SharedSecret; its AES and HMAC keys. *)
  Record shared := mkShared { sh_proto : pin_proto; sh_aes : bytes; sh_hmac : bytes }.
  Definition shared_new (p : pin_proto) (handshake : bytes) : shared :=
    match p with
    | V1 => let k := sha256 c handshake in mkShared V1 k k
    | V2 => mkShared V2 (hkdf_empty_salt c handshake (str "CTAP2 AES key"))
                        (hkdf_empty_salt c handshake (str "CTAP2 HMAC key"))
    end.

  Definition embeds (p : pin_proto) : bool := match p with V1 => false | V2 => true end.

  (** pin_protocol.rs 146-168, 227-238, 265-276: encrypt, decrypt and verify of a shared secret. *)
  Definition shared_encrypt (s : shared) (iv plain : bytes) : option bytes :=
    cbc_encrypt c (sh_aes s) iv (embeds (sh_proto s)) plain.
  Definition shared_decrypt (s : shared) (cipher : bytes) : option bytes :=
    cbc_decrypt c (sh_aes s) (embeds (sh_proto s)) cipher.
  Definition shared_verify (s : shared) (msg sg : bytes) : mac_result :=
    verify_token (sh_proto s) (sh_hmac s) msg sg.

  (** data_formats.rs 769-790: try_into_ecdh_coordinates, and pin_protocol.rs 68-81: decapsulate.
      The error says whether the algorithm or the point was refused. *)
  Inductive decap_error := DecapAlgorithm | DecapPoint.
  Definition ecdh_coordinates (k : cose) : res decap_error (bytes * bytes) :=
    if (negb (calg k =? -25) && negb (calg k =? -7))%Z then Err DecapAlgorithm
    else if (negb (ckty k =? 2) || negb (ccrv k =? 1))%Z then Err DecapAlgorithm
    else Ok (cx k, cy k).
  Definition decapsulate (sk : bytes) (peer : cose) (p : pin_proto) : res decap_error shared :=
    xy <- ecdh_coordinates peer ;;
    if ecdh_on_curve c xy then Ok (shared_new p (ecdh_shared c sk xy)) else Err DecapPoint.

  (** data_formats.rs 742-753: from_ecdh_public_key, as used by get_public_key. *)
  Definition cose_of_ecdh (sk : bytes) : cose :=
    let '(x, y) := ecdh_pub c sk in mkCose x y (-25) 2 1.
End PinProtocol.
