(** Status codes, credentials, and the CBOR records OpenSK writes for itself.
    Sources: opensk/src/ctap/status_code.rs, ctap/data_formats.rs, api/private_key.rs,
    api/key_store.rs. *)
From Verif Require Import Base Cbor.Model Ctap.Crypto.

(** status_code.rs: the CTAP2 status codes that the modelled code returns.  [Panic] is not a
    status: it marks an execution that would abort the firmware. *)
Inductive status :=
| INVALID_COMMAND | INVALID_PARAMETER | INVALID_LENGTH | INVALID_SEQ
| CBOR_UNEXPECTED_TYPE | INVALID_CBOR | MISSING_PARAMETER
| LARGE_BLOB_STORAGE_FULL | CREDENTIAL_EXCLUDED | UNSUPPORTED_ALGORITHM | OPERATION_DENIED
| KEY_STORE_FULL | UNSUPPORTED_OPTION | INVALID_OPTION | KEEPALIVE_CANCEL | NO_CREDENTIALS
| USER_ACTION_TIMEOUT | NOT_ALLOWED | PIN_INVALID | PIN_BLOCKED | PIN_AUTH_INVALID
| PIN_AUTH_BLOCKED | PIN_NOT_SET | PUAT_REQUIRED | PIN_POLICY_VIOLATION | INTEGRITY_FAILURE
| INVALID_SUBCOMMAND | UNAUTHORIZED_PERMISSION | ERR_OTHER | VENDOR_INTERNAL_ERROR
| VENDOR_HARDWARE_FAILURE
| Panic.

(** status_code.rs 24-84: the numeric codes. *)
Definition status_code (s : status) : N :=
  match s with
  | INVALID_COMMAND => 0x01 | INVALID_PARAMETER => 0x02 | INVALID_LENGTH => 0x03
  | INVALID_SEQ => 0x04 | CBOR_UNEXPECTED_TYPE => 0x11 | INVALID_CBOR => 0x12
  | MISSING_PARAMETER => 0x14 | LARGE_BLOB_STORAGE_FULL => 0x18 | CREDENTIAL_EXCLUDED => 0x19
  | UNSUPPORTED_ALGORITHM => 0x26 | OPERATION_DENIED => 0x27 | KEY_STORE_FULL => 0x28
  | UNSUPPORTED_OPTION => 0x2B | INVALID_OPTION => 0x2C | KEEPALIVE_CANCEL => 0x2D
  | NO_CREDENTIALS => 0x2E | USER_ACTION_TIMEOUT => 0x2F | NOT_ALLOWED => 0x30
  | PIN_INVALID => 0x31 | PIN_BLOCKED => 0x32 | PIN_AUTH_INVALID => 0x33
  | PIN_AUTH_BLOCKED => 0x34 | PIN_NOT_SET => 0x35 | PUAT_REQUIRED => 0x36
  | PIN_POLICY_VIOLATION => 0x37 | INTEGRITY_FAILURE => 0x3D | INVALID_SUBCOMMAND => 0x3E
  | UNAUTHORIZED_PERMISSION => 0x40 | ERR_OTHER => 0x7F | VENDOR_INTERNAL_ERROR => 0xF2
  | VENDOR_HARDWARE_FAILURE => 0xF3 | Panic => 0x100
  end%N.

(** data_formats.rs 547-558: CredentialProtectionPolicy; its derived order is the numeric one. *)
Inductive policy := UvOptional | UvOptionalWithList | UvRequired.
Definition policy_code (p : policy) : N :=
  match p with UvOptional => 1 | UvOptionalWithList => 2 | UvRequired => 3 end.
Definition policy_leb (a b : policy) : bool := (policy_code a <=? policy_code b)%N.
Definition policy_eqb (a b : policy) : bool := (policy_code a =? policy_code b)%N.

(** data_formats.rs 586-600: PublicKeyCredentialSource. *)
Record cred := mkCred {
  cr_id : bytes;
  cr_key : priv;
  cr_rp : bytes;
  cr_user : bytes;
  cr_display : option bytes;
  cr_policy : option policy;
  cr_order : N;
  cr_name : option bytes;
  cr_icon : option bytes;
  cr_blob : option bytes;
  cr_lbkey : option bytes
}.

(** data_formats.rs 630-634: is_discoverable. *)
Definition is_discoverable (c : cred) : bool :=
  match cr_policy c with
  | None => true
  | Some UvOptional => true
  | Some _ => false
  end.

(** api/key_store.rs 47-52: CredentialSource, what a wrapped credential ID carries. *)
Record source := mkSource {
  so_key : priv;
  so_rp_hash : bytes;
  so_policy : option policy;
  so_blob : option bytes
}.

(** ** CBOR helpers *)

(** data_formats.rs 1164-1166: extract_integer, extract_byte_string, ... and ok_or_missing. *)
Definition extract_unsigned (v : value) : res status N :=
  match v with VUnsigned n => Ok n | _ => Err CBOR_UNEXPECTED_TYPE end.
Definition extract_integer (v : value) : res status Z :=
  match v with
  | VUnsigned n => if (n <=? 9223372036854775807)%N then Ok (Z.of_N n)
                   else Err CBOR_UNEXPECTED_TYPE
  | VNegative z => Ok z
  | _ => Err CBOR_UNEXPECTED_TYPE
  end.
Definition extract_byte_string (v : value) : res status bytes :=
  match v with VBytes b => Ok b | _ => Err CBOR_UNEXPECTED_TYPE end.
Definition extract_text_string (v : value) : res status bytes :=
  match v with VText b => Ok b | _ => Err CBOR_UNEXPECTED_TYPE end.
Definition extract_array (v : value) : res status (list value) :=
  match v with VArray l => Ok l | _ => Err CBOR_UNEXPECTED_TYPE end.
Definition extract_map (v : value) : res status (list (value * value)) :=
  match v with VMap m => Ok m | _ => Err CBOR_UNEXPECTED_TYPE end.
Definition extract_bool (v : value) : res status bool :=
  match v with
  | VSimple SFalse => Ok false
  | VSimple STrue => Ok true
  | _ => Err CBOR_UNEXPECTED_TYPE
  end.
Definition ok_or_missing {A} (v : option A) : res status A :=
  match v with Some x => Ok x | None => Err MISSING_PARAMETER end.

(** [o.map(f).transpose()?] of the source. *)
Definition map_opt {A B E} (f : A -> res E B) (o : option A) : res E (option B) :=
  match o with
  | None => Ok None
  | Some a => b <- f a ;; Ok (Some b)
  end.

(** sk-cbor macros.rs cbor_map_options!: entries whose value is absent are left out; the writer
    then sorts.  Keys of the literal maps of this code base are pairwise distinct. *)
Fixpoint present (l : list (value * option value)) : list (value * value) :=
  match l with
  | [] => []
  | (k, Some v) :: l' => (k, v) :: present l'
  | (k, None) :: l' => present l'
  end.
Definition map_options (l : list (value * option value)) : value := VMap (map_sort (present l)).

Definition vint (z : Z) : value :=
  if (z <? 0)%Z then VNegative z else VUnsigned (Z.to_N z).
Definition vbool (b : bool) : value := VSimple (if b then STrue else SFalse).

(** data_formats.rs 561-565, 567-578: policies in CBOR. *)
Definition policy_to_cbor (p : policy) : value := VUnsigned (policy_code p).
Definition policy_of_cbor (v : value) : res status policy :=
  z <- extract_integer v ;;
  if (z =? 1)%Z then Ok UvOptional
  else if (z =? 2)%Z then Ok UvOptionalWithList
  else if (z =? 3)%Z then Ok UvRequired
  else Err CBOR_UNEXPECTED_TYPE.

(** ** Records that OpenSK writes for itself *)

Section Records.
  Variable c : prims.
  (** Whether the crate is compiled with the feature ed25519. *)
  Variable ed25519 : bool.

  (** data_formats.rs 510-516: the algorithm identifiers. *)
  Definition alg_code (a : alg) : Z := match a with Es256 => -7 | Eddsa => -8 end.
  (** data_formats.rs 510-543: SignatureAlgorithm; [None] is Unknown. *)
  Definition alg_of_cbor (v : value) : res status (option alg) :=
    z <- extract_integer v ;;
    Ok (if (z =? -7)%Z then Some Es256
        else if (ed25519 && (z =? -8))%Z then Some Eddsa else None).

  (** private_key.rs 140-151: to_cbor; [iv] is the drawn initialization vector. *)
  Definition priv_to_cbor (wrap_key iv : bytes) (k : priv) : res status value :=
    match cbc_encrypt c wrap_key iv true (pk_bytes k) with
    | None => Err INVALID_PARAMETER
    | Some w => Ok (VArray [vint (alg_code (pk_alg k)); VBytes w])
    end.

  (** private_key.rs 153-172: from_cbor. *)
  Definition priv_of_cbor (wrap_key : bytes) (v : value) : res status priv :=
    l <- extract_array v ;;
    match l with
    | [a; w] =>
        wrapped <- extract_byte_string w ;;
        match cbc_decrypt c wrap_key true wrapped with
        | None => Err INVALID_PARAMETER
        | Some kb =>
            oa <- alg_of_cbor a ;;
            match oa with
            | None => Err INVALID_CBOR
            | Some al => if Nat.eqb (length kb) 32 then Ok (mkPriv al kb) else Err INVALID_CBOR
            end
        end
    | _ => Err INVALID_CBOR
    end.

  (** data_formats.rs 634-652: PublicKeyCredentialSource::to_cbor. *)
  Definition cred_to_cbor (wrap_key iv : bytes) (r : cred) : res status value :=
    k <- priv_to_cbor wrap_key iv (cr_key r) ;;
    Ok (map_options
      [ (VUnsigned 0, Some (VBytes (cr_id r)));
        (VUnsigned 2, Some (VText (cr_rp r)));
        (VUnsigned 3, Some (VBytes (cr_user r)));
        (VUnsigned 4, option_map VText (cr_display r));
        (VUnsigned 6, option_map policy_to_cbor (cr_policy r));
        (VUnsigned 7, Some (VUnsigned (cr_order r)));
        (VUnsigned 8, option_map VText (cr_name r));
        (VUnsigned 9, option_map VText (cr_icon r));
        (VUnsigned 10, option_map VBytes (cr_blob r));
        (VUnsigned 11, option_map VBytes (cr_lbkey r));
        (VUnsigned 12, Some k) ]).

  (** data_formats.rs 654-712: PublicKeyCredentialSource::from_cbor. *)
  Definition cred_of_cbor (wrap_key : bytes) (v : value) : res status cred :=
    m <- extract_map v ;;
    match destructure m (map VUnsigned [0; 2; 3; 4; 6; 7; 8; 9; 10; 11; 12]%N) with
    | [ci; rp; uh; ud; po; co; un; ui; cb; lb; pk] =>
        ci <- ok_or_missing ci ;;
        ci <- extract_byte_string ci ;;
        rp <- ok_or_missing rp ;;
        rp <- extract_text_string rp ;;
        uh <- ok_or_missing uh ;;
        uh <- extract_byte_string uh ;;
        ud <- map_opt extract_text_string ud ;;
        po <- map_opt policy_of_cbor po ;;
        co <- match co with None => Ok 0%N | Some n => extract_unsigned n end ;;
        un <- map_opt extract_text_string un ;;
        ui <- map_opt extract_text_string ui ;;
        cb <- map_opt extract_byte_string cb ;;
        lb <- map_opt extract_byte_string lb ;;
        pk <- ok_or_missing pk ;;
        pk <- priv_of_cbor wrap_key pk ;;
        Ok (mkCred ci pk rp uh ud po co un ui cb lb)
    | _ => Err VENDOR_INTERNAL_ERROR
    end.

  (** storage.rs 605-613: serialize_credential and deserialize_credential.  [W] is the width of
      usize in bits. *)
  Definition serialize_credential (wrap_key iv : bytes) (r : cred) : res status bytes :=
    v <- cred_to_cbor wrap_key iv r ;;
    match cbor_write v with
    | Some b => Ok b
    | None => Err VENDOR_INTERNAL_ERROR
    end.
  Definition deserialize_credential (W : N) (wrap_key b : bytes) : option cred :=
    match cbor_read W b with
    | None => None
    | Some v => match cred_of_cbor wrap_key v with Ok r => Some r | Err _ => None end
    end.

  (** ** Wrapped credential IDs *)

  (** key_store.rs 34-44: sizes. *)
  Definition CBOR_CREDENTIAL_ID_SIZE : nat := 241.
  Definition CBOR_CREDENTIAL_ID_VERSION : N := 1.
  Definition MAX_PADDING_LENGTH : nat := 191.

  (** key_store.rs 289-297: add_padding; [None] is Error. *)
  Definition add_padding (d : bytes) : option bytes :=
    if (Nat.eqb (length d) 0 || (MAX_PADDING_LENGTH <? length d))%bool then None
    else
      let pad := (MAX_PADDING_LENGTH - (length d - 1))%nat in
      Some (d ++ repeat (N.of_nat pad) pad).

  (** key_store.rs 299-316: remove_padding. *)
  Definition remove_padding (d : bytes) : option bytes :=
    if negb (Nat.eqb (length d) (MAX_PADDING_LENGTH + 1)) then None
    else
      let pad := List.last d 0%N in
      if ((pad =? 0) || (N.of_nat MAX_PADDING_LENGTH <? pad))%N then None
      else
        let keep := (length d - N.to_nat pad)%nat in
        if forallb (fun x => (x =? pad)%N) (skipn keep d) then Some (firstn keep d) else None.

  (** key_store.rs 248-286: the four master keys inside the 128 stored bytes. *)
  Definition mk_encryption (m : bytes) : bytes := firstn 32 m.
  Definition mk_authentication (m : bytes) : bytes := firstn 32 (skipn 32 m).
  Definition mk_cred_random (m : bytes) (uv : bool) : bytes :=
    firstn 32 (skipn (if uv then 96 else 64) m).

  Definition opt_of {E A} (r : res E A) : option A := match r with Ok a => Some a | Err _ => None end.

  (** key_store.rs 147-177: wrap_credential with master keys [m], where [iv1] and [iv2] are the two
      drawn initialization vectors.  [None] is Error. *)
  Definition source_to_cbor (k : value) (s : source) : value :=
    map_options
      [ (VUnsigned 0, Some k);
        (VUnsigned 1, Some (VBytes (so_rp_hash s)));
        (VUnsigned 2, option_map policy_to_cbor (so_policy s));
        (VUnsigned 3, option_map VBytes (so_blob s)) ].
  Definition wrap_pure (m iv1 iv2 : bytes) (s : source) : option bytes :=
    match priv_to_cbor (mk_encryption m) iv1 (so_key s) with
    | Err _ => None
    | Ok k =>
        match cbor_write (source_to_cbor k s) with
        | None => None
        | Some payload =>
            match add_padding payload with
            | None => None
            | Some padded =>
                match cbc_encrypt c (mk_encryption m) iv2 true padded with
                | None => None
                | Some enc =>
                    let body := CBOR_CREDENTIAL_ID_VERSION :: enc in
                    Some (body ++ hmac c (mk_authentication m) body)
                end
            end
        end
    end.

  (** key_store.rs 318-359: decrypt_cbor_credential_id.  Outer [None] is Error, inner [None] is a
      credential that is ignored. *)
  Definition decrypt_credential_id (W : N) (m body : bytes) : option (option source) :=
    match cbc_decrypt c (mk_encryption m) true body with
    | None => None
    | Some plain =>
        match remove_padding plain with
        | None => None
        | Some unpadded =>
            match cbor_read W unpadded with
            | Some (VMap kv) =>
                match destructure kv (map VUnsigned [0; 1; 2; 3]%N) with
                | [Some k; Some rp; po; cb] =>
                    opt_of
                      (k <- priv_of_cbor (mk_encryption m) k ;;
                       rp <- extract_byte_string rp ;;
                       if negb (Nat.eqb (length rp) 32) then Err VENDOR_INTERNAL_ERROR
                       else
                         po <- map_opt policy_of_cbor po ;;
                         cb <- map_opt extract_byte_string cb ;;
                         Ok (Some (mkSource k rp po cb)))
                | _ => Some None
                end
            | _ => None
            end
        end
    end.

  (** key_store.rs 190-228: unwrap_credential with master keys [m].  The length test comes before
      the keys are read; the caller below keeps that order. *)
  Definition unwrap_pure (W : N) (m id rp_hash : bytes) : option (option source) :=
    let n := (length id - 32)%nat in
    if negb (bytes_eqb (hmac c (mk_authentication m) (firstn n id)) (skipn n id)) then Some None
    else if negb (hd 0 id =? CBOR_CREDENTIAL_ID_VERSION)%N then Some None
    else if negb (Nat.eqb (length id) CBOR_CREDENTIAL_ID_SIZE) then Some None
    else
      match decrypt_credential_id W m (skipn 1 (firstn n id)) with
      | None => None
      | Some None => Some None
      | Some (Some s) => if bytes_eqb rp_hash (so_rp_hash s) then Some (Some s) else Some None
      end.
End Records.
