(** Command parsing and response encoding.
    Sources: opensk/src/ctap/command.rs, data_formats.rs, response.rs, mod.rs 585-612. *)
From Verif Require Import Base Hid.Model U2f.Model Cbor.Model Ctap.Crypto Ctap.Types Ctap.Machine
  Ctap.Commands.
From Coq Require Import String List.
Import ListNotations.
Open Scope list_scope.

(** [.into_iter().map(f).collect::<Result<Vec<_>, _>>()?] *)
Fixpoint map_res {A B E} (f : A -> res E B) (l : list A) : res E (list B) :=
  match l with
  | [] => Ok []
  | a :: l' => b <- f a ;; bs <- map_res f l' ;; Ok (b :: bs)
  end.
(** [o.map_or(Ok(d), f)?] *)
Definition map_or {A B E} (d : B) (f : A -> res E B) (o : option A) : res E B :=
  match o with None => Ok d | Some a => f a end.
Definition check (b : bool) (s : status) : res status unit := if b then Ok tt else Err s.

(** destructure_cbor_map! on the entry values of a command, with text and integer keys. *)
Definition fields (m : list (value * value)) (keys : list value) (i : nat) : option value :=
  nth i (destructure m keys) None.

(** data_formats.rs 902-912: PinUvAuthProtocol. *)
Definition parse_proto (v : value) : res status pin_proto :=
  n <- extract_unsigned v ;;
  if (n =? 1)%N then Ok V1 else if (n =? 2)%N then Ok V2 else Err INVALID_PARAMETER.

(** data_formats.rs 44-66: PublicKeyCredentialRpEntity. *)
Definition parse_rp (v : value) : res status rp_entity :=
  m <- extract_map v ;;
  let f := fields m [text "id"; text "icon"; text "name"] in
  id <- ok_or_missing (f 0%nat) ;;
  id <- extract_text_string id ;;
  name <- map_opt extract_text_string (f 2%nat) ;;
  icon <- map_opt extract_text_string (f 1%nat) ;;
  Ok (mkRp id name icon).

(** data_formats.rs 88-113: PublicKeyCredentialUserEntity. *)
Definition parse_user (v : value) : res status user :=
  m <- extract_map v ;;
  let f := fields m [text "id"; text "icon"; text "name"; text "displayName"] in
  id <- ok_or_missing (f 0%nat) ;;
  id <- extract_byte_string id ;;
  name <- map_opt extract_text_string (f 2%nat) ;;
  display <- map_opt extract_text_string (f 3%nat) ;;
  icon <- map_opt extract_text_string (f 1%nat) ;;
  Ok (mkUser id name display icon).

(** data_formats.rs 147-157: PublicKeyCredentialType; true is public-key. *)
Definition parse_key_type (v : value) : res status bool :=
  t <- extract_text_string v ;; Ok (bytes_eqb t (str "public-key")).

(** data_formats.rs 167-182: PublicKeyCredentialParameter. *)
Definition parse_cred_param (ed25519 : bool) (v : value) : res status cred_param :=
  m <- extract_map v ;;
  let f := fields m [text "alg"; text "type"] in
  t <- ok_or_missing (f 1%nat) ;;
  t <- parse_key_type t ;;
  a <- ok_or_missing (f 0%nat) ;;
  a <- alg_of_cbor ed25519 a ;;
  Ok (mkParam t a).

(** data_formats.rs 216-229: AuthenticatorTransport. *)
Definition parse_transport (v : value) : res status transport :=
  t <- extract_text_string v ;;
  if bytes_eqb t (str "usb") then Ok TrUsb
  else if bytes_eqb t (str "nfc") then Ok TrNfc
  else if bytes_eqb t (str "ble") then Ok TrBle
  else if bytes_eqb t (str "internal") then Ok TrInternal
  else Err CBOR_UNEXPECTED_TYPE.

(** data_formats.rs 240-272: PublicKeyCredentialDescriptor. *)
Definition parse_descriptor (v : value) : res status descriptor :=
  m <- extract_map v ;;
  let f := fields m [text "id"; text "type"; text "transports"] in
  t <- ok_or_missing (f 1%nat) ;;
  t <- parse_key_type t ;;
  id <- ok_or_missing (f 0%nat) ;;
  id <- extract_byte_string id ;;
  tr <- map_opt (fun x => l <- extract_array x ;; map_res parse_transport l) (f 2%nat) ;;
  Ok (mkDesc t id tr).
Definition parse_descriptors (v : value) : res status (list descriptor) :=
  l <- extract_array v ;; map_res parse_descriptor l.

(** A large_blob_key of false is refused: data_formats.rs 313-318 and 351-356. *)
Definition parse_lbkey (o : option value) : res status (option bool) :=
  k <- map_opt extract_bool o ;;
  match k with Some false => Err INVALID_OPTION | _ => Ok k end.

(** data_formats.rs 294-328: MakeCredentialExtensions. *)
Definition parse_mc_ext (v : value) : res status mc_ext :=
  m <- extract_map v ;;
  let f := fields m [text "credBlob"; text "credProtect"; text "hmac-secret"; text "largeBlobKey";
                     text "minPinLength"] in
  h <- map_or false extract_bool (f 2%nat) ;;
  p <- map_opt policy_of_cbor (f 1%nat) ;;
  n <- map_or false extract_bool (f 4%nat) ;;
  b <- map_opt extract_byte_string (f 0%nat) ;;
  l <- parse_lbkey (f 3%nat) ;;
  Ok (mkMcExt h p n b l).
Definition mc_ext_default : mc_ext := mkMcExt false None false None None.

(** data_formats.rs 816-860: CoseKey. *)
Definition parse_cose (v : value) : res status cose :=
  m <- extract_map v ;;
  let f := fields m [vint 1; vint 3; vint (-1); vint (-2); vint (-3)] in
  a <- ok_or_missing (f 1%nat) ;;
  a <- extract_integer a ;;
  _ <- check ((a =? -25) || (a =? -7))%Z UNSUPPORTED_ALGORITHM ;;
  x <- ok_or_missing (f 3%nat) ;;
  x <- extract_byte_string x ;;
  _ <- check (Nat.eqb (length x) 32) INVALID_PARAMETER ;;
  y <- ok_or_missing (f 4%nat) ;;
  y <- extract_byte_string y ;;
  _ <- check (Nat.eqb (length y) 32) INVALID_PARAMETER ;;
  crv <- ok_or_missing (f 2%nat) ;;
  crv <- extract_integer crv ;;
  _ <- check (crv =? 1)%Z UNSUPPORTED_ALGORITHM ;;
  kty <- ok_or_missing (f 0%nat) ;;
  kty <- extract_integer kty ;;
  _ <- check (kty =? 2)%Z UNSUPPORTED_ALGORITHM ;;
  Ok (mkCose x y a kty crv).

(** data_formats.rs 377-402: GetAssertionHmacSecretInput. *)
Definition parse_hmac (v : value) : res status hmac_input :=
  m <- extract_map v ;;
  let f := fields m (map VUnsigned [1; 2; 3; 4]%N) in
  k <- ok_or_missing (f 0%nat) ;;
  k <- parse_cose k ;;
  s <- ok_or_missing (f 1%nat) ;;
  s <- extract_byte_string s ;;
  a <- ok_or_missing (f 2%nat) ;;
  a <- extract_byte_string a ;;
  p <- map_or V1 parse_proto (f 3%nat) ;;
  Ok (mkHmacInput k s a p).

(** data_formats.rs 338-366: GetAssertionExtensions. *)
Definition parse_ga_ext (v : value) : res status ga_ext :=
  m <- extract_map v ;;
  let f := fields m [text "credBlob"; text "hmac-secret"; text "largeBlobKey"] in
  h <- map_opt parse_hmac (f 1%nat) ;;
  b <- map_or false extract_bool (f 0%nat) ;;
  l <- parse_lbkey (f 2%nat) ;;
  Ok (mkGaExt h b l).
Definition ga_ext_default : ga_ext := mkGaExt None false None.

(** data_formats.rs 412-440: MakeCredentialOptions (rk, uv). *)
Definition parse_mc_options (v : value) : res status (bool * bool) :=
  m <- extract_map v ;;
  let f := fields m [text "rk"; text "up"; text "uv"] in
  rk <- map_or false extract_bool (f 0%nat) ;;
  up <- map_or true extract_bool (f 1%nat) ;;
  _ <- check up INVALID_OPTION ;;
  uv <- map_or false extract_bool (f 2%nat) ;;
  Ok (rk, uv).
(** data_formats.rs 458-484: GetAssertionOptions (up, uv). *)
Definition parse_ga_options (v : value) : res status (bool * bool) :=
  m <- extract_map v ;;
  let f := fields m [text "rk"; text "up"; text "uv"] in
  rk <- map_opt extract_bool (f 0%nat) ;;
  _ <- check (match rk with Some _ => false | None => true end) INVALID_OPTION ;;
  up <- map_or true extract_bool (f 1%nat) ;;
  uv <- map_or false extract_bool (f 2%nat) ;;
  Ok (up, uv).

Section Parse.
  Variable c : cfg.

  (** usize truncation of an unsigned value: [u as usize]. *)
  Definition as_usize (n : N) : N := (n mod 2 ^ c_width c)%N.

  (** command.rs 160-228: AuthenticatorMakeCredentialParameters. *)
  Definition parse_make_credential (v : value) : res status mc_params :=
    m <- extract_map v ;;
    let f := fields m (map VUnsigned [1; 2; 3; 4; 5; 6; 7; 8; 9; 10]%N) in
    cdh <- ok_or_missing (f 0%nat) ;;
    cdh <- extract_byte_string cdh ;;
    rp <- ok_or_missing (f 1%nat) ;;
    rp <- parse_rp rp ;;
    u <- ok_or_missing (f 2%nat) ;;
    u <- parse_user u ;;
    ps <- ok_or_missing (f 3%nat) ;;
    ps <- extract_array ps ;;
    ps <- map_res (parse_cred_param (c_ed25519 c)) ps ;;
    ex <- map_opt parse_descriptors (f 4%nat) ;;
    x <- map_or mc_ext_default parse_mc_ext (f 5%nat) ;;
    o <- map_or (false, false) parse_mc_options (f 6%nat) ;;
    a <- map_opt extract_byte_string (f 7%nat) ;;
    p <- map_opt parse_proto (f 8%nat) ;;
    ep <- map_opt extract_unsigned (f 9%nat) ;;
    Ok (mkMc cdh rp u ps ex x (fst o) (snd o) a p ep).

  (** command.rs 246-302: AuthenticatorGetAssertionParameters. *)
  Definition parse_get_assertion (v : value) : res status ga_params :=
    m <- extract_map v ;;
    let f := fields m (map VUnsigned [1; 2; 3; 4; 5; 6; 7]%N) in
    rp <- ok_or_missing (f 0%nat) ;;
    rp <- extract_text_string rp ;;
    cdh <- ok_or_missing (f 1%nat) ;;
    cdh <- extract_byte_string cdh ;;
    al <- map_opt parse_descriptors (f 2%nat) ;;
    x <- map_or ga_ext_default parse_ga_ext (f 3%nat) ;;
    o <- map_or (true, false) parse_ga_options (f 4%nat) ;;
    a <- map_opt extract_byte_string (f 5%nat) ;;
    p <- map_opt parse_proto (f 6%nat) ;;
    Ok (mkGa rp cdh al x (fst o) (snd o) a p).

  (** data_formats.rs 934-952: ClientPinSubCommand. *)
  Definition parse_pin_sub (v : value) : res status pin_sub :=
    n <- extract_unsigned v ;;
    match n with
    | 1 => Ok PsRetries | 2 => Ok PsKeyAgreement | 3 => Ok PsSetPin | 4 => Ok PsChangePin
    | 5 => Ok PsGetToken | 6 => Ok PsUvToken | 7 => Ok PsUvRetries
    | 9 => Ok PsTokenWithPermissions
    | _ => Err INVALID_SUBCOMMAND
    end%N.

  (** command.rs 318-360: AuthenticatorClientPinParameters; permissions are truncated to a byte. *)
  Definition parse_client_pin (v : value) : res status pin_params :=
    m <- extract_map v ;;
    let f := fields m (map VUnsigned [1; 2; 3; 4; 5; 6; 9; 10]%N) in
    p <- ok_or_missing (f 0%nat) ;;
    p <- parse_proto p ;;
    s <- ok_or_missing (f 1%nat) ;;
    s <- parse_pin_sub s ;;
    k <- map_opt parse_cose (f 2%nat) ;;
    a <- map_opt extract_byte_string (f 3%nat) ;;
    n <- map_opt extract_byte_string (f 4%nat) ;;
    h <- map_opt extract_byte_string (f 5%nat) ;;
    pe <- map_opt extract_unsigned (f 6%nat) ;;
    rp <- map_opt extract_text_string (f 7%nat) ;;
    Ok (mkPinParams p s k a n h (option_map (fun n => n mod 256)%N pe) rp).

  (** command.rs 373-434: AuthenticatorLargeBlobsParameters. *)
  Definition is_some {A} (o : option A) : bool := match o with Some _ => true | None => false end.
  Definition parse_large_blobs (v : value) : res status lb_params :=
    m <- extract_map v ;;
    let f := fields m (map VUnsigned [1; 2; 3; 4; 5; 6]%N) in
    g <- map_opt extract_unsigned (f 0%nat) ;;
    s <- map_opt extract_byte_string (f 1%nat) ;;
    o <- match f 2%nat with Some o => extract_unsigned o | None => Err INVALID_PARAMETER end ;;
    l <- map_opt extract_unsigned (f 3%nat) ;;
    a <- map_opt extract_byte_string (f 4%nat) ;;
    p <- map_opt parse_proto (f 5%nat) ;;
    let g := option_map as_usize g in
    let o := as_usize o in
    let l := option_map as_usize l in
    _ <- check (is_some g || is_some s) INVALID_PARAMETER ;;
    _ <- check (negb (is_some g && is_some s)) INVALID_PARAMETER ;;
    _ <- check (negb (is_some g && (is_some l || is_some a || is_some p))) INVALID_PARAMETER ;;
    _ <- check (negb (is_some s && (o =? 0)%N
                 && match l with None => true | Some n => (n <? 17)%N end)) INVALID_PARAMETER ;;
    _ <- check (negb (is_some s && negb (o =? 0)%N && is_some l)) INVALID_PARAMETER ;;
    Ok (mkLb g s o l a p).

  (** data_formats.rs 968-981: ConfigSubCommand. *)
  Definition parse_cf_sub (v : value) : res status cf_sub :=
    n <- extract_unsigned v ;;
    match n with
    | 1 => Ok CfEnterprise | 2 => Ok CfToggleUv | 3 => Ok CfMinPin | 255 => Ok CfVendor
    | _ => Err INVALID_SUBCOMMAND
    end%N.
  (** data_formats.rs 1005-1040: SetMinPinLengthParams. *)
  Definition parse_minpin (v : value) : res status minpin_params :=
    m <- extract_map v ;;
    let f := fields m (map VUnsigned [1; 2; 3]%N) in
    n <- map_opt extract_unsigned (f 0%nat) ;;
    _ <- check (match n with Some n => (n <? 256)%N | None => true end) PIN_POLICY_VIOLATION ;;
    l <- map_opt (fun x => l <- extract_array x ;; map_res extract_text_string l) (f 1%nat) ;;
    b <- map_opt extract_bool (f 2%nat) ;;
    Ok (mkMinPin n l b).
  (** command.rs 447-479: AuthenticatorConfigParameters. *)
  Definition parse_config (v : value) : res status cf_params :=
    m <- extract_map v ;;
    let f := fields m (map VUnsigned [1; 2; 3; 4]%N) in
    s <- ok_or_missing (f 0%nat) ;;
    s <- parse_cf_sub s ;;
    d <- match s with
         | CfMinPin => d <- ok_or_missing (f 1%nat) ;; d <- parse_minpin d ;; Ok (Some d)
         | _ => Ok None
         end ;;
    p <- map_opt parse_proto (f 2%nat) ;;
    a <- map_opt extract_byte_string (f 3%nat) ;;
    Ok (mkCf s d p a).

  (** data_formats.rs 1094-1110: CredentialManagementSubCommand. *)
  Definition parse_cm_sub (v : value) : res status cm_sub :=
    n <- extract_unsigned v ;;
    match n with
    | 1 => Ok CmMetadata | 2 => Ok CmRpsBegin | 3 => Ok CmRpsNext | 4 => Ok CmCredsBegin
    | 5 => Ok CmCredsNext | 6 => Ok CmDelete | 7 => Ok CmUpdate
    | _ => Err INVALID_SUBCOMMAND
    end%N.
  (** data_formats.rs 1119-1144: CredentialManagementSubCommandParameters. *)
  Definition parse_cm_data (v : value) : res status cm_data :=
    m <- extract_map v ;;
    let f := fields m (map VUnsigned [1; 2; 3]%N) in
    h <- map_opt extract_byte_string (f 0%nat) ;;
    d <- map_opt parse_descriptor (f 1%nat) ;;
    u <- map_opt parse_user (f 2%nat) ;;
    Ok (mkCmData h d u).
  (** command.rs 489-518: AuthenticatorCredentialManagementParameters. *)
  Definition parse_cred_mgmt (v : value) : res status cm_params :=
    m <- extract_map v ;;
    let f := fields m (map VUnsigned [1; 2; 3; 4]%N) in
    s <- ok_or_missing (f 0%nat) ;;
    s <- parse_cm_sub s ;;
    d <- map_opt parse_cm_data (f 1%nat) ;;
    p <- map_opt parse_proto (f 2%nat) ;;
    a <- map_opt extract_byte_string (f 3%nat) ;;
    Ok (mkCm s d p a).

  (** mod.rs 178-181: cbor_read. *)
  Definition read_cbor (b : bytes) : res status value :=
    match cbor_read (c_width c) b with Some v => Ok v | None => Err INVALID_CBOR end.

  (** command.rs 75-140: Command::deserialize. *)
  Definition parse_command (b : bytes) : res status command :=
    match b with
    | [] => Err MISSING_PARAMETER
    | x :: body =>
        if (x =? 0x01)%N then
          v <- read_cbor body ;; p <- parse_make_credential v ;; Ok (CMakeCredential p)
        else if (x =? 0x02)%N then
          v <- read_cbor body ;; p <- parse_get_assertion v ;; Ok (CGetAssertion p)
        else if (x =? 0x04)%N then Ok CGetInfo
        else if (x =? 0x06)%N then
          v <- read_cbor body ;; p <- parse_client_pin v ;; Ok (CClientPin p)
        else if (x =? 0x07)%N then Ok CReset
        else if (x =? 0x08)%N then Ok CGetNextAssertion
        else if ((x =? 0x0A) || (x =? 0x41))%N then
          v <- read_cbor body ;; p <- parse_cred_mgmt v ;; Ok (CCredMgmt p)
        else if (x =? 0x0B)%N then Ok CSelection
        else if (x =? 0x0C)%N then
          v <- read_cbor body ;; p <- parse_large_blobs v ;; Ok (CLargeBlobs p)
        else if (x =? 0x0D)%N then
          v <- read_cbor body ;; p <- parse_config v ;; Ok (CConfig p)
        else Err INVALID_COMMAND
    end.

  (** ** Responses (response.rs 44-330) *)

  (** data_formats.rs 496-505: PackedAttestationStatement; mod.rs 975-980: the algorithm is always
      ES256 and there is no ecdaaKeyId. *)
  Definition attestation_to_cbor (r : mc_resp) : value :=
    map_options
      [ (text "alg", Some (vint (-7)));
        (text "sig", Some (VBytes (mr_sig r)));
        (text "x5c", option_map (fun x => VArray [VBytes x]) (mr_x5c r)) ].
  (** response.rs 70-87. *)
  Definition mc_to_cbor (r : mc_resp) : value :=
    map_options
      [ (VUnsigned 1, Some (text "packed"));
        (VUnsigned 2, Some (VBytes (mr_auth_data r)));
        (VUnsigned 3, Some (attestation_to_cbor r));
        (VUnsigned 4, if mr_ep r then Some (vbool true) else None);
        (VUnsigned 5, option_map VBytes (mr_lbkey r)) ].
  (** response.rs 100-119. *)
  Definition ga_to_cbor (r : ga_resp) : value :=
    map_options
      [ (VUnsigned 1, Some (descriptor_to_cbor (mkDesc true (gr_id r) None)));
        (VUnsigned 2, Some (VBytes (gr_auth_data r)));
        (VUnsigned 3, Some (VBytes (gr_sig r)));
        (VUnsigned 4, option_map user_to_cbor (gr_user r));
        (VUnsigned 5, option_map VUnsigned (gr_number r));
        (VUnsigned 7, option_map VBytes (gr_lbkey r)) ].
  (** data_formats.rs 184-191: PublicKeyCredentialParameter. *)
  Definition param_to_cbor (a : alg) : value :=
    map_options [ (text "alg", Some (vint (alg_code a))); (text "type", Some (text "public-key")) ].
  (** response.rs 150-215. *)
  Definition info_to_cbor (r : info_resp) : value :=
    map_options
      [ (VUnsigned 0x01, Some (VArray (map VText (in_versions r))));
        (VUnsigned 0x02, Some (VArray [text "hmac-secret"; text "credProtect"; text "minPinLength";
                                       text "credBlob"; text "largeBlobKey"]));
        (VUnsigned 0x03, Some (VBytes (in_aaguid r)));
        (VUnsigned 0x04, Some (VMap (map_sort (map (fun x => (VText (fst x), vbool (snd x)))
                                                   (in_options r)))));
        (VUnsigned 0x05, Some (VUnsigned (in_max_msg r)));
        (VUnsigned 0x06, Some (VArray (map VUnsigned (in_protocols r))));
        (VUnsigned 0x07, option_map VUnsigned (in_max_list r));
        (VUnsigned 0x08, Some (VUnsigned (N.of_nat CBOR_CREDENTIAL_ID_SIZE)));
        (VUnsigned 0x09, Some (VArray [text "usb"]));
        (VUnsigned 0x0A, Some (VArray (map param_to_cbor (in_algs r))));
        (VUnsigned 0x0B, Some (VUnsigned (in_max_blob r)));
        (VUnsigned 0x0C, Some (vbool (in_force r)));
        (VUnsigned 0x0D, Some (VUnsigned (in_minlen r)));
        (VUnsigned 0x0E, option_map VUnsigned (c_firmware c));
        (VUnsigned 0x0F, Some (VUnsigned (in_max_cred_blob r)));
        (VUnsigned 0x10, Some (VUnsigned (in_max_rp_ids r)));
        (VUnsigned 0x14, Some (VUnsigned (in_remaining r))) ].
  (** response.rs 226-243. *)
  Definition pin_to_cbor (r : pin_resp) : value :=
    map_options
      [ (VUnsigned 1, option_map cose_to_cbor (pr_key r));
        (VUnsigned 2, option_map VBytes (pr_token r));
        (VUnsigned 3, option_map VUnsigned (pr_retries r));
        (VUnsigned 4, option_map vbool (pr_cycle r)) ].
  (** response.rs 275-305; an RP entity has only its ID (credential_management.rs 50-55). *)
  Definition cm_to_cbor (r : cm_resp) : value :=
    map_options
      [ (VUnsigned 0x01, option_map VUnsigned (cmr_count r));
        (VUnsigned 0x02, option_map VUnsigned (cmr_remaining r));
        (VUnsigned 0x03, option_map (fun x => VMap [(text "id", VText x)]) (cmr_rp r));
        (VUnsigned 0x04, option_map VBytes (cmr_hash r));
        (VUnsigned 0x05, option_map VUnsigned (cmr_total_rps r));
        (VUnsigned 0x06, option_map user_to_cbor (cmr_user r));
        (VUnsigned 0x07, option_map (fun x => descriptor_to_cbor (mkDesc true x None)) (cmr_id r));
        (VUnsigned 0x08, option_map cose_to_cbor (cmr_key r));
        (VUnsigned 0x09, option_map VUnsigned (cmr_total r));
        (VUnsigned 0x0A, option_map policy_to_cbor (cmr_protect r));
        (VUnsigned 0x0B, option_map VBytes (cmr_lbkey r)) ].
  (** response.rs 44-58: the CBOR value of a response, if it has one. *)
  Definition response_value (r : response) : option value :=
    match r with
    | RMakeCredential r => Some (mc_to_cbor r)
    | RGetAssertion r | RGetNextAssertion r => Some (ga_to_cbor r)
    | RGetInfo r => Some (info_to_cbor r)
    | RClientPin r => option_map pin_to_cbor r
    | RReset => None
    | RCredMgmt r => option_map cm_to_cbor r
    | RSelection => None
    | RLargeBlobs r => option_map (fun b => map_options [(VUnsigned 1, Some (VBytes b))]) r
    | RConfig => None
    end.
  (** mod.rs 598-612: the bytes of a response.  A panic has no response. *)
  Definition response_bytes (r : res status response) : option bytes :=
    match r with
    | Ok r => match response_value r with
              | None => Some [0%N]
              | Some v => match cbor_write v with
                          | Some b => Some (0%N :: b)
                          | None => Some [status_code VENDOR_INTERNAL_ERROR]
                          end
              end
    | Err Panic => None
    | Err s => Some [status_code s]
    end.
End Parse.

(** mod.rs 585-612: process_command without vendor commands. *)
Definition process_command (e : env) (b : bytes) (ch : channel) : M status response :=
  let* x := lift (parse_command (e_cfg e) b) in
  process_parsed_command e x ch.
