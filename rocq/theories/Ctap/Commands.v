(** The CTAP2 and CTAP1 commands of the authenticator.
    Sources: opensk/src/ctap/mod.rs, client_pin.rs, token_state.rs, credential_management.rs,
    config_command.rs, large_blobs.rs, ctap1.rs. *)
From Verif Require Import Base Hid.Model U2f.Model Cbor.Model Ctap.Crypto Ctap.Types Ctap.Machine.
From Coq Require Import String List.
Import ListNotations.
Open Scope list_scope.

(** ** Parameters and responses *)

(** data_formats.rs 196-204 and 234-238: AuthenticatorTransport and PublicKeyCredentialDescriptor;
    the key type is public-key or unknown. *)
Inductive transport := TrUsb | TrNfc | TrBle | TrInternal.
Record descriptor := mkDesc {
  de_public : bool; de_id : bytes; de_transports : option (list transport) }.
(** data_formats.rs 162-165: PublicKeyCredentialParameter; [None] is an unknown algorithm. *)
Record cred_param := mkParam { cp_public : bool; cp_alg : option alg }.
(** data_formats.rs 286-292 and 407-410. *)
Record mc_ext := mkMcExt {
  mx_hmac : bool; mx_protect : option policy; mx_minpin : bool; mx_blob : option bytes;
  mx_lbkey : option bool }.
(** data_formats.rs 38-43: PublicKeyCredentialRpEntity. *)
Record rp_entity := mkRp { rp_id : bytes; rp_name : option bytes; rp_icon : option bytes }.

(** command.rs 145-158: AuthenticatorMakeCredentialParameters. *)
Record mc_params := mkMc {
  mc_cdh : bytes; mc_rp : rp_entity; mc_user : user; mc_algs : list cred_param;
  mc_exclude : option (list descriptor); mc_ext_ : mc_ext; mc_rk : bool; mc_uv : bool;
  mc_auth : option bytes; mc_proto : option pin_proto; mc_ep : option N }.
(** command.rs 235-245: AuthenticatorGetAssertionParameters. *)
Record ga_params := mkGa {
  ga_rp : bytes; ga_cdh : bytes; ga_allow : option (list descriptor); ga_ext_ : ga_ext;
  ga_up : bool; ga_uv : bool; ga_auth : option bytes; ga_proto : option pin_proto }.
(** data_formats.rs 917-926 and command.rs 307-316. *)
Inductive pin_sub := PsRetries | PsKeyAgreement | PsSetPin | PsChangePin | PsGetToken | PsUvToken
| PsUvRetries | PsTokenWithPermissions.
Record pin_params := mkPinParams {
  pi_proto : pin_proto; pi_sub : pin_sub; pi_key : option cose; pi_auth : option bytes;
  pi_new : option bytes; pi_hash : option bytes; pi_perms : option N; pi_rp : option bytes }.
(** data_formats.rs 1078-1086, 1113-1117 and command.rs 482-487. *)
Inductive cm_sub := CmMetadata | CmRpsBegin | CmRpsNext | CmCredsBegin | CmCredsNext | CmDelete
| CmUpdate.
Record cm_data := mkCmData {
  cd_hash : option bytes; cd_cred : option descriptor; cd_user : option user }.
Record cm_params := mkCm {
  cm_sub_ : cm_sub; cm_data_ : option cm_data; cm_proto : option pin_proto;
  cm_auth : option bytes }.
(** command.rs 364-371: AuthenticatorLargeBlobsParameters. *)
Record lb_params := mkLb {
  lb_get : option N; lb_set : option bytes; lb_offset : N; lb_length : option N;
  lb_auth : option bytes; lb_proto : option pin_proto }.
(** data_formats.rs 955-960 and 999-1003, command.rs 439-444. *)
Inductive cf_sub := CfEnterprise | CfToggleUv | CfMinPin | CfVendor.
Record minpin_params := mkMinPin {
  mp_len : option N; mp_rps : option (list bytes); mp_force : option bool }.
Record cf_params := mkCf {
  cf_sub_ : cf_sub; cf_data : option minpin_params; cf_proto : option pin_proto;
  cf_auth : option bytes }.

(** command.rs 41-53: Command. *)
Inductive command :=
| CMakeCredential (p : mc_params)
| CGetAssertion (p : ga_params)
| CGetInfo
| CClientPin (p : pin_params)
| CReset
| CGetNextAssertion
| CCredMgmt (p : cm_params)
| CSelection
| CLargeBlobs (p : lb_params)
| CConfig (p : cf_params).

(** response.rs: the response data.  Constant fields of the responses are left out. *)
Record mc_resp := mkMcResp {
  mr_auth_data : bytes; mr_sig : bytes; mr_x5c : option bytes; mr_ep : bool;
  mr_lbkey : option bytes }.
Record ga_resp := mkGaResp {
  gr_id : bytes; gr_auth_data : bytes; gr_sig : bytes; gr_user : option user;
  gr_number : option N; gr_lbkey : option bytes }.
Record info_resp := mkInfo {
  in_versions : list bytes; in_aaguid : bytes; in_options : list (bytes * bool); in_max_msg : N;
  in_protocols : list N; in_max_list : option N; in_algs : list alg; in_max_blob : N;
  in_force : bool; in_minlen : N; in_max_cred_blob : N; in_max_rp_ids : N; in_remaining : N }.
Record pin_resp := mkPinResp {
  pr_key : option cose; pr_token : option bytes; pr_retries : option N; pr_cycle : option bool }.
Record cm_resp := mkCmResp {
  cmr_count : option N; cmr_remaining : option N; cmr_rp : option bytes;
  cmr_hash : option bytes; cmr_total_rps : option N; cmr_user : option user;
  cmr_id : option bytes; cmr_key : option cose; cmr_total : option N;
  cmr_protect : option policy; cmr_lbkey : option bytes }.
Inductive response :=
| RMakeCredential (r : mc_resp)
| RGetAssertion (r : ga_resp)
| RGetNextAssertion (r : ga_resp)
| RGetInfo (r : info_resp)
| RClientPin (r : option pin_resp)
| RReset
| RCredMgmt (r : option cm_resp)
| RSelection
| RLargeBlobs (r : option bytes)
| RConfig.

(** ** CBOR of the values that commands write *)

Definition text (s : String.string) : value := VText (str s).
Arguments text _%string.

(** data_formats.rs 862-879: a CoseKey in CBOR. *)
Definition cose_to_cbor (k : cose) : value :=
  VMap (map_sort
    [ (vint 1, vint (ckty k)); (vint 3, vint (calg k)); (vint (-1), vint (ccrv k));
      (vint (-2), VBytes (cx k)); (vint (-3), VBytes (cy k)) ]).
(** data_formats.rs 204-214, 136-145, 274-283: descriptors in CBOR. *)
Definition transport_to_cbor (t : transport) : value :=
  match t with
  | TrUsb => text "usb" | TrNfc => text "nfc" | TrBle => text "ble" | TrInternal => text "internal"
  end.
Definition descriptor_to_cbor (d : descriptor) : value :=
  map_options
    [ (text "id", Some (VBytes (de_id d)));
      (text "type", Some (if de_public d then text "public-key" else text "unknown"));
      (text "transports", option_map (fun l => VArray (map transport_to_cbor l)) (de_transports d)) ].
(** data_formats.rs 115-124: user entities in CBOR. *)
Definition user_to_cbor (u : user) : value :=
  map_options
    [ (text "id", Some (VBytes (us_id u)));
      (text "icon", option_map VText (us_icon u));
      (text "name", option_map VText (us_name u));
      (text "displayName", option_map VText (us_display u)) ].
(** data_formats.rs 1146-1154: subcommand parameters in CBOR. *)
Definition cm_data_to_cbor (d : cm_data) : value :=
  map_options
    [ (VUnsigned 1, option_map VBytes (cd_hash d));
      (VUnsigned 2, option_map descriptor_to_cbor (cd_cred d));
      (VUnsigned 3, option_map user_to_cbor (cd_user d)) ].
(** data_formats.rs 1042-1050. *)
Definition minpin_to_cbor (d : minpin_params) : value :=
  map_options
    [ (VUnsigned 1, option_map VUnsigned (mp_len d));
      (VUnsigned 2, option_map (fun l => VArray (map VText l)) (mp_rps d));
      (VUnsigned 3, option_map vbool (mp_force d)) ].
(** Subcommand numbers: data_formats.rs 955-960 and 1078-1086. *)
Definition cm_code (s : cm_sub) : N :=
  match s with
  | CmMetadata => 1 | CmRpsBegin => 2 | CmRpsNext => 3 | CmCredsBegin => 4 | CmCredsNext => 5
  | CmDelete => 6 | CmUpdate => 7
  end%N.
Definition cf_code (s : cf_sub) : N :=
  match s with CfEnterprise => 1 | CfToggleUv => 2 | CfMinPin => 3 | CfVendor => 255 end%N.

(** mod.rs 183-186: cbor_write inside a command. *)
Definition write_cbor (v : value) : M status bytes :=
  match cbor_write v with
  | Some b => ret b
  | None => fail VENDOR_INTERNAL_ERROR
  end.

(** mod.rs 189-214: filter_listed_credential and filter_listed_resident_credential. *)
Definition listed (uv : bool) (p : option policy) : bool :=
  uv || match p with Some UvRequired => false | _ => true end.

(** mod.rs 217-235: to_public_source. *)
Definition to_public_source (id : bytes) (s : source) : cred :=
  mkCred id (so_key s) [] [] None (so_policy s) 0 None None (so_blob s) None.

(** mod.rs 240-249: truncate_to_char_boundary.  Index [i] of a string is a character boundary if
    the byte there does not continue a character. *)
Fixpoint boundary_below (s : bytes) (i : nat) : nat :=
  match i with
  | O => O
  | S i' => if cont (nth i s 0%N) then boundary_below s i' else i
  end.
Definition truncate (s : bytes) (max : nat) : bytes :=
  if (length s <=? max)%nat then s else firstn (boundary_below s max) s.

(** client_pin.rs 96: str::from_utf8(..).unwrap_or("").chars().count(). *)
Definition code_points (b : bytes) : N :=
  if utf8_valid b then Nlen (filter (fun x => negb (cont x)) b) else 0%N.

(** mod.rs 87-93: flag bits of the authenticator data. *)
Definition UP_FLAG : N := 0x01.
Definition UV_FLAG : N := 0x04.
Definition AT_FLAG : N := 0x40.
Definition ED_FLAG : N := 0x80.

(** Permissions: client_pin.rs 115-134. *)
Definition PERM_MC : N := 1.
Definition PERM_GA : N := 2.
Definition PERM_CM : N := 4.
Definition PERM_LBW : N := 16.
Definition PERM_ACFG : N := 32.

(** Time limits: mod.rs 100-101 (RESET_TIMEOUT_DURATION_MS, STATEFUL_COMMAND_TIMEOUT_DURATION_MS) and
    token_state.rs 27 (INITIAL_USAGE_TIME_LIMIT_MS). *)
Definition RESET_TIMEOUT_MS : N := 10000.
Definition STATEFUL_TIMEOUT_MS : N := 30000.
Definition TOKEN_TIMEOUT_MS : N := 30000.

Section Commands.
  Variable e : env.
  Let c : cfg := e_cfg e.
  Let pr : prims := e_prims e.

  (** ** Keys *)

  (** private_key.rs 44-61: PrivateKey::new. *)
  Definition new_key {E} (a : alg) : M E priv := let* b := draw e 32 in ret (mkPriv a b).
  (** private_key.rs 101-118: get_pub_key and sign_and_encode; they fail if the bytes are not an
      ECDSA key. *)
  Definition key_valid (k : priv) : bool :=
    match pk_alg k with Es256 => ecdsa_valid pr (pk_bytes k) | Eddsa => true end.
  Definition get_pub_key (k : priv) : M status cose :=
    if key_valid k then ret (pub_of pr k) else fail VENDOR_INTERNAL_ERROR.
  Definition sign_and_encode (k : priv) (msg : bytes) : M status bytes :=
    if key_valid k then ret (sign pr k msg) else fail VENDOR_INTERNAL_ERROR.

  (** ** The PIN protocols (pin_protocol.rs 33-101) *)

  Definition proto_of (p : pin_proto) (v : vol) : proto :=
    match p with V1 => v_proto1 v | V2 => v_proto2 v end.
  Definition set_proto (p : pin_proto) (x : proto) (v : vol) : vol :=
    match p with V1 => set_proto1 x v | V2 => set_proto2 x v end.
  (** pin_protocol.rs 40-49: new; the key is drawn before the token. *)
  Definition proto_new {E} : M E proto :=
    let* k := draw e 32 in
    let* t := draw e 32 in
    ret (mkProto k t).
  (** pin_protocol.rs 52-54: regenerate. *)
  Definition regenerate (p : pin_proto) : M status unit :=
    let* k := draw e 32 in
    modify (fun v => set_proto p (mkProto k (pp_token (proto_of p v))) v).
  (** pin_protocol.rs 57-59: reset_pin_uv_auth_token. *)
  Definition reset_token (p : pin_proto) : M status unit :=
    let* t := draw e 32 in
    modify (fun v => set_proto p (mkProto (pp_key (proto_of p v)) t) v).

  Definition mac_status (r : mac_result) : M status unit :=
    match r with
    | MacOk => ret tt
    | MacInvalid => fail PIN_AUTH_INVALID
    | MacBadLength => fail INVALID_PARAMETER
    end.
  (** client_pin.rs 163-170: get_shared_secret. *)
  Definition get_shared_secret (p : pin_proto) (peer : cose) : M status shared :=
    let* pp := gets (proto_of p) in
    match decapsulate pr (pp_key pp) peer p with
    | Ok s => ret s
    | Err DecapAlgorithm => fail UNSUPPORTED_ALGORITHM
    | Err DecapPoint => fail INVALID_PARAMETER
    end.
  (** pin_protocol.rs 146-151: encrypt; protocol 2 draws an initialization vector. *)
  Definition shared_encrypt_m (s : shared) (plain : bytes) : M status bytes :=
    let* iv := (if embeds (sh_proto s) then draw e 16 else ret []) in
    match shared_encrypt pr s iv plain with
    | Some x => ret x
    | None => fail INVALID_PARAMETER
    end.
  Definition shared_decrypt_m (s : shared) (cipher : bytes) (err : status) : M status bytes :=
    match shared_decrypt pr s cipher with
    | Some x => ret x
    | None => fail err
    end.

  (** ** Token state (token_state.rs) *)

  Definition mod_token (f : token -> token) : M status unit :=
    modify (fun v => set_token (f (v_token v)) v).
  (** token_state.rs 62-68: has_permission. *)
  Definition has_permission (perm : N) : M status unit :=
    let* t := gets v_token in
    guard (negb (N.land perm (t_perms t) =? 0)%N) PIN_AUTH_INVALID.
  (** token_state.rs 71-76: has_no_permissions_rp_id. *)
  Definition has_no_rp_id : M status unit :=
    let* t := gets v_token in
    guard (match t_rp t with None => true | Some _ => false end) PIN_AUTH_INVALID.
  (** token_state.rs 79-92: has_permissions_rp_id and has_permissions_rp_id_hash. *)
  Definition rp_matches (rp : bytes) (t : token) : bool :=
    match t_rp t with Some p => bytes_eqb rp p | None => false end.
  Definition rp_hash_matches (h : bytes) (t : token) : bool :=
    match t_rp t with Some p => bytes_eqb h (sha256 pr p) | None => false end.
  (** client_pin.rs 541-558: has_no_or_rp_id_permission and has_no_or_rp_id_hash_permission. *)
  Definition has_no_or_rp_id (rp : bytes) : M status unit :=
    let* t := gets v_token in
    guard (match t_rp t with None => true | Some _ => rp_matches rp t end) PIN_AUTH_INVALID.
  Definition has_no_or_rp_id_hash (h : bytes) : M status unit :=
    let* t := gets v_token in
    guard (match t_rp t with None => true | Some _ => rp_hash_matches h t end) PIN_AUTH_INVALID.
  (** client_pin.rs 563-574: ensure_rp_id_permission. *)
  Definition ensure_rp_id (rp : bytes) : M status unit :=
    let* t := gets v_token in
    match t_rp t with
    | None => mod_token (fun t => mkToken (t_perms t) (Some rp) (t_timer t) (t_uv t) (t_use t))
    | Some _ => guard (rp_matches rp t) PIN_AUTH_INVALID
    end.
  (** client_pin.rs 522-528 and token_state.rs 130-132: check_user_verified_flag. *)
  Definition check_user_verified : M status unit :=
    let* t := gets v_token in
    guard (t_use t && t_uv t) PIN_AUTH_INVALID.
  (** client_pin.rs 509-513 and token_state.rs 135-142: clear_token_flags. *)
  Definition clear_token_flags : M status unit :=
    mod_token (fun t => mkToken (N.land (t_perms t) PERM_LBW) (t_rp t) (t_timer t) false (t_use t)).
  (** client_pin.rs 516-519 and token_state.rs 120-127, 145-151: update_timeouts. *)
  Definition update_timeouts : M status unit :=
    let* n := now in
    mod_token (fun t => if t_use t && is_elapsed n (t_timer t) then token_init else t).
  (** token_state.rs 113-117: begin_using_pin_uv_auth_token. *)
  Definition begin_using : M status unit :=
    let* n := now in
    mod_token (fun t => mkToken (t_perms t) (t_rp t) (make_timer n TOKEN_TIMEOUT_MS) true true).
  (** token_state.rs 95-110: set_permissions and set_permissions_rp_id. *)
  Definition set_permissions (perms : N) (rp : option bytes) : M status unit :=
    do* emit (EvGrant perms rp) in
    mod_token (fun t => mkToken perms rp (t_timer t) (t_uv t) (t_use t)).

  (** client_pin.rs 435-451: verify_pin_uv_auth_token. *)
  Definition verify_auth (msg sg : bytes) (p : pin_proto) : M status unit :=
    let* t := gets v_token in
    do* guard (t_use t) PIN_AUTH_INVALID in
    let* pp := gets (proto_of p) in
    mac_status (verify_token pr p (pp_token pp) msg sg).

  (** ** authenticatorClientPIN (client_pin.rs) *)

  Fixpoint until_zero (l : bytes) : bytes :=
    match l with
    | [] => []
    | x :: l' => if (x =? 0)%N then [] else x :: until_zero l'
    end.
  (** client_pin.rs 64-82: decrypt_pin. *)
  Definition decrypt_pin (s : shared) (enc : bytes) : M status bytes :=
    let* d := shared_decrypt_m s enc INVALID_PARAMETER in
    do* guard (Nat.eqb (length d) 64) INVALID_PARAMETER in
    ret (until_zero d).
  (** client_pin.rs 89-112: check_and_store_new_pin. *)
  Definition check_and_store_new_pin (s : shared) (enc : bytes) : M status unit :=
    let* pin := decrypt_pin s enc in
    let* min := min_pin_length e in
    let len := code_points pin in
    do* guard (negb ((len <? min)%N || Nat.eqb (length pin) 64)) PIN_POLICY_VIOLATION in
    set_pin e (firstn 16 (sha256 pr pin)) len.

  (** client_pin.rs 177-214: verify_pin_hash_enc. *)
  Definition verify_pin_hash_enc (p : pin_proto) (s : shared) (enc : bytes) : M status unit :=
    let* h := pin_hash e in
    match h with
    | None => fail PUAT_REQUIRED
    | Some h =>
        let* m := gets v_mism in
        do* guard (negb (3 <=? m)%N) PIN_AUTH_BLOCKED in
        do* decr_pin_retries e in
        let* d := shared_decrypt_m s enc PIN_INVALID in
        do* emit (EvCompare (bytes_eqb h d)) in
        do* (if bytes_eqb h d then ret tt
             else
               do* regenerate p in
               let* r := pin_retries e in
               do* guard (negb (r =? 0)%N) PIN_BLOCKED in
               do* modify (fun v => set_mism (v_mism v + 1)%N v) in
               let* m := gets v_mism in
               do* guard (negb (3 <=? m)%N) PIN_AUTH_BLOCKED in
               fail PIN_INVALID) in
        do* reset_pin_retries e in
        modify (set_mism 0%N)
    end.

  (** client_pin.rs 215-225: process_get_pin_retries. *)
  Definition get_pin_retries : M status (option pin_resp) :=
    let* r := pin_retries e in
    let* m := gets v_mism in
    ret (Some (mkPinResp None None (Some r) (Some (3 <=? m)%N))).
  (** client_pin.rs 227-241: process_get_key_agreement. *)
  Definition get_key_agreement (p : pin_params) : M status (option pin_resp) :=
    let* pp := gets (proto_of (pi_proto p)) in
    ret (Some (mkPinResp (Some (cose_of_ecdh pr (pp_key pp))) None None None)).
  (** client_pin.rs 243-268: process_set_pin. *)
  Definition process_set_pin (p : pin_params) : M status (option pin_resp) :=
    let* ka := lift (ok_or_missing (pi_key p)) in
    let* auth := lift (ok_or_missing (pi_auth p)) in
    let* new := lift (ok_or_missing (pi_new p)) in
    let* h := pin_hash e in
    do* guard (match h with None => true | Some _ => false end) PIN_AUTH_INVALID in
    let* s := get_shared_secret (pi_proto p) ka in
    do* mac_status (shared_verify pr s new auth) in
    do* check_and_store_new_pin s new in
    do* reset_pin_retries e in
    ret None.
  (** client_pin.rs 270-302: process_change_pin. *)
  Definition process_change_pin (p : pin_params) : M status (option pin_resp) :=
    let* ka := lift (ok_or_missing (pi_key p)) in
    let* auth := lift (ok_or_missing (pi_auth p)) in
    let* new := lift (ok_or_missing (pi_new p)) in
    let* old := lift (ok_or_missing (pi_hash p)) in
    let* r := pin_retries e in
    do* guard (negb (r =? 0)%N) PIN_BLOCKED in
    let* s := get_shared_secret (pi_proto p) ka in
    do* mac_status (shared_verify pr s (new ++ old) auth) in
    do* verify_pin_hash_enc (pi_proto p) s old in
    do* check_and_store_new_pin s new in
    do* reset_token V1 in
    do* reset_token V2 in
    let* p1 := gets v_proto1 in
    let* p2 := gets v_proto2 in
    do* emit (EvRenew (pp_token p1) (pp_token p2)) in
    ret None.
  (** client_pin.rs 304-350: process_get_pin_token. *)
  Definition process_get_pin_token (p : pin_params) : M status (option pin_resp) :=
    let* ka := lift (ok_or_missing (pi_key p)) in
    let* enc := lift (ok_or_missing (pi_hash p)) in
    do* guard (match pi_perms p, pi_rp p with None, None => true | _, _ => false end)
          INVALID_PARAMETER in
    let* r := pin_retries e in
    do* guard (negb (r =? 0)%N) PIN_BLOCKED in
    let* s := get_shared_secret (pi_proto p) ka in
    do* verify_pin_hash_enc (pi_proto p) s enc in
    let* force := has_force_pin_change e in
    do* guard (negb force) PIN_INVALID in
    do* reset_token V1 in
    do* reset_token V2 in
    let* n := now in
    let* p1 := gets v_proto1 in
    let* p2 := gets v_proto2 in
    do* emit (EvIssue n (pp_token p1) (pp_token p2)) in
    do* begin_using in
    do* set_permissions 3 None in
    let* pp := gets (proto_of (pi_proto p)) in
    let* t := shared_encrypt_m s (pp_token pp) in
    ret (Some (mkPinResp None (Some t) None None)).
  (** client_pin.rs 366-391: process_get_pin_uv_auth_token_using_pin_with_permissions. *)
  Definition process_token_with_permissions (p : pin_params) : M status (option pin_resp) :=
    let* perms := lift (ok_or_missing (pi_perms p)) in
    do* guard (negb (perms =? 0)%N) INVALID_PARAMETER in
    do* guard (negb (negb (N.land perms 3 =? 0)%N
                     && match pi_rp p with None => true | Some _ => false end))
          INVALID_PARAMETER in
    let* r := process_get_pin_token
      (mkPinParams (pi_proto p) (pi_sub p) (pi_key p) (pi_auth p) (pi_new p) (pi_hash p) None None) in
    do* set_permissions perms (pi_rp p) in
    ret r.
  (** client_pin.rs 394-432: process_command. *)
  Definition process_client_pin (p : pin_params) : M status response :=
    do* guard (negb (negb (c_allow_v1 c) && proto_eqb (pi_proto p) V1)) INVALID_PARAMETER in
    let* r := match pi_sub p with
              | PsRetries => get_pin_retries
              | PsKeyAgreement => get_key_agreement p
              | PsSetPin => process_set_pin p
              | PsChangePin => process_change_pin p
              | PsGetToken => process_get_pin_token p
              | PsUvToken => fail INVALID_SUBCOMMAND
              | PsUvRetries => fail INVALID_SUBCOMMAND
              | PsTokenWithPermissions => process_token_with_permissions p
              end in
    ret (RClientPin r).
  (** client_pin.rs 454-461: reset. *)
  Definition client_pin_reset : M status unit :=
    do* regenerate V1 in
    do* reset_token V1 in
    do* regenerate V2 in
    do* reset_token V2 in
    do* modify (set_mism 0%N) in
    mod_token (fun _ => token_init).
  (** client_pin.rs 471-506: process_hmac_secret. *)
  Definition process_hmac_secret (i : hmac_input) (random : bytes) : M status bytes :=
    let* s := get_shared_secret (hi_proto i) (hi_key i) in
    do* mac_status (shared_verify pr s (hi_salt i) (hi_auth i)) in
    let* d := shared_decrypt_m s (hi_salt i) INVALID_PARAMETER in
    do* guard (Nat.eqb (length d) 32 || Nat.eqb (length d) 64) INVALID_PARAMETER in
    let out := hmac pr random (firstn 32 d) ++
               (if Nat.eqb (length d) 64 then hmac pr random (skipn 32 d) else []) in
    shared_encrypt_m s out.

  (** ** Stateful commands (mod.rs 407-529) *)

  Definition mod_st (f : stateful -> stateful) : M status unit :=
    modify (fun v => set_st (f (v_st v)) v).
  (** mod.rs 427-431: clear. *)
  Definition st_clear : M status unit := mod_st (fun _ => stateful_clear).
  (** mod.rs 434-450: clear_old_channels. *)
  Definition clear_old_channels (ch : channel) : M status unit :=
    mod_st (fun s => match sf_chan s with
                     | Some x => if channel_eqb x ch then s else stateful_clear
                     | None => s
                     end).
  (** mod.rs 453-457: clear_timer. *)
  Definition clear_timer : M status unit :=
    let* n := now in
    mod_st (fun s => if is_elapsed n (sf_timer s) then stateful_clear else s).
  (** mod.rs 460-465: get_command; [None] is CTAP2_ERR_NOT_ALLOWED. *)
  Definition get_command : M status (option stateful_cmd) :=
    do* clear_timer in gets (fun v => sf_cmd (v_st v)).
  (** mod.rs 468-483: set_command; never called with Reset. *)
  Definition set_command (x : stateful_cmd) (ch : channel) : M status unit :=
    let* n := now in
    mod_st (fun _ => mkStateful (make_timer n STATEFUL_TIMEOUT_MS) (Some x) (Some ch)).
  Definition set_cmd (x : stateful_cmd) (s : stateful) : stateful :=
    mkStateful (sf_timer s) (Some x) (sf_chan s).
  (** mod.rs 489-503: next_assertion_credential; the last key is popped. *)
  Definition next_assertion_credential : M status (assertion_input * N) :=
    do* clear_timer in
    let* s := gets v_st in
    match sf_cmd s with
    | Some (SGetAssertion i keys) =>
        match rev keys with
        | [] => fail NOT_ALLOWED
        | k :: rest =>
            do* mod_st (set_cmd (SGetAssertion i (rev rest))) in
            ret (i, k)
        end
    | _ => fail NOT_ALLOWED
    end.
  (** mod.rs 506-515: next_enumerate_rp. *)
  Definition next_enumerate_rp : M status nat :=
    do* clear_timer in
    let* s := gets v_st in
    match sf_cmd s with
    | Some (SEnumRps i) => do* mod_st (set_cmd (SEnumRps (S i))) in ret i
    | _ => fail NOT_ALLOWED
    end.
  (** mod.rs 518-528: next_enumerate_credential. *)
  Definition next_enumerate_credential : M status N :=
    do* clear_timer in
    let* s := gets v_st in
    match sf_cmd s with
    | Some (SEnumCreds keys) =>
        match rev keys with
        | [] => fail NOT_ALLOWED
        | k :: rest => do* mod_st (set_cmd (SEnumCreds (rev rest))) in ret k
        end
    | _ => fail NOT_ALLOWED
    end.

  (** ** Shared parts of makeCredential and getAssertion (mod.rs) *)

  (** mod.rs 555-564: increment_global_signature_counter. *)
  Definition increment_counter : M status unit :=
    if c_counter c then
      let* b := draw e 4 in
      incr_global_signature_counter e (of_be b mod 8 + 1)%N
    else ret tt.

  (** mod.rs 1372-1390: generate_auth_data. *)
  Definition generate_auth_data (rp_hash : bytes) (flags : N) : M status bytes :=
    let* n := global_signature_counter e in
    ret (rp_hash ++ [flags] ++ be_bytes 4 n).

  (** mod.rs 703-723: pin_uv_auth_precheck. *)
  Definition precheck (auth : option bytes) (p : option pin_proto) : M status unit :=
    match auth with
    | None => ret tt
    | Some [] =>
        do* check_user_presence e in
        let* h := pin_hash e in
        match h with None => fail PIN_NOT_SET | Some _ => fail PIN_INVALID end
    | Some _ =>
        guard (match p with None => false | Some _ => true end) MISSING_PARAMETER
    end.

  (** mod.rs 776-794 and 1149-1169: the checks of a request that carries pinUvAuthParam. *)
  Definition check_uv (perm : N) (cdh auth : bytes) (p : option pin_proto) (rp : bytes)
    : M status unit :=
    let* h := pin_hash e in
    do* guard (match h with None => false | Some _ => true end) PIN_NOT_SET in
    let* p := lift (ok_or_missing p) in
    do* verify_auth cdh auth p in
    do* has_permission perm in
    do* check_user_verified in
    ensure_rp_id rp.

  (** mod.rs 814-833, 1102-1117: the body of the loops over exclude and allow lists: the credential
      that a descriptor names for this RP, if it may be used. *)
  Definition listed_credential (rp rp_hash : bytes) (uv : bool) (d : descriptor)
    : M status (option cred) :=
    let* r := find_credential e rp (de_id d) in
    match (match r with Some x => if listed uv (cr_policy x) then Some x else None
                      | None => None end) with
    | Some x => ret (Some x)
    | None =>
        let* s := unwrap_credential e (de_id d) rp_hash in
        match s with
        | Some s => ret (if listed uv (so_policy s) then Some (to_public_source (de_id d) s)
                         else None)
        | None => ret None
        end
    end.
  (** mod.rs 1093-1122: get_any_credential_from_allow_list. *)
  Fixpoint first_listed (rp rp_hash : bytes) (uv : bool) (l : list descriptor)
    : M status (option cred) :=
    match l with
    | [] => ret None
    | d :: l' =>
        let* o := listed_credential rp rp_hash uv d in
        match o with
        | Some x => ret (Some x)
        | None => first_listed rp rp_hash uv l'
        end
    end.

  (** ** authenticatorMakeCredential (mod.rs 725-986) *)

  (** mod.rs 121-139: SUPPORTED_CRED_PARAMS and get_preferred_cred_param. *)
  Definition supported (p : cred_param) : bool :=
    cp_public p && match cp_alg p with
                   | Some Es256 => true
                   | Some Eddsa => c_ed25519 c
                   | None => false
                   end.
  Definition preferred_alg (l : list cred_param) : M status alg :=
    match find supported l with
    | Some p => match cp_alg p with Some a => ret a | None => fail UNSUPPORTED_ALGORITHM end
    | None => fail UNSUPPORTED_ALGORITHM
    end.

  (** mod.rs 751-771: whether enterprise attestation is used. *)
  Definition enterprise_requested (p : mc_params) : M status bool :=
    match mc_ep p with
    | None => ret false
    | Some n =>
        match c_ep c with
        | None => fail INVALID_PARAMETER
        | Some mode =>
            let* on := enterprise_attestation e in
            do* guard on INVALID_PARAMETER in
            do* guard ((n =? 1)%N || (n =? 2)%N) INVALID_OPTION in
            match mode with
            | EpPlatform => if (n =? 2)%N then ret true
                            else ret (mem_bytes (rp_id (mc_rp p)) (c_ep_rps c))
            | EpVendor => ret (mem_bytes (rp_id (mc_rp p)) (c_ep_rps c))
            end
        end
    end.

  (** mod.rs 773-809: the user verification part. *)
  Definition mc_user_verification (p : mc_params) : M status unit :=
    match mc_auth p with
    | Some auth => check_uv PERM_MC (mc_cdh p) auth (mc_proto p) (rp_id (mc_rp p))
    | None =>
        do* guard (negb (mc_uv p)) INVALID_OPTION in
        let* always := has_always_uv e in
        do* guard (negb always) PUAT_REQUIRED in
        if mc_rk p then
          let* h := pin_hash e in
          guard (match h with None => true | Some _ => false end) PUAT_REQUIRED
        else ret tt
    end.

  (** mod.rs 813-836: the exclude list; the loop stops at the first match. *)
  Definition mc_exclusion (p : mc_params) (rp_hash : bytes) : M status unit :=
    match mc_exclude p with
    | None => ret tt
    | Some l =>
        let uv := match mc_auth p with Some _ => true | None => false end in
        let* o := first_listed (rp_id (mc_rp p)) rp_hash uv l in
        match o with
        | None => ret tt
        | Some _ => do* ignore (check_user_presence e) in fail CREDENTIAL_EXCLUDED
        end
    end.

  (** mod.rs 841-847: the credProtect policy of the new credential. *)
  Definition policy_or_optional (o : option policy) : policy :=
    match o with Some p => p | None => UvOptional end.
  Definition effective_policy (requested : option policy) : option policy :=
    if policy_leb (policy_or_optional (c_protect c)) (policy_or_optional requested)
    then requested else c_protect c.

  Definition some_if {A} (b : bool) (x : A) : option A := if b then Some x else None.

  (** mod.rs 880-920: creates the credential and returns its ID. *)
  Definition mc_create (p : mc_params) (rp_hash : bytes) (k : priv) (pol : option policy)
    (blob lbkey : option bytes) : M status bytes :=
    if mc_rk p then
      let* id := draw e 32 in
      let* order := new_creation_order e in
      let u := mc_user p in
      do* store_credential e
        (mkCred id k (rp_id (mc_rp p)) (us_id u)
                (option_map (fun s => truncate s 64) (us_display u)) pol order
                (option_map (fun s => truncate s 64) (us_name u))
                (option_map (fun s => truncate s 64) (us_icon u)) blob lbkey) in
      ret id
    else internal (wrap_credential e (mkSource k rp_hash pol blob)).

  (** mod.rs 952-974: the signature and certificate of the attestation statement. *)
  Definition mc_attest (ep : bool) (k : priv) (msg : bytes) : M status (bytes * option bytes) :=
    match (if ep then Some Enterprise else if c_batch c then Some Batch else None) with
    | Some i =>
        let* a := get_attestation e i in
        match a with
        | None => fail VENDOR_INTERNAL_ERROR
        | Some (ak, cert) =>
            if ecdsa_valid pr ak then ret (sign pr (mkPriv Es256 ak) msg, Some cert)
            else fail Panic
        end
    | None => let* s := sign_and_encode k msg in ret (s, None)
    end.

  (** mod.rs 725-986: process_make_credential. *)
  Definition process_make_credential (p : mc_params) : M status response :=
    do* precheck (mc_auth p) (mc_proto p) in
    let* a := preferred_alg (mc_algs p) in
    let rp := rp_id (mc_rp p) in
    let* ep := enterprise_requested p in
    do* mc_user_verification p in
    let rp_hash := sha256 pr rp in
    do* mc_exclusion p rp_hash in
    do* check_user_presence e in
    do* clear_token_flags in
    let x := mc_ext_ p in
    let pol := effective_policy (mx_protect x) in
    let* minpin := (if mx_minpin x then
                      let* l := min_pin_length_rp_ids e in ret (mem_bytes rp l)
                    else ret false) in
    let has_blob := match mx_blob x with Some _ => true | None => false end in
    let blob := match mx_blob x with
                | Some b => if (length b <=? c_max_cred_blob c)%nat then Some b else None
                | None => None
                end in
    let stored_blob := match blob with Some _ => true | None => false end in
    let has_protect := match mx_protect x with Some _ => true | None => false end in
    let has_ext := mx_hmac x || has_protect || minpin || has_blob in
    let flags := N.lor (N.lor (N.lor (match mc_auth p with Some _ => UV_FLAG | None => 0 end)
                                     UP_FLAG) AT_FLAG)
                       (if has_ext then ED_FLAG else 0) in
    let* lbkey := match mc_rk p, mx_lbkey x with
                  | true, Some true => let* b := draw e 32 in ret (Some b)
                  | _, _ => ret None
                  end in
    let* k := new_key a in
    let* id := mc_create p rp_hash k pol blob lbkey in
    let* ad := generate_auth_data rp_hash flags in
    do* guard (length id <=? 255)%nat VENDOR_INTERNAL_ERROR in
    let* pub := get_pub_key k in
    let* pub_cbor := write_cbor (cose_to_cbor pub) in
    let* ext_cbor :=
      (if has_ext then
         let* minlen := (if minpin then let* n := min_pin_length e in ret (Some n) else ret None) in
         write_cbor (map_options
           [ (text "credBlob", some_if has_blob (vbool stored_blob));
             (text "credProtect", if has_protect then option_map policy_to_cbor pol else None);
             (text "hmac-secret", some_if (mx_hmac x) (vbool true));
             (text "minPinLength", option_map VUnsigned minlen) ])
       else ret []) in
    let auth_data := ad ++ c_aaguid c ++ [0%N; Nlen id] ++ id ++ pub_cbor ++ ext_cbor in
    let* sx := mc_attest ep k (auth_data ++ mc_cdh p) in
    ret (RMakeCredential (mkMcResp auth_data (fst sx) (snd sx) ep lbkey)).

  (** ** authenticatorGetAssertion (mod.rs 990-1265) *)

  (** mod.rs 990-1002: generate_cred_random. *)
  Definition generate_cred_random (k : priv) (uv : bool) : M status bytes :=
    let* key := cred_random e uv in
    ret (hkdf pr key (firstn 32 (pk_bytes k)) (str "credRandom")).

  (** mod.rs 1059-1075: the user entity of a response. *)
  Definition response_user (r : cred) (uv : bool) : option user :=
    match cr_user r with
    | [] => None
    | h => Some (if uv then mkUser h (cr_name r) (cr_display r) (cr_icon r)
                 else mkUser h None None None)
    end.

  (** mod.rs 1006-1091: assertion_response. *)
  Definition assertion_response (r : cred) (i : assertion_input) (number : option N)
    : M status ga_resp :=
    let x := ai_ext i in
    let has_hmac := match gx_hmac x with Some _ => true | None => false end in
    let* ext :=
      (if has_hmac || gx_blob x then
         let* out := match gx_hmac x with
                     | Some hi =>
                         let* random := generate_cred_random (cr_key r) (ai_uv i) in
                         let* o := process_hmac_secret hi random in
                         ret (Some o)
                     | None => ret None
                     end in
         write_cbor (map_options
           [ (text "credBlob", some_if (gx_blob x)
                (VBytes (match cr_blob r with Some b => b | None => [] end)));
             (text "hmac-secret", option_map VBytes out) ])
       else ret []) in
    let auth_data := ai_auth_data i ++ ext in
    let lbkey := match gx_lbkey x with Some true => cr_lbkey r | _ => None end in
    let* sg := sign_and_encode (cr_key r) (auth_data ++ ai_cdh i) in
    ret (mkGaResp (cr_id r) auth_data sg (response_user r (ai_uv i)) number lbkey).

  (** mod.rs 1146-1180: the user verification part. *)
  Definition ga_user_verification (p : ga_params) : M status unit :=
    match ga_auth p with
    | Some auth => check_uv PERM_GA (ga_cdh p) auth (ga_proto p) (ga_rp p)
    | None =>
        do* guard (negb (ga_uv p)) INVALID_OPTION in
        if ga_up p then
          let* always := has_always_uv e in
          guard (negb always) PUAT_REQUIRED
        else ret tt
    end.

  (** mod.rs 1201-1220: the candidates without an allow list, sorted by creation order.  The
      unstable sort of the source is an insertion sort here; creation orders are distinct
      (property C28), so the result is the same. *)
  Fixpoint insert_by_order (x : N * N) (l : list (N * N)) : list (N * N) :=
    match l with
    | [] => [x]
    | y :: l' => if (snd y <=? snd x)%N then y :: insert_by_order x l' else x :: l
    end.
  Definition sort_by_order (l : list (N * N)) : list (N * N) :=
    fold_left (fun acc x => insert_by_order x acc) l [].
  Definition eligible (rp : bytes) (uv : bool) (x : N * cred) : bool :=
    bytes_eqb (cr_rp (snd x)) rp && (uv || is_discoverable (snd x)).
  Definition candidates (rp : bytes) (uv : bool) (l : list (N * cred)) : list N :=
    map fst (sort_by_order (map (fun x => (fst x, cr_order (snd x))) (filter (eligible rp uv) l))).

  (** mod.rs 1189-1228: the credential to use and the keys left for getNextAssertion. *)
  Definition ga_select (p : ga_params) (rp_hash : bytes) (uv : bool)
    : M status (option cred * list N) :=
    match ga_allow p with
    | Some l =>
        let* o := first_listed (ga_rp p) rp_hash uv l in
        ret (o, [])
    | None =>
        let* l := iter_credentials e in
        match rev (candidates (ga_rp p) uv l) with
        | [] => ret (None, [])
        | k :: rest =>
            let* r := get_credential e k in
            ret (Some r, rev rest)
        end
    end.

  (** mod.rs 1122-1257: process_get_assertion. *)
  Definition process_get_assertion (p : ga_params) (ch : channel) : M status response :=
    do* precheck (ga_auth p) (ga_proto p) in
    let x := ga_ext_ p in
    let has_hmac := match gx_hmac x with Some _ => true | None => false end in
    do* guard (negb (has_hmac && negb (ga_up p))) UNSUPPORTED_OPTION in
    let uv := match ga_auth p with Some _ => true | None => false end in
    do* ga_user_verification p in
    let flags := N.lor (N.lor (if uv then UV_FLAG else 0) (if ga_up p then UP_FLAG else 0))
                       (if has_hmac || gx_blob x then ED_FLAG else 0) in
    let rp_hash := sha256 pr (ga_rp p) in
    let* sel := ga_select p rp_hash uv in
    match sel with
    | (None, _) => fail NO_CREDENTIALS
    | (Some r, keys) =>
        do* (if ga_up p then do* check_user_presence e in clear_token_flags else ret tt) in
        do* increment_counter in
        let* ad := generate_auth_data rp_hash flags in
        let i := mkAI (ga_cdh p) ad x uv in
        let* number := match keys with
                       | [] => ret None
                       | _ => do* set_command (SGetAssertion i keys) ch in
                              ret (Some (Nlen keys + 1)%N)
                       end in
        let* g := assertion_response r i number in
        ret (RGetAssertion g)
    end.

  (** mod.rs 1259-1265: process_get_next_assertion. *)
  Definition process_get_next_assertion : M status response :=
    let* ik := next_assertion_credential in
    let '(i, k) := ik in
    let* r := get_credential e k in
    let* g := assertion_response r i None in
    ret (RGetNextAssertion g).

  (** ** Other commands *)

  (** mod.rs 1267-1337: process_get_info. *)
  Definition process_get_info : M status response :=
    let* always := has_always_uv e in
    let* ep := match c_ep c with
               | Some _ => let* b := enterprise_attestation e in ret [(str "ep", b)]
               | None => ret []
               end in
    let* h := pin_hash e in
    let* force := has_force_pin_change e in
    let* minlen := min_pin_length e in
    let* remaining := remaining_credentials e in
    ret (RGetInfo (mkInfo
      ((if always then [] else [str "U2F_V2"]) ++ [str "FIDO_2_0"; str "FIDO_2_1"])
      (c_aaguid c)
      (ep ++ [(str "rk", true); (str "up", true); (str "alwaysUv", always);
              (str "credMgmt", true); (str "authnrCfg", true);
              (str "clientPin", match h with Some _ => true | None => false end);
              (str "largeBlobs", true); (str "pinUvAuthToken", true);
              (str "setMinPINLength", true); (str "makeCredUvNotRqd", negb always)])
      (c_max_msg c)
      (2%N :: if c_allow_v1 c then [1%N] else [])
      (c_max_list c)
      (Es256 :: if c_ed25519 c then [Eddsa] else [])
      (c_max_blob c) force minlen (N.of_nat (c_max_cred_blob c)) (N.of_nat (c_max_rp_ids c))
      remaining)).

  (** mod.rs 1339-1361: process_reset. *)
  Definition process_reset : M status response :=
    let* s := get_command in
    match s with
    | Some SReset =>
        do* check_user_presence e in
        do* storage_reset e in
        do* client_pin_reset in
        do* modify (set_up up_init) in
        ret RReset
    | _ => fail NOT_ALLOWED
    end.

  (** mod.rs 1363-1370: process_selection. *)
  Definition process_selection : M status response :=
    do* check_user_presence e in ret RSelection.

  (** ** authenticatorCredentialManagement (credential_management.rs) *)

  Definition cm_none : cm_resp :=
    mkCmResp None None None None None None None None None None None.
  (** credential_management.rs 34-43: get_stored_rp_ids; a BTreeSet of strings is the sorted list
      without repetition, in byte order. *)
  Fixpoint set_insert (x : bytes) (l : list bytes) : list bytes :=
    match l with
    | [] => [x]
    | y :: l' => match lexcmp x y with
                 | Lt => x :: l
                 | Eq => l
                 | Gt => y :: set_insert x l'
                 end
    end.
  Definition rp_set (l : list (N * cred)) : list bytes :=
    fold_left (fun acc x => set_insert (cr_rp (snd x)) acc) l [].
  (** credential_management.rs 46-62: enumerate_rps_response. *)
  Definition rps_response (rp : bytes) (total : option N) : cm_resp :=
    mkCmResp None None (Some rp) (Some (sha256 pr rp)) total None None None None None None.
  (** credential_management.rs 65-104: enumerate_credentials_response. *)
  Definition creds_response (r : cred) (total : option N) : M status cm_resp :=
    let* pub := get_pub_key (cr_key r) in
    ret (mkCmResp None None None None None
           (Some (mkUser (cr_user r) (cr_name r) (cr_display r) (cr_icon r)))
           (Some (cr_id r)) (Some pub) total (cr_policy r) (cr_lbkey r)).
  (** credential_management.rs 109-121: check_rp_id_permissions. *)
  Definition check_rp_id_permissions (id : bytes) : M status unit :=
    let* t := gets v_token in
    match t_rp t with
    | None => ret tt
    | Some _ =>
        let* x := find_credential_item e id in
        has_no_or_rp_id (cr_rp (snd x))
    end.
  (** credential_management.rs 124-134: process_get_creds_metadata. *)
  Definition cm_metadata : M status (option cm_resp) :=
    let* n := count_credentials e in
    let* r := remaining_credentials e in
    ret (Some (mkCmResp (Some n) (Some r) None None None None None None None None None)).
  (** credential_management.rs 135-150: process_enumerate_rps_begin. *)
  Definition cm_rps_begin (ch : channel) : M status (option cm_resp) :=
    let* l := iter_credentials e in
    let rps := rp_set l in
    do* (if (1 <? length rps)%nat then set_command (SEnumRps 1) ch else ret tt) in
    match rps with
    | [] => fail NO_CREDENTIALS
    | rp :: _ => ret (Some (rps_response rp (Some (Nlen rps))))
    end.
  (** credential_management.rs 153-165: process_enumerate_rps_get_next_rp. *)
  Definition cm_rps_next : M status (option cm_resp) :=
    let* i := next_enumerate_rp in
    let* l := iter_credentials e in
    match nth_error (rp_set l) i with
    | None => fail NOT_ALLOWED
    | Some rp => ret (Some (rps_response rp None))
    end.
  (** credential_management.rs 168-205: process_enumerate_credentials_begin. *)
  Definition cm_creds_begin (d : cm_data) (ch : channel) : M status (option cm_resp) :=
    let* h := lift (ok_or_missing (cd_hash d)) in
    do* has_no_or_rp_id_hash h in
    let* l := iter_credentials e in
    let keys := map fst (filter (fun x => bytes_eqb (sha256 pr (cr_rp (snd x))) h) l) in
    match rev keys with
    | [] => fail NO_CREDENTIALS
    | k :: rest =>
        let* r := get_credential e k in
        do* (if (1 <? length keys)%nat then set_command (SEnumCreds (rev rest)) ch else ret tt) in
        let* x := creds_response r (Some (Nlen keys)) in
        ret (Some x)
    end.
  (** credential_management.rs 208-215: process_enumerate_credentials_get_next_credential. *)
  Definition cm_creds_next : M status (option cm_resp) :=
    let* k := next_enumerate_credential in
    let* r := get_credential e k in
    let* x := creds_response r None in
    ret (Some x).
  (** credential_management.rs 218-229: process_delete_credential. *)
  Definition cm_delete (d : cm_data) : M status (option cm_resp) :=
    let* x := lift (ok_or_missing (cd_cred d)) in
    do* check_rp_id_permissions (de_id x) in
    do* delete_credential e (de_id x) in
    ret None.
  (** credential_management.rs 232-246: process_update_user_information. *)
  Definition cm_update (d : cm_data) : M status (option cm_resp) :=
    let* x := lift (ok_or_missing (cd_cred d)) in
    let* u := lift (ok_or_missing (cd_user d)) in
    do* check_rp_id_permissions (de_id x) in
    do* update_credential e (de_id x) u in
    ret None.

  (** credential_management.rs 275-303: the MAC and permission check of the subcommands that need
      it; the MAC is over the subcommand and its parameters. *)
  Definition cm_message (p : cm_params) : M status bytes :=
    match cm_data_ p with
    | None => ret [cm_code (cm_sub_ p)]
    | Some d => let* b := write_cbor (cm_data_to_cbor d) in ret (cm_code (cm_sub_ p) :: b)
    end.
  Definition cm_authorise (p : cm_params) : M status unit :=
    match cm_sub_ p with
    | CmRpsNext | CmCredsNext => ret tt
    | _ =>
        match cm_auth p with
        | None => fail PUAT_REQUIRED
        | Some auth =>
            let* pp := lift (ok_or_missing (cm_proto p)) in
            let* msg := cm_message p in
            do* verify_auth msg auth pp in
            has_permission PERM_CM
        end
    end.
  (** credential_management.rs 249-349: process_credential_management. *)
  Definition process_cred_mgmt (p : cm_params) (ch : channel) : M status response :=
    let* s := get_command in
    do* match cm_sub_ p, s with
        | CmRpsNext, Some (SEnumRps _) => ret tt
        | CmCredsNext, Some (SEnumCreds _) => ret tt
        | _, _ => st_clear
        end in
    do* cm_authorise p in
    let* r := match cm_sub_ p with
              | CmMetadata => do* has_no_rp_id in cm_metadata
              | CmRpsBegin => do* has_no_rp_id in cm_rps_begin ch
              | CmRpsNext => cm_rps_next
              | CmCredsBegin =>
                  let* d := lift (ok_or_missing (cm_data_ p)) in cm_creds_begin d ch
              | CmCredsNext => cm_creds_next
              | CmDelete => let* d := lift (ok_or_missing (cm_data_ p)) in cm_delete d
              | CmUpdate => let* d := lift (ok_or_missing (cm_data_ p)) in cm_update d
              end in
    ret (RCredMgmt r).

  (** ** authenticatorConfig (config_command.rs) *)

  (** config_command.rs 26-35: process_enable_enterprise_attestation. *)
  Definition cf_enterprise : M status unit :=
    match c_ep c with
    | Some _ => enable_enterprise_attestation e
    | None => fail INVALID_PARAMETER
    end.
  (** config_command.rs 44-73: process_set_min_pin_length. *)
  Definition cf_set_min_pin_length (d : minpin_params) : M status unit :=
    let* stored := min_pin_length e in
    let new := match mp_len d with Some n => n | None => stored end in
    do* guard (negb (new <? stored)%N) PIN_POLICY_VIOLATION in
    let force := match mp_force d with Some b => b | None => false end in
    do* (if force then
           let* h := pin_hash e in
           guard (match h with None => false | Some _ => true end) PIN_NOT_SET
         else ret tt) in
    let* old := pin_code_point_length e in
    let force := force || match old with Some n => (n <? new)%N | None => false end in
    do* (if force then force_pin_change e else ret tt) in
    do* set_min_pin_length e new in
    match mp_rps d with
    | Some l => set_min_pin_length_rp_ids e l
    | None => ret tt
    end.
  (** config_command.rs 88-108: what the MAC of a request covers, and the authorisation. *)
  Definition cf_message (p : cf_params) : M status bytes :=
    let head := repeat 255%N 32 ++ [0x0D%N; cf_code (cf_sub_ p)] in
    match cf_data p with
    | None => ret head
    | Some d => let* b := write_cbor (minpin_to_cbor d) in ret (head ++ b)
    end.
  Definition cf_authorise (p : cf_params) : M status unit :=
    let* enforce := match cf_sub_ p with
                    | CfToggleUv => ret false
                    | _ => has_always_uv e
                    end in
    let* h := pin_hash e in
    if (match h with Some _ => true | None => false end) || enforce then
      match cf_auth p with
      | None => fail PUAT_REQUIRED
      | Some auth =>
          let* pp := lift (ok_or_missing (cf_proto p)) in
          let* msg := cf_message p in
          do* verify_auth msg auth pp in
          has_permission PERM_ACFG
      end
    else ret tt.
  (** config_command.rs 76-121: process_config. *)
  Definition process_config (p : cf_params) : M status response :=
    do* cf_authorise p in
    do* match cf_sub_ p with
        | CfEnterprise => cf_enterprise
        | CfToggleUv => toggle_always_uv e
        | CfMinPin => match cf_data p with
                      | Some d => cf_set_min_pin_length d
                      | None => fail MISSING_PARAMETER
                      end
        | CfVendor => fail INVALID_PARAMETER
        end in
    ret RConfig.

  (** ** authenticatorLargeBlobs (large_blobs.rs) *)

  Definition mod_lb (f : blobs -> blobs) : M status unit := modify (fun v => set_lb (f (v_lb v)) v).
  (** large_blobs.rs 94-99: what the MAC of a fragment covers. *)
  Definition lb_message (offset : N) (set : bytes) : bytes :=
    repeat 255%N 32 ++ [0x0C%N; 0%N] ++ rev (be_bytes 4 offset) ++ sha256 pr set.
  (** large_blobs.rs 89-106: authorisation of a fragment. *)
  Definition lb_authorise (p : lb_params) (set : bytes) : M status unit :=
    let* h := pin_hash e in
    let* need := match h with
                 | Some _ => ret true
                 | None => has_always_uv e
                 end in
    if (need : bool) then
      match lb_auth p with
      | None => fail PUAT_REQUIRED
      | Some auth =>
          let* pp := lift (ok_or_missing (lb_proto p)) in
          do* verify_auth (lb_message (lb_offset p) set) auth pp in
          has_permission PERM_LBW
      end
    else ret tt.
  (** large_blobs.rs 78-85: the start of an array. *)
  Definition lb_start (p : lb_params) : M status unit :=
    if (lb_offset p =? 0)%N then
      match lb_length p with
      | None => fail INVALID_PARAMETER
      | Some n =>
          do* mod_lb (fun b => mkBlobs (lb_buf b) n (lb_next b)) in
          do* guard (n <=? c_max_blob c)%N LARGE_BLOB_STORAGE_FULL in
          mod_lb (fun b => mkBlobs (lb_buf b) (lb_len b) 0)
      end
    else ret tt.
  (** large_blobs.rs 115-131: the end of an array.  The subtraction panics on a short buffer. *)
  Definition lb_complete : M status unit :=
    do* mod_lb (fun b => mkBlobs (lb_buf b) 0 0) in
    let* b := gets v_lb in
    let buf := lb_buf b in
    do* guard (16 <=? length buf)%nat Panic in
    let n := (length buf - 16)%nat in
    if bytes_eqb (firstn 16 (sha256 pr (firstn n buf))) (skipn n buf) then
      do* commit_large_blob_array e buf in
      mod_lb (fun b => mkBlobs [] (lb_len b) (lb_next b))
    else
      do* mod_lb (fun b => mkBlobs [] (lb_len b) (lb_next b)) in
      fail INTEGRITY_FAILURE.
  Definition lb_write (p : lb_params) (set : bytes) : M status unit :=
    do* guard (Nlen set <=? c_max_msg c - 64)%N INVALID_LENGTH in
    do* lb_start p in
    let* b := gets v_lb in
    do* guard (lb_offset p =? lb_next b)%N INVALID_SEQ in
    do* lb_authorise p set in
    let* b := gets v_lb in
    do* guard (lb_offset p + Nlen set <=? lb_len b)%N INVALID_PARAMETER in
    do* mod_lb (fun b => let buf := (if (lb_offset p =? 0)%N then [] else lb_buf b) ++ set in
                         mkBlobs buf (lb_len b) (Nlen buf)) in
    let* b := gets v_lb in
    if (lb_next b =? lb_len b)%N then lb_complete else ret tt.
  (** large_blobs.rs 47-134: process_command. *)
  Definition process_large_blobs (p : lb_params) : M status response :=
    match lb_get p with
    | Some n =>
        do* guard (negb ((c_max_msg c - 64 <? n)%N || (2 ^ c_width c <=? lb_offset p + n)%N))
              INVALID_LENGTH in
        let* b := get_large_blob_array e (lb_offset p) n in
        ret (RLargeBlobs (Some b))
    | None =>
        match lb_set p with
        | Some s => do* lb_write p s in ret (RLargeBlobs None)
        | None => fail INVALID_PARAMETER
        end
    end.

  (** ** Dispatch (mod.rs 574-701) *)

  (** mod.rs 574-583: clear_other_channels. *)
  Definition clear_other_channels (ch : channel) : M status unit :=
    do* modify (set_up up_init) in clear_old_channels ch.

  (** mod.rs 630-647: which commands keep which state. *)
  Definition keeps (x : command) (s : option stateful_cmd) : bool :=
    match x, s with
    | CGetNextAssertion, Some (SGetAssertion _ _) => true
    | CReset, Some SReset | CGetInfo, Some SReset | CSelection, Some SReset
    | CMakeCredential _, Some SReset => true
    | CCredMgmt _, Some (SEnumRps _) | CCredMgmt _, Some (SEnumCreds _) => true
    | _, _ => false
    end.

  (** mod.rs 655-689: process_fido_command. *)
  Definition process_fido_command (x : command) (ch : channel) : M status response :=
    match x with
    | CMakeCredential p => process_make_credential p
    | CGetAssertion p => process_get_assertion p ch
    | CGetNextAssertion => process_get_next_assertion
    | CGetInfo => process_get_info
    | CClientPin p => process_client_pin p
    | CReset => process_reset
    | CCredMgmt p => process_cred_mgmt p ch
    | CSelection => process_selection
    | CLargeBlobs p => process_large_blobs p
    | CConfig p => process_config p
    end.
  (** mod.rs 692-701: process_vendor_command. *)
  Definition process_vendor_command (x : command) : M status response :=
    match x with CGetInfo => process_get_info | _ => fail INVALID_COMMAND end.

  (** mod.rs 618-653: process_parsed_command. *)
  Definition process_parsed_command (x : command) (ch : channel) : M status response :=
    do* update_timeouts in
    do* clear_other_channels ch in
    let* s := get_command in
    do* (if keeps x s then ret tt else st_clear) in
    match ch with
    | MainHid _ => process_fido_command x ch
    | VendorHid _ => process_vendor_command x
    end.

  (** mod.rs 591-597: a vendor command that was answered by the environment. *)
  Definition after_vendor_response (ch : channel) : M status unit :=
    do* clear_other_channels ch in st_clear.

  (** ** CTAP1 (ctap1.rs) *)

  (** ctap1.rs 161-170: to_uncompressed. *)
  Definition uncompressed (k : cose) : bytes := 4%N :: cx k ++ cy k.

  Definition consume : M sw bool :=
    let* n := now in
    let* s := gets v_up in
    let '(ok, s') := consume_up n s in
    do* modify (set_up s') in ret ok.

  Definition to_sw {A} (x : sw) (m : M status A) : M sw A := map_status SW_PANIC (fun _ => x) m.
  (** apdu.rs 49-58 after attestation_store.rs 106-117: storage errors of the attestation store. *)
  Definition attestation_sw (s : status) : sw :=
    match s with ERR_OTHER => SW_MEMERR | _ => SW_INTERNAL_EXCEPTION end.

  (** ctap1.rs 252-306: process_register. *)
  Definition u2f_register (challenge application : bytes) : M sw bytes :=
    let* k := new_key Es256 in
    do* guard (key_valid k) SW_INTERNAL_EXCEPTION in
    let pk := uncompressed (pub_of pr k) in
    let* kh := to_sw SW_INTERNAL_EXCEPTION (wrap_credential e (mkSource k application None None)) in
    do* guard (length kh <=? 255)%nat SW_INTERNAL_EXCEPTION in
    let* a := map_status SW_PANIC attestation_sw (load e p_batch) in
    match a with
    | None => fail SW_INTERNAL_EXCEPTION
    | Some (ak, cert) =>
        do* guard (ecdsa_valid pr ak) SW_PANIC in
        let sg := sign pr (mkPriv Es256 ak) ([0%N] ++ application ++ challenge ++ kh ++ pk) in
        ret ([5%N] ++ pk ++ [Nlen kh] ++ kh ++ cert ++ sg)
    end.

  (** ctap1.rs 322-358: process_authenticate. *)
  Definition u2f_authenticate (challenge application kh : bytes) (flags : u2f_flags) : M sw bytes :=
    let* s := to_sw SW_WRONG_DATA (unwrap_credential e kh application) in
    match (match s with Some s => if listed false (so_policy s) then Some s else None
                      | None => None end) with
    | None => fail SW_WRONG_DATA
    | Some s =>
        do* guard (match flags with CheckOnly => false | _ => true end) SW_COND_USE_NOT_SATISFIED in
        do* to_sw SW_WRONG_DATA increment_counter in
        let* ad := to_sw SW_WRONG_DATA (generate_auth_data application UP_FLAG) in
        let* sg := to_sw SW_INTERNAL_EXCEPTION (sign_and_encode (so_key s) (ad ++ challenge)) in
        ret (firstn 5 (skipn (length application) ad) ++ sg)
    end.

  (** ctap1.rs 189-239: process_command. *)
  Definition u2f_process (message : bytes) : M sw bytes :=
    let* always := to_sw SW_INTERNAL_EXCEPTION (has_always_uv e) in
    do* guard (negb always) SW_COMMAND_NOT_ALLOWED in
    let* x := lift (u2f_parse message) in
    match x with
    | U2fRegister challenge application =>
        let* ok := consume in
        do* guard ok SW_COND_USE_NOT_SATISFIED in
        u2f_register challenge application
    | U2fAuthenticate challenge application kh flags =>
        do* match flags with
            | EnforceUpAndSign => let* ok := consume in guard ok SW_COND_USE_NOT_SATISFIED
            | _ => ret tt
            end in
        u2f_authenticate challenge application kh flags
    | U2fVersion => ret (str "U2F_V2")
    | U2fVendor _ => fail SW_SUCCESS
    end.

  (** ** Power-up (mod.rs 543-553) *)

  (** CtapState::new with ClientPin::new (client_pin.rs 150-158), StatefulPermission::new_reset and
      LargeBlobs::new; storage::init (storage.rs 48-55) does nothing with the default key store. *)
  Definition boot : M status unit :=
    let* p1 := proto_new in
    let* p2 := proto_new in
    let* n := now in
    modify (fun _ => mkVol p1 p2 0 token_init up_init
                       (mkStateful (make_timer n RESET_TIMEOUT_MS) (Some SReset) None)
                       (mkBlobs [] 0 0)).
End Commands.
