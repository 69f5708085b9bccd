(** The state of the authenticator, the effects of its code (persistent store, random numbers,
    user presence, time) and the storage layer opensk/src/ctap/storage.rs. *)
From Verif Require Import Base Hid.Model U2f.Model Cbor.Model Ctap.Crypto Ctap.Types.

(** ** Persistent state *)

(** What OpenSK keeps in the persistent store, entry by entry (storage/key.rs 63-155).  The entries
    are kept decoded: an entry that is absent is [None]; the byte layout of each entry is that of
    storage.rs, and for credentials the CBOR of [Types.serialize_credential], whose round trip is
    proved separately (property C31).  Entries of a wrong length, which the code answers with
    CTAP2_ERR_VENDOR_INTERNAL_ERROR and never writes, are not represented.  Credentials are listed
    in the order in which the store iterates over them; compaction of the store may change that
    order, which histories represent by a separate step ([System.HPermute]). *)
Record pers := mkPers {
  p_pin : option (bytes * N);        (* PIN_PROPERTIES 2045: hash, code point length *)
  p_retries : option N;              (* PIN_RETRIES 2044 *)
  p_force : bool;                    (* FORCE_PIN_CHANGE 2040 *)
  p_minlen : option N;               (* MIN_PIN_LENGTH 2043 *)
  p_rpids : option (list bytes);     (* MIN_PIN_LENGTH_RP_IDS 2042 *)
  p_ep : bool;                       (* ENTERPRISE_ATTESTATION 2039 *)
  p_uv : bool;                       (* ALWAYS_UV 2038 *)
  p_creds : list (N * cred);         (* CREDENTIALS 1700..2000 *)
  p_counter : option N;              (* GLOBAL_SIGNATURE_COUNTER 2047 *)
  p_blob : option bytes;             (* LARGE_BLOB_SHARDS 2000..2004, concatenated *)
  p_master : option bytes;           (* KEY_STORE 2046 *)
  p_batch : option (bytes * bytes);  (* attestation store: private key, certificate *)
  p_ent : option (bytes * bytes)
}.

Definition pers_init : pers :=
  mkPers None None false None None false false [] None None None None None.

Definition set_pin_props v p := mkPers v (p_retries p) (p_force p) (p_minlen p) (p_rpids p) (p_ep p)
  (p_uv p) (p_creds p) (p_counter p) (p_blob p) (p_master p) (p_batch p) (p_ent p).
Definition set_retries v p := mkPers (p_pin p) v (p_force p) (p_minlen p) (p_rpids p) (p_ep p)
  (p_uv p) (p_creds p) (p_counter p) (p_blob p) (p_master p) (p_batch p) (p_ent p).
Definition set_force v p := mkPers (p_pin p) (p_retries p) v (p_minlen p) (p_rpids p) (p_ep p)
  (p_uv p) (p_creds p) (p_counter p) (p_blob p) (p_master p) (p_batch p) (p_ent p).
Definition set_minlen v p := mkPers (p_pin p) (p_retries p) (p_force p) v (p_rpids p) (p_ep p)
  (p_uv p) (p_creds p) (p_counter p) (p_blob p) (p_master p) (p_batch p) (p_ent p).
Definition set_rpids v p := mkPers (p_pin p) (p_retries p) (p_force p) (p_minlen p) v (p_ep p)
  (p_uv p) (p_creds p) (p_counter p) (p_blob p) (p_master p) (p_batch p) (p_ent p).
Definition set_ep v p := mkPers (p_pin p) (p_retries p) (p_force p) (p_minlen p) (p_rpids p) v
  (p_uv p) (p_creds p) (p_counter p) (p_blob p) (p_master p) (p_batch p) (p_ent p).
Definition set_uv v p := mkPers (p_pin p) (p_retries p) (p_force p) (p_minlen p) (p_rpids p) (p_ep p)
  v (p_creds p) (p_counter p) (p_blob p) (p_master p) (p_batch p) (p_ent p).
Definition set_creds v p := mkPers (p_pin p) (p_retries p) (p_force p) (p_minlen p) (p_rpids p)
  (p_ep p) (p_uv p) v (p_counter p) (p_blob p) (p_master p) (p_batch p) (p_ent p).
Definition set_counter v p := mkPers (p_pin p) (p_retries p) (p_force p) (p_minlen p) (p_rpids p)
  (p_ep p) (p_uv p) (p_creds p) v (p_blob p) (p_master p) (p_batch p) (p_ent p).
Definition set_blob v p := mkPers (p_pin p) (p_retries p) (p_force p) (p_minlen p) (p_rpids p)
  (p_ep p) (p_uv p) (p_creds p) (p_counter p) v (p_master p) (p_batch p) (p_ent p).
Definition set_master v p := mkPers (p_pin p) (p_retries p) (p_force p) (p_minlen p) (p_rpids p)
  (p_ep p) (p_uv p) (p_creds p) (p_counter p) (p_blob p) v (p_batch p) (p_ent p).
Definition set_atts b en p := mkPers (p_pin p) (p_retries p) (p_force p) (p_minlen p) (p_rpids p)
  (p_ep p) (p_uv p) (p_creds p) (p_counter p) (p_blob p) (p_master p) b en.

(** ** Volatile state *)

(** token_state.rs 35-42: PinUvAuthTokenState.  Timers are the [timer] of the HID model: the
    millisecond at which they elapse. *)
Record token := mkToken {
  t_perms : N;
  t_rp : option bytes;
  t_timer : timer;
  t_uv : bool;
  t_use : bool
}.
(** token_state.rs 46-54 and 138-144: new and stop_using_pin_uv_auth_token. *)
Definition token_init : token := mkToken 0 None timer_default false false.

(** pin_protocol.rs 33-36: PinProtocol. *)
Record proto := mkProto { pp_key : bytes; pp_token : bytes }.

(** mod.rs: Channel. *)
Inductive channel := MainHid (cid : bytes) | VendorHid (cid : bytes).
Definition channel_eqb (a b : channel) : bool :=
  match a, b with
  | MainHid x, MainHid y => bytes_eqb x y
  | VendorHid x, VendorHid y => bytes_eqb x y
  | _, _ => false
  end.

(** data_formats.rs GetAssertionHmacSecretInput and GetAssertionExtensions. *)
Record hmac_input := mkHmacInput {
  hi_key : cose; hi_salt : bytes; hi_auth : bytes; hi_proto : pin_proto }.
Record ga_ext := mkGaExt {
  gx_hmac : option hmac_input; gx_blob : bool; gx_lbkey : option bool }.

(** mod.rs 373-378: AssertionInput, AssertionState and StatefulCommand. *)
Record assertion_input := mkAI {
  ai_cdh : bytes; ai_auth_data : bytes; ai_ext : ga_ext; ai_uv : bool }.
Inductive stateful_cmd :=
| SReset
| SGetAssertion (inp : assertion_input) (keys : list N)
| SEnumRps (index : nat)
| SEnumCreds (keys : list N).

(** mod.rs 409-413: StatefulPermission. *)
Record stateful := mkStateful {
  sf_timer : timer; sf_cmd : option stateful_cmd; sf_chan : option channel }.
Definition stateful_clear : stateful := mkStateful timer_default None None.

(** large_blobs.rs 30-34: LargeBlobs. *)
Record blobs := mkBlobs { lb_buf : bytes; lb_len : N; lb_next : N }.

(** client_pin.rs 125-130 and mod.rs 540-547: ClientPin and CtapState. *)
Record vol := mkVol {
  v_proto1 : proto;
  v_proto2 : proto;
  v_mism : N;
  v_token : token;
  v_up : up_state;
  v_st : stateful;
  v_lb : blobs
}.
Definition set_proto1 x v := mkVol x (v_proto2 v) (v_mism v) (v_token v) (v_up v) (v_st v) (v_lb v).
Definition set_proto2 x v := mkVol (v_proto1 v) x (v_mism v) (v_token v) (v_up v) (v_st v) (v_lb v).
Definition set_mism x v := mkVol (v_proto1 v) (v_proto2 v) x (v_token v) (v_up v) (v_st v) (v_lb v).
Definition set_token x v := mkVol (v_proto1 v) (v_proto2 v) (v_mism v) x (v_up v) (v_st v) (v_lb v).
Definition set_up x v := mkVol (v_proto1 v) (v_proto2 v) (v_mism v) (v_token v) x (v_st v) (v_lb v).
Definition set_st x v := mkVol (v_proto1 v) (v_proto2 v) (v_mism v) (v_token v) (v_up v) x (v_lb v).
Definition set_lb x v := mkVol (v_proto1 v) (v_proto2 v) (v_mism v) (v_token v) (v_up v) (v_st v) x.

(** ** Environment *)

(** api/customization.rs: the configuration values that the modelled code reads. *)
Inductive ep_mode := EpVendor | EpPlatform.
Record cfg := mkCfg {
  c_max_retries : N;
  c_min_pin : N;
  c_min_pin_rps : list bytes;
  c_max_rp_ids : nat;
  c_enforce_uv : bool;
  c_allow_v1 : bool;
  c_max_rk : nat;
  c_max_blob : N;
  c_max_msg : N;
  c_max_cred_blob : nat;
  c_protect : option policy;
  c_ep : option ep_mode;
  c_ep_rps : list bytes;
  c_batch : bool;
  c_counter : bool;
  c_aaguid : bytes;
  c_max_list : option N;
  c_firmware : option N;  (* Env::firmware_version *)
  c_ed25519 : bool;      (* compiled with feature ed25519 *)
  c_width : N            (* width of usize in bits *)
}.

(** persistent_store StoreError. *)
Inductive store_fault := FInvalidArgument | FNoCapacity | FNoLifetime | FStorageError
| FInvalidStorage.
(** storage.rs 500-519: From<StoreError> for Ctap2StatusCode. *)
Definition fault_status (f : store_fault) : status :=
  match f with
  | FNoCapacity | FNoLifetime => KEY_STORE_FULL
  | FInvalidArgument => VENDOR_INTERNAL_ERROR
  | FInvalidStorage => VENDOR_HARDWARE_FAILURE
  | FStorageError => ERR_OTHER
  end.

(** api/user_presence.rs: how a user presence check ends.  The waiting loop with its keepalive
    packets (mod.rs 332-371) is one step here; [up_status] is the conversion of its errors. *)
Inductive up_result := UpConfirmed | UpDeclined | UpTimeout | UpCanceled | UpFail.
Definition up_status (u : up_result) : option status :=
  match u with
  | UpConfirmed => None
  | UpDeclined => Some OPERATION_DENIED
  | UpTimeout => Some USER_ACTION_TIMEOUT
  | UpCanceled => Some KEEPALIVE_CANCEL
  | UpFail => Some VENDOR_HARDWARE_FAILURE
  end.

(** Everything outside the modelled code, as one record of arbitrary functions: the primitives, the
    configuration, the bytes returned by the [i]-th random draw of a given length, the result and
    duration of the [i]-th user presence check, and for the [i]-th store operation whether it fails
    and, if so, whether it took effect nevertheless. *)
Record env := mkEnv {
  e_prims : prims;
  e_cfg : cfg;
  e_rnd : nat -> nat -> bytes;
  e_up : nat -> up_result * N;
  e_fault : nat -> option (store_fault * bool)
}.

(** Ghost events that no user of the device sees but properties speak about: a PIN candidate was
    compared with the stored PIN hash (and whether it was equal); a PIN/UV auth token is issued, at
    a time, with the new token values of the two protocols; permissions are granted to it; the token
    values are replaced without being handed out; user presence was confirmed; the device was
    powered up. *)
Inductive event :=
| EvCompare (ok : bool)
| EvIssue (t : N) (tok1 tok2 : bytes)
| EvGrant (perms : N) (rp : option bytes)
| EvRenew (tok1 tok2 : bytes)
| EvPresence
| EvBoot.
(** The log of a run: every write to the persistent store with the resulting state, and events. *)
Inductive item := LWrite (p : pers) | LEv (e : event).

Record world := mkWorld {
  w_p : pers;
  w_v : vol;
  w_now : N;         (* milliseconds since power-up *)
  w_rng : nat;
  w_up : nat;
  w_op : nat;
  w_log : list item  (* newest first *)
}.

(** ** Computations *)
Definition M (E A : Type) : Type := world -> res E A * world.
Definition ret {E A} (a : A) : M E A := fun w => (Ok a, w).
Definition fail {E A} (s : E) : M E A := fun w => (Err s, w).
Definition bind {E A B} (m : M E A) (k : A -> M E B) : M E B :=
  fun w => match m w with
           | (Ok a, w') => k a w'
           | (Err s, w') => (Err s, w')
           end.
Notation "'let*' x ':=' m 'in' k" := (bind m (fun x => k))
  (at level 200, x pattern, m at level 100, k at level 200, right associativity).
Notation "'do*' m 'in' k" := (bind m (fun _ => k))
  (at level 200, m at level 100, k at level 200, right associativity).
Definition lift {E A} (r : res E A) : M E A := fun w => (r, w).
(** [map_err], which keeps panics. *)
Definition map_status {A E} (panic : E) (f : status -> E) (m : M status A) : M E A :=
  fun w => match m w with
           | (Ok a, w') => (Ok a, w')
           | (Err Panic, w') => (Err panic, w')
           | (Err s, w') => (Err (f s), w')
           end.
(** [result.ok()] of a user presence check: errors are dropped, panics are not. *)
Definition ignore {A} (m : M status A) : M status unit :=
  fun w => match m w with
           | (Err Panic, w') => (Err Panic, w')
           | (_, w') => (Ok tt, w')
           end.
Definition guard {E} (b : bool) (s : E) : M E unit := if b then ret tt else fail s.

Definition gets {E A} (f : vol -> A) : M E A := fun w => (Ok (f (w_v w)), w).
Definition modify {E} (f : vol -> vol) : M E unit :=
  fun w => (Ok tt, mkWorld (w_p w) (f (w_v w)) (w_now w) (w_rng w) (w_up w) (w_op w) (w_log w)).
Definition now {E} : M E N := fun w => (Ok (w_now w), w).
Definition emit {E} (ev : event) : M E unit :=
  fun w => (Ok tt, mkWorld (w_p w) (w_v w) (w_now w) (w_rng w) (w_up w) (w_op w) (LEv ev :: w_log w)).

Section Env.
  Variable e : env.
  Let c : cfg := e_cfg e.
  Let pr : prims := e_prims e.

  (** One draw of [n] bytes from the random number generator. *)
  Definition draw {E} (n : nat) : M E bytes :=
    fun w => (Ok (e_rnd e (w_rng w) n),
              mkWorld (w_p w) (w_v w) (w_now w) (S (w_rng w)) (w_up w) (w_op w) (w_log w)).

  (** mod.rs 332-371: check_user_presence. *)
  Definition check_user_presence : M status unit :=
    fun w =>
      let '(r, d) := e_up e (w_up w) in
      let w' := mkWorld (w_p w) (w_v w) (w_now w + d) (w_rng w) (S (w_up w)) (w_op w) (w_log w) in
      match up_status r with
      | None => emit EvPresence w'
      | Some s => (Err s, w')
      end.

  (** A read of the persistent store (Store::find, Store::iter). *)
  Definition load {A} (f : pers -> A) : M status A :=
    fun w =>
      let w' := mkWorld (w_p w) (w_v w) (w_now w) (w_rng w) (w_up w) (S (w_op w)) (w_log w) in
      match e_fault e (w_op w) with
      | None => (Ok (f (w_p w)), w')
      | Some (s, _) => (Err (fault_status s), w')
      end.

  (** An update of the persistent store (Store::insert, remove, transaction, clear, and
      fragment::write).  It is atomic: property C16 for the store, C19 for fragments. *)
  Definition store (f : pers -> pers) : M status unit :=
    fun w =>
      let w0 := mkWorld (w_p w) (w_v w) (w_now w) (w_rng w) (w_up w) (S (w_op w)) (w_log w) in
      let w1 := mkWorld (f (w_p w)) (w_v w) (w_now w) (w_rng w) (w_up w) (S (w_op w))
                        (LWrite (f (w_p w)) :: w_log w) in
      match e_fault e (w_op w) with
      | None => (Ok tt, w1)
      | Some (s, applied) => (Err (fault_status s), if applied then w1 else w0)
      end.

  (** key_store.rs 260-286: get_master_keys; key_store::Error becomes
      CTAP2_ERR_VENDOR_INTERNAL_ERROR (status_code.rs). *)
  Definition internal {A} (m : M status A) : M status A :=
    map_status Panic (fun _ => VENDOR_INTERNAL_ERROR) m.
  Definition master_keys : M status bytes :=
    internal
      (let* m := load p_master in
       match m with
       | Some x => ret x
       | None =>
           let* x := draw 128 in
           do* store (set_master (Some x)) in
           ret x
       end).
  (** key_store.rs 139-141: wrap_key. *)
  Definition wrap_key : M status bytes := let* m := master_keys in ret (mk_encryption m).

  (** key_store.rs 147-177: wrap_credential. *)
  Definition wrap_credential (s : source) : M status bytes :=
    let* m := master_keys in
    let* iv1 := draw 16 in
    let* m2 := master_keys in
    let* iv2 := draw 16 in
    match wrap_pure pr m iv1 iv2 s with
    | Some id => ret id
    | None => fail VENDOR_INTERNAL_ERROR
    end.

  (** key_store.rs 190-228: unwrap_credential.  The subtraction of the length of the MAC panics on a
      short identifier. *)
  Definition unwrap_credential (id rp_hash : bytes) : M status (option source) :=
    if (length id <? CBOR_CREDENTIAL_ID_SIZE)%nat then ret None
    else
      do* guard (32 <=? length id)%nat Panic in
      let* m := master_keys in
      match unwrap_pure pr (c_ed25519 c) (c_width c) m id rp_hash with
      | Some o => ret o
      | None => fail VENDOR_INTERNAL_ERROR
      end.

  (** key_store.rs 230-232: cred_random. *)
  Definition cred_random (uv : bool) : M status bytes :=
    let* m := master_keys in ret (mk_cred_random m uv).

  (** ** storage.rs *)

  Definition CREDENTIALS_START : N := 1700.
  Definition key_of (i : nat) : N := (CREDENTIALS_START + N.of_nat i)%N.
  Definition key_in_range (k : N) : bool :=
    ((CREDENTIALS_START <=? k) && (k <? CREDENTIALS_START + N.of_nat (c_max_rk c)))%N.

  (** storage.rs 222-227 and 521-593: iter_credentials and IterCredentials, as one read. *)
  Definition iter_credentials : M status (list (N * cred)) :=
    do* wrap_key in load p_creds.

  Definition lookup (k : N) (l : list (N * cred)) : option cred :=
    match find (fun x => (fst x =? k)%N) l with
    | Some x => Some (snd x)
    | None => None
    end.

  (** storage.rs 58-73: get_credential. *)
  Definition get_credential (k : N) : M status cred :=
    if negb (key_in_range k) then fail VENDOR_INTERNAL_ERROR
    else
      let* o := load (fun p => lookup k (p_creds p)) in
      match o with
      | None => fail VENDOR_INTERNAL_ERROR
      | Some r => do* wrap_key in ret r
      end.

  (** storage.rs 80-96: find_credential_item. *)
  Definition find_credential_item (id : bytes) : M status (N * cred) :=
    let* l := iter_credentials in
    match filter (fun x => bytes_eqb (cr_id (snd x)) id) l with
    | [] => fail NO_CREDENTIALS
    | [x] => ret x
    | _ => fail VENDOR_INTERNAL_ERROR
    end.

  (** storage.rs 102-116: find_credential. *)
  Definition find_credential (rp id : bytes) : M status (option cred) :=
    fun w =>
      match find_credential_item id w with
      | (Err NO_CREDENTIALS, w') => (Ok None, w')
      | (Err s, w') => (Err s, w')
      | (Ok (_, r), w') => (Ok (if bytes_eqb (cr_rp r) rp then Some r else None), w')
      end.

  (** Store::insert on a credential key: an existing entry is replaced.  The new entry is the
      newest of the log, so the iteration order moves it to the end (store.rs 417-434). *)
  Definition insert_cred (k : N) (r : cred) (p : pers) : pers :=
    set_creds (filter (fun x => negb (fst x =? k)%N) (p_creds p) ++ [(k, r)]) p.
  Definition remove_cred (k : N) (p : pers) : pers :=
    set_creds (filter (fun x => negb (fst x =? k)%N) (p_creds p)) p.

  (** storage.rs 133-149: the loop of store_credential over the existing credentials: the used keys
      and the key of the credential to replace. *)
  Definition store_scan_step (rp user : bytes) (acc : res status (list N * option N))
    (x : N * cred) : res status (list N * option N) :=
    a <- acc ;;
    let '(used, old) := a in
    let k := fst x in
    if (negb (key_in_range k) || existsb (N.eqb k) used)%bool then Err VENDOR_INTERNAL_ERROR
    else if bytes_eqb (cr_rp (snd x)) rp && bytes_eqb (cr_user (snd x)) user then
      match old with
      | Some _ => Err VENDOR_INTERNAL_ERROR
      | None => Ok (k :: used, Some k)
      end
    else Ok (k :: used, old).
  Definition store_scan (rp user : bytes) (l : list (N * cred)) : res status (list N * option N) :=
    fold_left (store_scan_step rp user) l (Ok ([], None)).

  (** storage.rs 155-161: the first free key. *)
  Definition free_key (used : list N) : option N :=
    find (fun k => negb (existsb (N.eqb k) used)) (map key_of (seq 0 (c_max_rk c))).

  (** storage.rs 121-165: store_credential.  The entry is serialised with one drawn initialization
      vector; serialisation errors are those of [serialize_credential]. *)
  Definition store_credential (r : cred) : M status unit :=
    let* l := iter_credentials in
    let* so := lift (store_scan (cr_rp r) (cr_user r) l) in
    let '(used, old) := so in
    do* guard (negb (match old with None => true | Some _ => false end
                     && (c_max_rk c <=? length used)%nat)) KEY_STORE_FULL in
    let* k := match old with
              | Some k => ret k
              | None => match free_key used with
                        | Some k => ret k
                        | None => fail VENDOR_INTERNAL_ERROR
                        end
              end in
    let* wk := wrap_key in
    let* iv := draw 16 in
    do* lift (serialize_credential pr wk iv r) in
    store (insert_cred k r).

  (** storage.rs 172-175: delete_credential. *)
  Definition delete_credential (id : bytes) : M status unit :=
    let* x := find_credential_item id in
    store (remove_cred (fst x)).

  (** data_formats.rs PublicKeyCredentialUserEntity. *)
  Record user := mkUser {
    us_id : bytes; us_name : option bytes; us_display : option bytes; us_icon : option bytes }.

  (** storage.rs 182-194: update_credential. *)
  Definition with_user (u : user) (r : cred) : cred :=
    mkCred (cr_id r) (cr_key r) (cr_rp r) (cr_user r) (us_display u) (cr_policy r) (cr_order r)
           (us_name u) (us_icon u) (cr_blob r) (cr_lbkey r).
  Definition update_credential (id : bytes) (u : user) : M status unit :=
    let* x := find_credential_item id in
    let r := with_user u (snd x) in
    let* wk := wrap_key in
    let* iv := draw 16 in
    do* lift (serialize_credential pr wk iv r) in
    store (insert_cred (fst x) r).

  (** storage.rs 197-203: count_credentials and remaining_credentials. *)
  Definition count_credentials : M status N := load (fun p => Nlen (p_creds p)).
  Definition remaining_credentials : M status N :=
    let* n := count_credentials in
    if (n <=? N.of_nat (c_max_rk c))%N then ret (N.of_nat (c_max_rk c) - n)%N
    else fail VENDOR_INTERNAL_ERROR.

  (** storage.rs 224-230: new_creation_order. *)
  Definition max_order (l : list (N * cred)) : N :=
    fold_right (fun x m => N.max (cr_order (snd x)) m) 0%N l.
  Definition new_creation_order : M status N :=
    let* l := iter_credentials in
    ret ((max_order l + 1) mod 2 ^ 64)%N.

  (** storage.rs 239-258: the global signature counter, initially 1. *)
  Definition counter_of (p : pers) : N := match p_counter p with None => 1 | Some n => n end.
  Definition global_signature_counter : M status N := load counter_of.
  Definition incr_global_signature_counter (i : N) : M status unit :=
    let* old := global_signature_counter in
    store (set_counter (Some ((old + i) mod 2 ^ 32)%N)).

  (** storage.rs 261-310: PIN properties. *)
  Definition pin_hash : M status (option bytes) := load (fun p => option_map fst (p_pin p)).
  Definition pin_code_point_length : M status (option N) := load (fun p => option_map snd (p_pin p)).
  Definition set_pin (h : bytes) (len : N) : M status unit :=
    store (fun p => set_force false (set_pin_props (Some (h, len)) p)).

  (** storage.rs 313-334: PIN retries. *)
  Definition retries_of (p : pers) : N :=
    match p_retries p with None => c_max_retries c | Some n => n end.
  Definition pin_retries : M status N := load retries_of.
  Definition decr_pin_retries : M status unit :=
    let* old := pin_retries in
    let new := (old - 1)%N in
    if (new =? old)%N then ret tt else store (set_retries (Some new)).
  Definition reset_pin_retries : M status unit := store (set_retries None).

  (** storage.rs 337-372: minimum PIN length and the RP IDs that may read it. *)
  Definition minlen_of (p : pers) : N := match p_minlen p with None => c_min_pin c | Some n => n end.
  Definition min_pin_length : M status N := load minlen_of.
  Definition set_min_pin_length (n : N) : M status unit := store (set_minlen (Some n)).
  Definition rpids_of (p : pers) : list bytes :=
    match p_rpids p with None => c_min_pin_rps c | Some l => l end.
  Definition min_pin_length_rp_ids : M status (list bytes) := load rpids_of.
  Definition mem_bytes (x : bytes) (l : list bytes) : bool := existsb (bytes_eqb x) l.
  Definition add_defaults (l defaults : list bytes) : list bytes :=
    fold_left (fun acc x => if mem_bytes x acc then acc else acc ++ [x]) defaults l.
  Definition set_min_pin_length_rp_ids (l : list bytes) : M status unit :=
    let l' := add_defaults l (c_min_pin_rps c) in
    if (c_max_rp_ids c <? length l')%nat then fail KEY_STORE_FULL
    else store (set_rpids (Some l')).

  (** storage.rs 375-420: the large blob array. *)
  Definition EMPTY_LARGE_BLOB : bytes :=
    [0x80; 0x76; 0xBE; 0x8B; 0x52; 0x8D; 0x00; 0x75; 0xF7; 0xAA; 0xE9; 0x8D; 0x6F; 0xA5; 0x7A;
     0x6D; 0x3C]%N.
  Definition blob_of (p : pers) : bytes :=
    match p_blob p with None => EMPTY_LARGE_BLOB | Some b => b end.
  Definition get_large_blob_array (offset count : N) : M status bytes :=
    load (fun p => firstn (N.to_nat count) (skipn (N.to_nat offset) (blob_of p))).
  Definition commit_large_blob_array (b : bytes) : M status unit :=
    if (c_max_blob c <? Nlen b)%N then fail VENDOR_INTERNAL_ERROR
    else store (set_blob (Some b)).

  (** storage.rs 422-427: reset.  Store::clear removes every entry with a key of at least 20, the
      key store then removes its own key. *)
  Definition clear_pers (p : pers) : pers :=
    mkPers None None false None None false false [] None None None (p_batch p) (p_ent p).
  Definition storage_reset : M status unit :=
    do* store clear_pers in
    internal (store (set_master None)).

  (** storage.rs 433-497: flags. *)
  Definition has_force_pin_change : M status bool := load p_force.
  Definition force_pin_change : M status unit := store (set_force true).
  Definition enterprise_attestation : M status bool := load p_ep.
  Inductive att_id := Batch | Enterprise.
  (** api/attestation_store.rs 61-76: helper_get; the error conversions are attestation_store.rs
      106-117 and status_code.rs 105-114.  The Tock environment has no enterprise attestation and
      answers with an error; here the slot is simply absent unless provisioned. *)
  Definition attestation_status (s : status) : status :=
    match s with ERR_OTHER => VENDOR_HARDWARE_FAILURE | _ => VENDOR_INTERNAL_ERROR end.
  Definition get_attestation (i : att_id) : M status (option (bytes * bytes)) :=
    map_status Panic attestation_status
      (load (match i with Batch => p_batch | Enterprise => p_ent end)).
  Definition enable_enterprise_attestation : M status unit :=
    let* a := get_attestation Enterprise in
    match a with
    | None => fail VENDOR_INTERNAL_ERROR
    | Some _ =>
        let* b := enterprise_attestation in
        if b then ret tt else store (set_ep true)
    end.
  Definition has_always_uv : M status bool :=
    if c_enforce_uv c then ret true else load p_uv.
  Definition toggle_always_uv : M status unit :=
    if c_enforce_uv c then fail OPERATION_DENIED
    else
      let* b := has_always_uv in
      store (set_uv (negb b)).
End Env.
