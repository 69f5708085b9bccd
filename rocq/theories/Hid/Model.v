(** Model of the HID transport, /repo/libraries/opensk/src/ctap/hid/{mod,receive,send}.rs,
    main_hid.rs, vendor_hid.rs, and the dispatch of src/lib.rs. *)
From Verif Require Import Base.

(** api/clock.rs 15-40: a timer is its deadline in milliseconds; the default timer is
    always elapsed. *)
Definition timer := N.
Definition timer_default : timer := 0%N.
Definition make_timer (now ms : N) : timer := (now + ms)%N.
Definition is_elapsed (now : N) (t : timer) : bool := (t <=? now)%N.

(** hid/mod.rs 50-51: HidPacket is 64 bytes, ChannelID is 4 bytes. *)
Definition packet := bytes.
Definition chan := bytes.
Fixpoint bytes_eqb (a b : bytes) : bool :=
  match a, b with
  | [], [] => true
  | x :: a', y :: b' => (x =? y)%N && bytes_eqb a' b'
  | _, _ => false
  end.

(** hid/mod.rs 37-39. *)
Definition CHANNEL_RESERVED : chan := [0; 0; 0; 0]%N.
Definition CHANNEL_BROADCAST : chan := [0xFF; 0xFF; 0xFF; 0xFF]%N.
Definition PACKET_TYPE_MASK : N := 0x80.

(** hid/mod.rs 57-86: CtapHidCommand with its codes, and From<u8>. *)
Inductive hid_cmd :=
| Ping | Msg | Lock | Init | Wink | Cbor | Cancel | Keepalive | Error.
Definition cmd_code (c : hid_cmd) : N :=
  match c with
  | Ping => 0x01 | Msg => 0x03 | Lock => 0x04 | Init => 0x06 | Wink => 0x08
  | Cbor => 0x10 | Cancel => 0x11 | Keepalive => 0x3B | Error => 0x3F
  end.
Definition cmd_of (c : N) : hid_cmd :=
  if (c =? 0x01)%N then Ping
  else if (c =? 0x03)%N then Msg
  else if (c =? 0x04)%N then Lock
  else if (c =? 0x06)%N then Init
  else if (c =? 0x08)%N then Wink
  else if (c =? 0x10)%N then Cbor
  else if (c =? 0x11)%N then Cancel
  else if (c =? 0x3B)%N then Keepalive
  else Error.

(** hid/mod.rs 92-118: CtapHidError. *)
Inductive hid_error :=
| InvalidCmd | InvalidPar | InvalidLen | InvalidSeq | MsgTimeout | ChannelBusy
| LockRequired | InvalidChannel | Other | UnexpectedContinuation.
Definition error_code (e : hid_error) : N :=
  match e with
  | InvalidCmd => 0x01 | InvalidPar => 0x02 | InvalidLen => 0x03 | InvalidSeq => 0x04
  | MsgTimeout => 0x05 | ChannelBusy => 0x06 | LockRequired => 0x0A
  | InvalidChannel => 0x0B | Other => 0x7F | UnexpectedContinuation => 0x80
  end.

(** hid/mod.rs 124-134: ProcessedPacket. *)
Inductive processed :=
| PInit (cmd : N) (len : N) (data : bytes)
| PCont (seq : N) (data : bytes).

(** hid/mod.rs 138-145: Message. *)
Record message := mkMsg { m_cid : chan; m_cmd : hid_cmd; m_payload : bytes }.

(** hid/mod.rs 386-408: process_single_packet. *)
Definition process_single_packet (p : packet) : chan * processed :=
  let cid := firstn 4 p in
  let rest := skipn 4 p in
  let b0 := nth 0 rest 0%N in
  if negb (N.land b0 PACKET_TYPE_MASK =? 0)%N then
    (cid, PInit (N.land b0 0x7F)
                (N.lor (N.shiftl (nth 1 rest 0%N) 8) (nth 2 rest 0%N))
                (firstn 57 (skipn 3 rest)))
  else (cid, PCont b0 (firstn 59 (skipn 1 rest))).

(* ------------------------------------------------------------ receiving *)

(** hid/receive.rs 24-57: MessageAssembler and its default state. *)
Definition TIMEOUT_DURATION_MS : N := 100.
Record assembler := mkAsm {
  a_idle : bool; a_cid : chan; a_timer : timer; a_cmd : N; a_seq : N;
  a_remaining : nat; a_payload : bytes }.
Definition asm_default : assembler :=
  mkAsm true CHANNEL_RESERVED timer_default 0 0 0 [].
(** hid/receive.rs 62-70: reset. *)
Definition asm_reset (a : assembler) : assembler := asm_default.

(** hid/receive.rs 172-190: append_payload. *)
Definition append_payload (a : assembler) (data : bytes) : assembler * option message :=
  if Nat.ltb (length data) (a_remaining a) then
    (mkAsm false (a_cid a) (a_timer a) (a_cmd a) (a_seq a)
       (a_remaining a - length data) (a_payload a ++ data), None)
  else
    (mkAsm true (a_cid a) (a_timer a) (a_cmd a) (a_seq a) (a_remaining a) [],
     Some (mkMsg (a_cid a) (cmd_of (a_cmd a))
        (a_payload a ++ firstn (a_remaining a) data))).

(** hid/receive.rs 151-170: parse_init_packet. [max] is customization().max_msg_size(). *)
Definition parse_init_packet (max : N) (now : N) (a : assembler) (cid : chan)
    (cmd len : N) (data : bytes)
  : assembler * res (chan * hid_error) (option message) :=
  if (max <? len)%N then (a, Err (cid, InvalidLen))
  else
    let a1 := mkAsm (a_idle a) cid (make_timer now TIMEOUT_DURATION_MS) cmd 0
                (N.to_nat len) (a_payload a) in
    let '(a2, m) := append_payload a1 data in
    (a2, Ok m).

(** hid/receive.rs 77-145: MessageAssembler::parse_packet. The u8 increment of line 137 is
    written modulo 256. *)
Definition asm_parse (max now : N) (a : assembler) (p : packet) (locked : option chan)
  : assembler * res (chan * hid_error) (option message) :=
  let '(cid, pp) := process_single_packet p in
  if match locked with Some l => negb (bytes_eqb l cid) | None => false end
  then (a, Err (cid, ChannelBusy))
  else
    let timed_out := negb (a_idle a) && is_elapsed now (a_timer a) in
    let current := a_cid a in
    let a := if timed_out then asm_reset a else a in
    if timed_out && bytes_eqb cid current then (a, Err (cid, MsgTimeout))
    else if a_idle a then
      match pp with
      | PInit cmd len data => parse_init_packet max now a cid cmd len data
      | PCont _ _ => (a, Err (cid, UnexpectedContinuation))
      end
    else if negb (bytes_eqb cid (a_cid a)) then (a, Err (cid, ChannelBusy))
    else
      match pp with
      | PInit cmd len data =>
          let a := asm_reset a in
          if (cmd =? cmd_code Init)%N then parse_init_packet max now a cid cmd len data
          else (a, Err (cid, InvalidSeq))
      | PCont seq data =>
          if negb (seq =? a_seq a)%N then (asm_reset a, Err (cid, InvalidSeq))
          else
            let a := mkAsm (a_idle a) (a_cid a) (make_timer now TIMEOUT_DURATION_MS)
                       (a_cmd a) ((a_seq a + 1) mod 256)%N (a_remaining a) (a_payload a) in
            let '(a, m) := append_payload a data in
            (a, Ok m)
      end.

(* -------------------------------------------------------------- sending *)

(** hid/send.rs 56-61: MessageSplitter. *)
Record splitter := mkSpl { s_msg : message; s_packet : packet; s_seq : option N; s_i : nat }.

(** hid/send.rs 67-84: MessageSplitter::new. *)
Definition MAX_PAYLOAD : N := 7609.
Definition splitter_new (m : message) : option splitter :=
  if (MAX_PAYLOAD <? Nlen (m_payload m))%N then None
  else Some (mkSpl m (m_cid m ++ repeat 0%N 60) None 0).

(** hid/send.rs 90-106: consume_data; returns the new contents of dst. *)
Definition consume_data (dst data : bytes) : bytes * nat :=
  if Nat.leb (length data) (length dst)
  then (data ++ repeat 0%N (length dst - length data), length data)
  else (firstn (length dst) data, length dst).

(** hid/send.rs 121-150: Iterator::next. [packet[k] = b] on a 64-byte packet. *)
Definition splitter_next (s : splitter) : splitter * option packet :=
  let payload := m_payload (s_msg s) in
  let len := length payload in
  match s_seq s with
  | None =>
      let hdr := firstn 4 (s_packet s) ++
        [N.lor (cmd_code (m_cmd (s_msg s))) 0x80;
         (N.shiftr (N.of_nat len) 8 mod 256)%N; (N.of_nat len mod 256)%N] in
      let '(d, n) := consume_data (skipn 7 (s_packet s)) payload in
      let pk := hdr ++ d in
      (mkSpl (s_msg s) pk (Some 0%N) n, Some pk)
  | Some seq =>
      if Nat.ltb (s_i s) len then
        let hdr := firstn 4 (s_packet s) ++ [seq] in
        let '(d, n) := consume_data (skipn 5 (s_packet s)) (skipn (s_i s) payload) in
        let pk := hdr ++ d in
        (mkSpl (s_msg s) pk (Some ((seq + 1) mod 256)%N) (s_i s + n), Some pk)
      else (s, None)
  end.

(** Iterating [next] until it returns None; fuel is one more than the number of payload bytes
    plus one, and the iterator is exhausted before (theorem). *)
Fixpoint splitter_run (fuel : nat) (s : splitter) : list packet :=
  match fuel with
  | O => []
  | S f => match splitter_next s with
           | (s', Some p) => p :: splitter_run f s'
           | (_, None) => []
           end
  end.
Definition hid_packets (m : message) : option (list packet) :=
  match splitter_new m with
  | None => None
  | Some s => Some (splitter_run (S (S (length (m_payload m)))) s)
  end.

(** hid/mod.rs 421-432: split_message; CTAP2_ERR_VENDOR_INTERNAL_ERROR is 0xF2
    (status_code.rs). *)
Definition VENDOR_INTERNAL_ERROR : N := 0xF2.
Definition split_message (m : message) : list packet :=
  match hid_packets m with
  | Some ps => ps
  | None =>
      match hid_packets (mkMsg (m_cid m) Cbor [VENDOR_INTERNAL_ERROR]) with
      | Some ps => ps
      | None => []
      end
  end.

(* ----------------------------------------------------- channel management *)

(** hid/mod.rs 182-216: CtapHid.  [allocated_cids] is a usize: unbounded here; the
    conversion [as u32] is explicit. *)
Record ctap_hid := mkHid {
  h_asm : assembler; h_allocated : N; h_caps : N;
  h_locked : option chan; h_lock_timer : timer }.
Definition hid_new (caps : N) : ctap_hid := mkHid asm_default 0 caps None timer_default.

(** hid/mod.rs 213-218: locked_channel. *)
Definition locked_channel (now : N) (h : ctap_hid) : ctap_hid * option chan :=
  let l := if is_elapsed now (h_lock_timer h) then None else h_locked h in
  (mkHid (h_asm h) (h_allocated h) (h_caps h) l (h_lock_timer h), l).

(** hid/mod.rs 221-223: has_channel_lock. *)
Definition has_channel_lock (now : N) (h : ctap_hid) : ctap_hid * bool :=
  let '(h, l) := locked_channel now h in
  (h, match l with Some _ => true | None => false end).

(** hid/mod.rs 373-375: is_allocated_channel. *)
Definition is_allocated_channel (h : ctap_hid) (cid : chan) : bool :=
  negb (bytes_eqb cid CHANNEL_RESERVED) && (of_be cid <=? h_allocated h)%N.

(** hid/mod.rs 364-371: has_valid_channel. *)
Definition cmd_eqb (a b : hid_cmd) : bool := (cmd_code a =? cmd_code b)%N.
Definition has_valid_channel (h : ctap_hid) (m : message) : bool :=
  if bytes_eqb (m_cid m) CHANNEL_BROADCAST then cmd_eqb (m_cmd m) Init
  else is_allocated_channel h (m_cid m).

(** hid/mod.rs 377-383: error_message. *)
Definition error_message (cid : chan) (e : hid_error) : message :=
  mkMsg cid Error [error_code e].

Definition set_lock (h : ctap_hid) (l : option chan) (t : timer) : ctap_hid :=
  mkHid (h_asm h) (h_allocated h) (h_caps h) l t.

(** hid/mod.rs 286-362: preprocess_message. *)
Definition preprocess_message (now : N) (h : ctap_hid) (m : message)
  : ctap_hid * option message :=
  let cid := m_cid m in
  if negb (has_valid_channel h m) then (h, Some (error_message cid InvalidChannel))
  else
    match m_cmd m with
    | Msg | Cbor => (h, Some m)
    | Init =>
        if negb (Nat.eqb (length (m_payload m)) 8)
        then (h, Some (error_message cid InvalidLen))
        else
          let '(h, new_cid) :=
            if bytes_eqb cid CHANNEL_BROADCAST then
              let n := (h_allocated h + 1)%N in
              (mkHid (h_asm h) n (h_caps h) (h_locked h) (h_lock_timer h),
               be_bytes 4 (n mod 2 ^ 32)%N)
            else (h, cid) in
          (h, Some (mkMsg cid Init
             (m_payload m ++ new_cid ++ [2; 1; 0; 0; h_caps h]%N)))
    | Ping => (h, Some m)
    | Cancel => (h, None)
    | Wink => (h, Some m)
    | Lock =>
        match m_payload m with
        | [s] =>
            if (10 <? s)%N then (h, Some (error_message cid InvalidPar))
            else
              let h := if (s =? 0)%N then set_lock h None (h_lock_timer h)
                       else set_lock h (Some cid) (make_timer now (1000 * s)%N) in
              (h, Some (mkMsg cid Lock []))
        | _ => (h, Some (error_message cid InvalidLen))
        end
    | Keepalive | Error => (h, Some (error_message cid InvalidCmd))
    end.

(** hid/mod.rs 249-290: CtapHid::parse_packet. *)
Definition hid_parse (max now : N) (h : ctap_hid) (p : packet) (disabled : bool)
  : ctap_hid * option message :=
  let '(h, locked) :=
    if disabled then (h, Some CHANNEL_RESERVED) else locked_channel now h in
  let '(a, r) := asm_parse max now (h_asm h) p locked in
  let h := mkHid a (h_allocated h) (h_caps h) (h_locked h) (h_lock_timer h) in
  match r with
  | Ok (Some m) => preprocess_message now h m
  | Ok None => (h, None)
  | Err (cid, e) =>
      (h, match e with
          | UnexpectedContinuation => None
          | _ => if negb (is_allocated_channel h cid)
                 then Some (error_message cid InvalidChannel)
                 else Some (error_message cid e)
          end)
  end.

(* -------------------------------------------------------------- transports *)

(** main_hid.rs 15-37. *)
Definition WINK_TIMEOUT_DURATION_MS : N := 5000.
Record main_hid := mkMain { mh_hid : ctap_hid; mh_wink : timer }.
Inductive channel := MainChannel (c : chan) | VendorChannel (c : chan).

Section Transports.
  (** State of the CTAP layer, its CTAP2 command processing, and its CTAP1 message processing
      (response with status word included), both arbitrary. [with_ctap1] is the cargo
      feature. *)
  Variable S : Type.
  Variable ctap2 : N -> S -> bytes -> channel -> S * bytes.
  Variable ctap1 : N -> S -> bytes -> S * bytes.
  Variable with_ctap1 : bool.

  (** main_hid.rs 72-121: process_message. *)
  Definition main_process (now : N) (w : S) (m : message) : S * message * timer :=
    let cid := m_cid m in
    match m_cmd m with
    | Msg =>
        if with_ctap1 then
          let '(w, r) := ctap1 now w (m_payload m) in (w, mkMsg cid Msg r, timer_default)
        else (w, error_message cid InvalidCmd, timer_default)
    | Cbor =>
        let '(w, r) := ctap2 now w (m_payload m) (MainChannel cid) in
        (w, mkMsg cid Cbor r, timer_default)
    | Wink =>
        match m_payload m with
        | [] => (w, m, make_timer now WINK_TIMEOUT_DURATION_MS)
        | _ => (w, error_message cid InvalidLen, timer_default)
        end
    | _ => (w, m, timer_default)
    end.

  (** main_hid.rs 53-69: process_hid_packet. *)
  Definition main_packet (max now : N) (mh : main_hid) (w : S) (p : packet) (disabled : bool)
    : main_hid * S * list packet :=
    match hid_parse max now (mh_hid mh) p disabled with
    | (h, Some m) =>
        let '(w, r, wink) := main_process now w m in
        (mkMain h wink, w, split_message r)
    | (h, None) => (mkMain h (mh_wink mh), w, [])
    end.

  (** main_hid.rs 129-131: should_wink. *)
  Definition should_wink (now : N) (mh : main_hid) : bool := negb (is_elapsed now (mh_wink mh)).

  (** vendor_hid.rs 57-83: process_message. *)
  Definition vendor_process (now : N) (w : S) (m : message) : S * message :=
    let cid := m_cid m in
    match m_cmd m with
    | Msg | Wink => (w, error_message cid InvalidCmd)
    | Cbor =>
        let '(w, r) := ctap2 now w (m_payload m) (VendorChannel cid) in
        (w, mkMsg cid Cbor r)
    | _ => (w, m)
    end.

  (** vendor_hid.rs 37-55: process_hid_packet. *)
  Definition vendor_packet (max now : N) (h : ctap_hid) (w : S) (p : packet) (disabled : bool)
    : ctap_hid * S * list packet :=
    match hid_parse max now h p disabled with
    | (h, Some m) => let '(w, r) := vendor_process now w m in (h, w, split_message r)
    | (h, None) => (h, w, [])
    end.

  (** lib.rs 54-126: Ctap with the vendor_hid feature, and process_hid_packet. *)
  Record ctap := mkCtap { c_main : main_hid; c_vendor : ctap_hid; c_state : S }.
  Inductive transport := MainHid | VendorHid.
  Definition ctap_packet (max now : N) (c : ctap) (p : packet) (t : transport)
    : ctap * list packet :=
    match t with
    | MainHid =>
        let '(v, disabled) := has_channel_lock now (c_vendor c) in
        let '(mh, w, out) := main_packet max now (c_main c) (c_state c) p disabled in
        (mkCtap mh v w, out)
    | VendorHid =>
        let '(h, disabled) := has_channel_lock now (mh_hid (c_main c)) in
        let '(v, w, out) := vendor_packet max now (c_vendor c) (c_state c) p disabled in
        (mkCtap (mkMain h (mh_wink (c_main c))) v w, out)
    end.
End Transports.
