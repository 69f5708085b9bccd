(** Model of the U2F (CTAP1) front end: the APDU parser ctap/apdu.rs, the U2F request
    parser of ctap/ctap1.rs and the touch bookkeeping of ctap/u2f_up.rs (all under
    /repo/libraries/opensk/src). *)
From Verif Require Import Base.
From Verif.Hid Require Import Model.

(** apdu.rs 25-41: ApduStatusCode; [SW_PANIC] is not a status word of the code: it stands
    for a Rust panic (slice out of bounds) and is proved never to be returned. *)
Inductive sw :=
| SW_SUCCESS | SW_GET_RESPONSE | SW_MEMERR | SW_WRONG_DATA | SW_WRONG_LENGTH
| SW_COND_USE_NOT_SATISFIED | SW_COMMAND_NOT_ALLOWED | SW_FILE_NOT_FOUND
| SW_INCORRECT_P1P2 | SW_INS_INVALID | SW_CLA_INVALID | SW_INTERNAL_EXCEPTION
| SW_PANIC.

(** apdu.rs 69-74: ApduHeader. *)
Record header := mkHeader { h_cla : N; h_ins : N; h_p1 : N; h_p2 : N }.

(** apdu.rs 89-105: Case and ApduType. *)
Inductive acase := Le1 | Lc1Data | Lc1DataLe1 | Lc3Data | Lc3DataLe1 | Lc3DataLe2 | Le3.
Inductive atype := Instruction | Short (c : acase) | Extended (c : acase).

(** apdu.rs 109-115: Apdu. *)
Record apdu := mkApdu
  { a_header : header; a_lc : N; a_data : bytes; a_le : N; a_type : atype }.

(** Rust slicing [s[lo..hi]]: panics unless lo <= hi <= len. *)
Definition slice (s : bytes) (lo hi : nat) : res sw bytes :=
  if (lo <=? hi)%nat && (hi <=? length s)%nat
  then Ok (firstn (hi - lo) (skipn lo s))
  else Err SW_PANIC.

(** Rust indexing [s[i]]: panics if out of bounds. *)
Definition index (s : bytes) (i : nat) : res sw N :=
  match nth_error s i with Some b => Ok b | None => Err SW_PANIC end.

(** byteorder's BigEndian::read_u16 on a two-byte slice. *)
Definition read_u16 (s : bytes) : N := of_be (firstn 2 s).

(** apdu.rs 76-85: ApduHeader::from. *)
Definition header_of (h : bytes) : header :=
  mkHeader (nth 0 h 0%N) (nth 1 h 0%N) (nth 2 h 0%N) (nth 3 h 0%N).

(** apdu.rs 129-252: the part of Apdu::try_from after the header was split off. usize
    arithmetic is on [nat]; the u16 extended length is kept as [N] and compared with the
    payload length there. *)
Definition apdu_body (hd : header) (payload : bytes) : res sw apdu :=
    let len := length payload in
    if (len =? 0)%nat then Ok (mkApdu hd 0 [] 0 Instruction)
    else
      b0 <- index payload 0 ;;
      if (len =? 1)%nat then
        Ok (mkApdu hd 0 [] (if (b0 =? 0)%N then 0x100%N else b0) (Short Le1))
      else if (N.of_nat len =? 1 + b0)%N && negb (b0 =? 0)%N then
        data <- slice payload 1 len ;;
        Ok (mkApdu hd b0 data 0 (Short Lc1Data))
      else if (N.of_nat len =? 2 + b0)%N && negb (b0 =? 0)%N then
        last <- index payload (len - 1) ;;
        data <- slice payload 1 (len - 1) ;;
        Ok (mkApdu hd b0 data (if (last =? 0)%N then 0x100%N else last) (Short Lc1DataLe1))
      else if (2 <? len)%nat then
        l3 <- slice payload 1 3 ;;
        let elc := read_u16 l3 in
        if (N.of_nat len <? elc + 3)%N then Err SW_WRONG_LENGTH
        else
          let lelen := (N.of_nat len - (elc + 3))%N in
          if (3 <? lelen)%N then Err SW_WRONG_LENGTH
          else if (b0 =? 0)%N && (lelen <=? 3)%N then
            last <- index payload (len - 1) ;;
            data <- slice payload 3 (len - N.to_nat lelen) ;;
            le <- (if (lelen =? 0)%N then Ok 0%N
                   else if (lelen =? 1)%N then
                     Ok (if (last =? 0)%N then 0x100%N else last)
                   else if (lelen =? 2)%N then
                     s <- slice payload (len - 2) len ;;
                     Ok (if (read_u16 s =? 0)%N then 0x10000%N else read_u16 s)
                   else
                     fb <- index payload (len - 3) ;;
                     if negb (fb =? 0)%N then Err SW_INTERNAL_EXCEPTION
                     else
                       s <- slice payload (len - 2) len ;;
                       Ok (if (read_u16 s =? 0)%N then 0x10000%N else read_u16 s)) ;;
            Ok (mkApdu hd elc data le
                  (Extended (if (lelen =? 0)%N then Lc3Data
                             else if (lelen =? 1)%N then Lc3DataLe1
                             else if (lelen =? 2)%N then Lc3DataLe2
                             else Le3)))
          else Err SW_INTERNAL_EXCEPTION
      else Err SW_INTERNAL_EXCEPTION.

(** apdu.rs 117-127: Apdu::try_from. *)
Definition apdu_parse (frame : bytes) : res sw apdu :=
  if (length frame <? 4)%nat then Err SW_WRONG_DATA
  else apdu_body (header_of (firstn 4 frame)) (skipn 4 frame).

(** ctap1.rs 34-51: Ctap1Flags and its TryFrom<u8>. *)
Inductive u2f_flags := CheckOnly | EnforceUpAndSign | DontEnforceUpAndSign.
Definition flags_of (v : N) : res sw u2f_flags :=
  if (v =? 0x07)%N then Ok CheckOnly
  else if (v =? 0x03)%N then Ok EnforceUpAndSign
  else if (v =? 0x08)%N then Ok DontEnforceUpAndSign
  else Err SW_WRONG_DATA.

(** ctap1.rs 60-75: U2fCommand. *)
Inductive u2f_cmd :=
| U2fRegister (challenge application : bytes)
| U2fAuthenticate (challenge application key_handle : bytes) (flags : u2f_flags)
| U2fVersion
| U2fVendor (payload : bytes).

(** ctap1.rs 77-159: U2fCommand::try_from. [array_ref!] is a checked slice. *)
Definition u2f_parse (message : bytes) : res sw u2f_cmd :=
  a <- apdu_parse message ;;
  let lc := a_lc a in
  let dlen := N.of_nat (length (a_data a)) in
  if negb (h_cla (a_header a) =? 0)%N then Err SW_CLA_INVALID
  else if negb (lc =? dlen)%N && negb (lc + 2 =? dlen)%N then Err SW_WRONG_LENGTH
  else
    let ins := h_ins (a_header a) in
    if (ins =? 0x01)%N then
      if negb (lc =? 64)%N then Err SW_WRONG_LENGTH
      else
        c <- slice (a_data a) 0 32 ;;
        p <- slice (a_data a) 32 64 ;;
        Ok (U2fRegister c p)
    else if (ins =? 0x02)%N then
      if (lc <? 65)%N then Err SW_WRONG_LENGTH
      else
        hl <- index (a_data a) 64 ;;
        if negb (lc =? 65 + hl)%N then Err SW_WRONG_LENGTH
        else
          fl <- flags_of (h_p1 (a_header a)) ;;
          c <- slice (a_data a) 0 32 ;;
          p <- slice (a_data a) 32 64 ;;
          kh <- slice (a_data a) 65 (length (a_data a)) ;;
          Ok (U2fAuthenticate c p kh fl)
    else if (ins =? 0x03)%N then
      if negb (lc =? 0)%N then Err SW_WRONG_LENGTH else Ok U2fVersion
    else if (0x40 <=? ins)%N && (ins <=? 0xBF)%N then Ok (U2fVendor (a_data a))
    else Err SW_INS_INVALID.

(** mod.rs 99 and u2f_up.rs 19. *)
Definition TOUCH_TIMEOUT_MS : N := 30000.
Definition U2F_UP_PROMPT_TIMEOUT_MS : N := 10000.

(** u2f_up.rs 21-35: U2fUserPresenceState and its initial value. *)
Record up_state := mkUp { needs_up : timer; has_up : timer }.
Definition up_init : up_state := mkUp timer_default timer_default.

(** u2f_up.rs 40-45: grant_up. *)
Definition grant_up (now : N) (s : up_state) : up_state :=
  if negb (is_elapsed now (needs_up s))
  then mkUp timer_default (make_timer now TOUCH_TIMEOUT_MS)
  else s.

(** u2f_up.rs 48-56: consume_up. *)
Definition consume_up (now : N) (s : up_state) : bool * up_state :=
  if negb (is_elapsed now (has_up s))
  then (true, mkUp (needs_up s) timer_default)
  else (false, mkUp (make_timer now U2F_UP_PROMPT_TIMEOUT_MS) (has_up s)).

(** u2f_up.rs 62-64: is_up_needed. *)
Definition is_up_needed (now : N) (s : up_state) : bool :=
  negb (is_elapsed now (needs_up s)).

(** The calls the rest of the device makes on that state: a touch (lib.rs u2f_grant_user_presence)
    or a request that needs one (ctap1.rs 206 and 219), each at a time in milliseconds. *)
Inductive up_event := Touch | Request.
Definition up_step (s : up_state) (e : N * up_event) : up_state * option bool :=
  match snd e with
  | Touch => (grant_up (fst e) s, None)
  | Request => let (b, s') := consume_up (fst e) s in (s', Some b)
  end.

(** State after a history and the answers given, in order. *)
Fixpoint up_run (s : up_state) (h : list (N * up_event)) : up_state * list (option bool) :=
  match h with
  | [] => (s, [])
  | e :: h' =>
      let (s1, o) := up_step s e in
      let (s2, os) := up_run s1 h' in
      (s2, o :: os)
  end.
