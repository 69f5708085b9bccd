(** Specification vocabulary for the HID properties. *)
From Verif Require Import Base Hid.Model.

(** Zero padding to [k] bytes. *)
Definition pad (k : nat) (l : bytes) : bytes := l ++ repeat 0%N (k - length l).

(** The CTAPHID framing of a message (CTAP 2.1, section 11.2.4): an initialization packet with
    channel, command and length, then continuation packets numbered from 0. *)
Fixpoint conts (n : nat) (cid : chan) (seq : N) (l : bytes) : list packet :=
  match n, l with
  | S n', _ :: _ =>
      (cid ++ seq :: pad 59 (firstn 59 l)) :: conts n' cid (seq + 1)%N (skipn 59 l)
  | _, _ => []
  end.
Definition framing (m : message) : list packet :=
  let l := m_payload m in
  (m_cid m ++ [cmd_code (m_cmd m) + 128; Nlen l / 256; Nlen l mod 256]%N
     ++ pad 57 (firstn 57 l))
  :: conts (length l) (m_cid m) 0 (skipn 57 l).

Definition chan_ok (c : chan) : Prop := length c = 4%nat /\ bytes_ok c = true.
Definition packet_ok (p : packet) : Prop := length p = 64%nat /\ bytes_ok p = true.
Definition packet_chan (p : packet) : chan := fst (process_single_packet p).

(** A received packet: time, channel lock in force, bytes. *)
Definition event : Type := (N * option chan * packet)%type.
Definition output : Type := res (chan * hid_error) (option message).
Definition ev_ok (e : event) : Prop := packet_ok (snd e).

(** Feeding events to the receiver. *)
Fixpoint feed (max : N) (a : assembler) (evs : list event) : assembler * list output :=
  match evs with
  | [] => (a, [])
  | (t, l, p) :: r =>
      let '(a1, o) := asm_parse max t a p l in
      let '(a2, os) := feed max a1 r in
      (a2, o :: os)
  end.

(** [woven c d ps evs]: the packets [ps] of channel [c] arrive in order in [evs], each
    before the deadline [d], which an own packet moves to 100 ms after itself; any packets of
    other channels may arrive in between. *)
Inductive woven (c : chan) : N -> list packet -> list event -> Prop :=
| woven_done d : woven c d [] []
| woven_own d t p ps evs :
    (t < d)%N -> woven c (t + 100) ps evs -> woven c d (p :: ps) ((t, None, p) :: evs)
| woven_foreign d t p q ps evs :
    (t < d)%N -> packet_chan q <> c ->
    woven c d (p :: ps) evs -> woven c d (p :: ps) ((t, None, q) :: evs).

(** The lock in force shuts channel [c] out. *)
Definition shut_out (l : option chan) (c : chan) : Prop :=
  match l with Some x => x <> c | None => False end.

(** [session c cmd len evs t n data]: [evs] starts with an initialization packet on channel
    [c] with command [cmd] announcing [len] bytes, followed on that channel only by the
    continuation packets 0 .. n-1, each less than 100 ms after the previous packet of the channel;
    the last of them came at time [t], and [data] is all the data they carried. *)
Inductive session (c : chan) (cmd len : N) : list event -> N -> N -> bytes -> Prop :=
| ses_init t l p data :
    ~ shut_out l c -> process_single_packet p = (c, PInit cmd len data) ->
    session c cmd len [(t, l, p)] t 0 data
| ses_cont evs t n data t' l p d :
    session c cmd len evs t n data -> (t' < t + 100)%N ->
    ~ shut_out l c -> process_single_packet p = (c, PCont n d) ->
    session c cmd len (evs ++ [(t', l, p)]) t' (n + 1) (data ++ d)
| ses_other evs t n data t' l p :
    session c cmd len evs t n data -> (shut_out l c \/ packet_chan p <> c) ->
    session c cmd len (evs ++ [(t', l, p)]) t n data.

Definition delivered (o : output) : bool :=
  match o with Ok (Some _) => true | _ => false end.

(** A packet received by the HID layer: time, bytes, whether the transport is disabled. *)
Definition hevent : Type := (N * packet * bool)%type.
Fixpoint hrun (max : N) (h : ctap_hid) (evs : list hevent) : ctap_hid * list (option message) :=
  match evs with
  | [] => (h, [])
  | (t, p, d) :: r =>
      let '(h1, o) := hid_parse max t h p d in
      let '(h2, os) := hrun max h1 r in
      (h2, o :: os)
  end.

(** Channel ids handed out: the new id in a successful response to INIT on the
    broadcast channel. *)
Definition handed_out (outs : list (option message)) : list chan :=
  flat_map (fun o =>
    match o with
    | Some m =>
        if cmd_eqb (m_cmd m) Init && bytes_eqb (m_cid m) CHANNEL_BROADCAST
        then [firstn 4 (skipn 8 (m_payload m))] else []
    | None => []
    end) outs.

(** A lock is in force at [now]. *)
Definition lock_live (now : N) (h : ctap_hid) (c : chan) : Prop :=
  snd (locked_channel now h) = Some c.

(** Waiting for the first packet of a message, nothing buffered. *)
Definition idle (a : assembler) : Prop := a_idle a = true /\ a_payload a = [].

(** The outputs on one channel, and the others. *)
Definition own_outputs (c : chan) (evs : list event) (outs : list output) : list output :=
  map snd (filter (fun eo => bytes_eqb (packet_chan (snd (fst eo))) c) (combine evs outs)).
Definition foreign_outputs (c : chan) (evs : list event) (outs : list output) : list (chan * output) :=
  map (fun eo => (packet_chan (snd (fst eo)), snd eo))
    (filter (fun eo => negb (bytes_eqb (packet_chan (snd (fst eo))) c)) (combine evs outs)).

(** A delivered message [m] comes from a session at the end of the history, during which
    nothing else was delivered. *)
Definition provenance (max : N) (evs : list event) (outs : list output) (m : message) : Prop :=
  exists pre ses cmd len t n data,
    evs = pre ++ ses /\ session (m_cid m) cmd len ses t n data /\
    m_cmd m = cmd_of cmd /\ m_payload m = firstn (N.to_nat len) data /\
    Nlen (m_payload m) = len /\ (len <= max)%N /\
    Forall (fun o => delivered o = false) (skipn (length pre) outs).

(** The reply to a packet that is shut out. *)
Definition busy_response (h : ctap_hid) (c : chan) : message :=
  error_message c (if is_allocated_channel h c then ChannelBusy else InvalidChannel).

(** A successful LOCK request on channel [c] with [s] seconds is processed by this event. *)
Definition lock_request (max t : N) (h : ctap_hid) (p : packet) (d : bool) (c : chan) (s : N) : Prop :=
  snd (asm_parse max t (h_asm h) p (if d then Some CHANNEL_RESERVED else snd (locked_channel t h))) =
    Ok (Some (mkMsg c Lock [s])) /\ (s <= 10)%N /\ is_allocated_channel h c = true /\
  c <> CHANNEL_BROADCAST.

(** The response to a successful LOCK. *)
Definition lock_reply (o : option message) : bool :=
  match o with Some r => cmd_eqb (m_cmd r) Lock | None => false end.

