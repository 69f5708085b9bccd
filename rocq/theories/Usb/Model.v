(** The USB packet driver of the kernel, the library the firmware calls it
    through, and the controller and host they talk to.

    Modelled sources:
    - patches/tock/03-add-ctap-modules.patch: capsules/src/usb/app.rs (lines
      118-182), capsules/src/usb/usb_ctap.rs (lines 211-559) and
      capsules/src/usb/usbc_ctap_hid.rs (lines 560-1123);
    - third_party/libtock-drivers/src/usb_ctap_hid.rs (lines 119-521).

    The kernel, the process and the host run concurrently: the model is a
    machine whose steps are the system calls of the process and the
    transactions of the host, in any order.  A panic of the kernel is [None].

    Simplifications:
    - the process has connected (command CONNECT, usb_ctap.rs lines 400-423,
      executed once by [setup], usb_ctap_hid.rs lines 103-117), and is the only
      one, so [connected] is always true;
    - the USB controller is not in the repository.  It is modelled by what the
      driver requires of it: it asks for a packet to transmit when it pleases,
      it reports a packet as transmitted only if it was given one, it holds a
      received packet for which it was told to wait (Delay) and receives
      nothing more on that endpoint until it is told to go on;
    - an allow, a subscription or an alarm never fails, the queue of upcalls is
      never full, and a buffer the process has taken back is an empty buffer for
      the kernel;
    - the descriptors and the control endpoint are not modelled. *)
From Coq Require Import List Arith Bool.
Import ListNotations.
From Verif Require Import Base.
Local Open Scope nat_scope.

Definition packet := bytes.

(** ** State of the driver *)

(** 03-add-ctap-modules.patch lines 124-129: enum Side. *)
Inductive side := Transmit | Receive | TransmitOrReceive.

Definition side_eqb (a b : side) : bool :=
  match a, b with
  | Transmit, Transmit | Receive, Receive | TransmitOrReceive, TransmitOrReceive => true
  | _, _ => false
  end.

(** Lines 132-137: Side::can_transmit. *)
Definition can_transmit (s : side) : bool :=
  match s with Transmit | TransmitOrReceive => true | Receive => false end.

(** Lines 139-144: Side::can_receive. *)
Definition can_receive (s : side) : bool :=
  match s with Receive | TransmitOrReceive => true | Transmit => false end.

(** Lines 676-691: struct EndpointState.  [in_buffer] is the packet in flight
    of the controller below. *)
Record endpoint := mk_endpoint {
  tx_packet : option packet;
  pending_in : bool;
  delayed_out : bool;
  out_buffer : packet
}.

(** Lines 147-158 (struct App) and 706-717 (struct ClientCtapHID). *)
Record kernel := mk_kernel {
  endpoints : nat -> endpoint;
  pending_out : bool;
  next_endpoint_index : nat;
  app_side : option side;
  waiting : bool
}.

(** usb_ctap_hid.rs lines 75-93: enum SendOrRecvStatus, and the upcalls that set
    it: TRANSMITTED, RECEIVED with its endpoint, and the alarm. *)
Inductive status := Sent | Received (e : nat) | Timeout.

(** What the kernel keeps for the process: the allowed buffer for reception, the
    subscriptions, the alarm and the upcalls that wait for a yield. *)
Record process := mk_process {
  receive_buffer : option packet;
  on_transmit : bool;
  on_receive : bool;
  alarm : bool;
  upcalls : list status
}.

(** The controller and the host: the packet the controller was given for an
    endpoint and has not transmitted yet, whether it holds a packet on an
    endpoint, and the packets the host has sent and got so far. *)
Record bus := mk_bus {
  in_flight : nat -> option packet;
  held : nat -> bool;
  host_sent : list (nat * packet);
  host_got : list (nat * packet)
}.

Record state := mk_state { kern : kernel; proc : process; ctrl : bus }.

Definition update {A} (f : nat -> A) (e : nat) (v : A) : nat -> A :=
  fun i => if i =? e then v else f i.

Definition set_kern (s : state) (k : kernel) : state := mk_state k (proc s) (ctrl s).
Definition set_proc (s : state) (p : process) : state := mk_state (kern s) p (ctrl s).
Definition set_ctrl (s : state) (b : bus) : state := mk_state (kern s) (proc s) b.

Definition set_endpoint (k : kernel) (e : nat) (x : endpoint) : kernel :=
  mk_kernel (update (endpoints k) e x) (pending_out k) (next_endpoint_index k)
            (app_side k) (waiting k).
Definition set_pending_out (k : kernel) (b : bool) : kernel :=
  mk_kernel (endpoints k) b (next_endpoint_index k) (app_side k) (waiting k).
Definition set_next (k : kernel) (i : nat) : kernel :=
  mk_kernel (endpoints k) (pending_out k) i (app_side k) (waiting k).
Definition set_app (k : kernel) (o : option side) (b : bool) : kernel :=
  mk_kernel (endpoints k) (pending_out k) (next_endpoint_index k) o b.

(** ** usbc_ctap_hid.rs *)

(** Lines 853-860: get_endpoint succeeds.  The endpoints are numbered from 1. *)
Definition known (n : nat) (e : nat) : bool := (1 <=? e) && (e <=? n).

Inductive code := Success | BUSY | INVAL | ALREADY.

(** Lines 971-979: cancel_in_transaction. *)
Definition cancel_in_transaction (n : nat) (k : kernel) (e : nat) : kernel * bool :=
  if known n e then
    let x := endpoints k e in
    (set_endpoint k e (mk_endpoint None false (delayed_out x) (out_buffer x)),
     pending_in x)
  else (k, false).

(** Lines 981-988: cancel_out_transaction. *)
Definition cancel_out_transaction (n : nat) (k : kernel) (e : nat) : kernel * bool :=
  if known n e then (set_pending_out k false, pending_out k) else (k, false).

(** Lines 964-968: the loop over all the endpoints of cancel_transaction. *)
Fixpoint cancel_all (n : nat) (k : kernel) (es : list nat) : kernel * bool :=
  match es with
  | [] => (k, false)
  | e :: es =>
      let '(k, a) := cancel_in_transaction n k e in
      let '(k, b) := cancel_out_transaction n k e in
      let '(k, r) := cancel_all n k es in
      (k, (a || b) || r)
  end.

(** Lines 959-969: cancel_transaction. *)
Definition cancel_transaction (n : nat) (k : kernel) (e : nat) : kernel * bool :=
  if 0 <? e then
    let '(k, a) := cancel_in_transaction n k e in
    let '(k, b) := cancel_out_transaction n k e in
    (k, a || b)
  else cancel_all n k (seq 1 n).

(** Lines 866-883: transmit_packet.  The controller is told to resume: it may ask
    for the packet from then on. *)
Definition transmit_packet (n : nat) (k : kernel) (p : packet) (e : nat)
  : kernel * code :=
  if known n e then
    let x := endpoints k e in
    if pending_in x then (k, BUSY)
    else (set_endpoint k e (mk_endpoint (Some p) true (delayed_out x) (out_buffer x)),
          Success)
  else (k, INVAL).

(** Lines 160-162: App::can_receive_packet; 326-341: the driver's. *)
Definition can_receive_packet (k : kernel) : bool :=
  waiting k && match app_side k with Some s => can_receive s | None => false end.

(** Lines 164-168: check_side, once [waiting] was set to false. *)
Definition stop_waiting (k : kernel) : kernel := set_app k None false.

(** An upcall is queued if the process has subscribed to it. *)
Definition schedule (p : process) (s : status) : process :=
  let on := match s with
            | Sent => on_transmit p | Received _ => on_receive p | Timeout => alarm p
            end in
  if on then mk_process (receive_buffer p) (on_transmit p) (on_receive p) (alarm p)
                        (upcalls p ++ [s])
  else p.

(** Lines 295-322: app_packet_received.  The buffer must have 64 bytes. *)
Definition app_packet_received (s : state) (q : packet) (e : nat) : option state :=
  if can_receive_packet (kern s) then
    match receive_buffer (proc s) with
    | None => None
    | Some _ =>
        let p := proc s in
        let p := mk_process (Some q) (on_transmit p) (on_receive p) (alarm p) (upcalls p) in
        Some (mk_state (stop_waiting (kern s)) (schedule p (Received e)) (ctrl s))
    end
  else Some s.

(** Lines 911-957: send_packet_to_client. *)
Definition send_packet_to_client (n : nat) (s : state) (e : nat)
  : option (state * bool) :=
  if known n e then
    let x := endpoints (kern s) e in
    if delayed_out x then None
    else if can_receive_packet (kern s) then
      if pending_out (kern s) then
        let k := set_pending_out (kern s) false in
        let k := fst (cancel_in_transaction n k e) in
        match app_packet_received (set_kern s k) (out_buffer x) e with
        | None => None
        | Some s => Some (set_kern s (set_next (kern s) (e mod n)), true)
        end
      else None
    else
      Some (set_kern s (set_endpoint (kern s) e
              (mk_endpoint (tx_packet x) (pending_in x) true (out_buffer x))), false)
  else Some (s, false).

(** endpoint_resume_out: the controller may receive on this endpoint again. *)
Definition resume_out (s : state) (e : nat) : state :=
  let b := ctrl s in
  set_ctrl s (mk_bus (in_flight b) (update (held b) e false) (host_sent b) (host_got b)).

(** Lines 891-904: the loop of receive_packet. *)
Fixpoint receive_loop (n : nat) (s : state) (is : list nat) : option state :=
  match is with
  | [] => Some s
  | i :: is =>
      let e := i mod n + 1 in
      let x := endpoints (kern s) e in
      if delayed_out x then
        let s := set_kern s (set_endpoint (kern s) e
                   (mk_endpoint (tx_packet x) (pending_in x) false (out_buffer x))) in
        match send_packet_to_client n s e with
        | None => None
        | Some (s, b) => receive_loop n (if b then resume_out s e else s) is
        end
      else receive_loop n s is
  end.

(** Lines 885-906: receive_packet. *)
Definition receive_packet (n : nat) (s : state) : option state :=
  if pending_out (kern s) then Some s
  else
    receive_loop n (set_kern s (set_pending_out (kern s) true))
                 (seq (next_endpoint_index (kern s)) n).

(** Lines 1048-1070: packet_in, with what the controller does of its answer. *)
Definition packet_in (n : nat) (s : state) (e : nat) : state :=
  if known n e then
    let x := endpoints (kern s) e in
    match tx_packet x with
    | Some p =>
        let b := ctrl s in
        mk_state (set_endpoint (kern s) e
                    (mk_endpoint None (pending_in x) (delayed_out x) (out_buffer x)))
                 (proc s)
                 (mk_bus (update (in_flight b) e (Some p)) (held b) (host_sent b) (host_got b))
    | None => s
    end
  else s.

(** Lines 1073-1099: packet_out, with what the controller does of its answer.  A
    packet of another size or for another endpoint is refused. *)
Definition packet_out (n : nat) (s : state) (e : nat) (q : packet) : option state :=
  if known n e && (length q =? 64) && negb (held (ctrl s) e) then
    let x := endpoints (kern s) e in
    let b := ctrl s in
    let s := mk_state (set_endpoint (kern s) e
                         (mk_endpoint (tx_packet x) (pending_in x) (delayed_out x) q))
                      (proc s)
                      (mk_bus (in_flight b) (held b) (host_sent b ++ [(e, q)]) (host_got b)) in
    match send_packet_to_client n s e with
    | None => None
    | Some (s, true) => Some s
    | Some (s, false) =>
        let b := ctrl s in
        Some (set_ctrl s (mk_bus (in_flight b) (update (held b) e true)
                                 (host_sent b) (host_got b)))
    end
  else Some s.

(** Lines 366-383: packet_transmitted of the system call driver. *)
Definition client_packet_transmitted (s : state) : state :=
  if waiting (kern s)
     && match app_side (kern s) with Some a => can_transmit a | None => false end
  then mk_state (stop_waiting (kern s)) (schedule (proc s) Sent) (ctrl s)
  else s.

(** Lines 1101-1119: packet_transmitted, called when the host took the packet in
    flight. *)
Definition packet_transmitted (n : nat) (s : state) (e : nat) : option state :=
  match in_flight (ctrl s) e with
  | Some p =>
      let b := ctrl s in
      let s := set_ctrl s (mk_bus (update (in_flight b) e None) (held b)
                                  (host_sent b) (host_got b ++ [(e, p)])) in
      if known n e then
        let x := endpoints (kern s) e in
        match tx_packet x with
        | Some _ => None
        | None =>
            let k := set_endpoint (kern s) e
                       (mk_endpoint None false (delayed_out x) (out_buffer x)) in
            let k := fst (cancel_out_transaction n k e) in
            Some (client_packet_transmitted (set_kern s k))
        end
      else Some s
  | None => Some s
  end.

(** ** usb_ctap.rs: the commands *)

(** Lines 170-178: set_side, then is_ready_for_command (lines 180-182), which
    holds once set_side succeeded. *)
Definition set_side (k : kernel) (a : side) : option kernel :=
  match app_side k with
  | None => Some (set_app k (Some a) (waiting k))
  | Some b => if side_eqb a b then Some k else None
  end.

(** Lines 424-462: CTAP_CMD_TRANSMIT. *)
Definition command_transmit (n : nat) (s : state) (p : packet) (e : nat)
  : option (state * code) :=
  match set_side (kern s) Transmit with
  | None => Some (s, INVAL)
  | Some k =>
      if waiting k then Some (set_kern s k, ALREADY)
      else
        let '(k, r) := transmit_packet n k p e in
        match r with
        | Success => Some (set_kern s (set_app k (app_side k) true), Success)
        | _ => Some (set_kern s k, r)
        end
  end.

(** Lines 463-486: CTAP_CMD_RECEIVE. *)
Definition command_receive (n : nat) (s : state) : option (state * code) :=
  match set_side (kern s) Receive with
  | None => Some (s, INVAL)
  | Some k =>
      if waiting k then Some (set_kern s k, ALREADY)
      else
        match receive_packet n (set_kern s (set_app k (app_side k) true)) with
        | None => None
        | Some s => Some (s, Success)
        end
  end.

(** Lines 487-531: CTAP_CMD_TRANSMIT_OR_RECEIVE. *)
Definition command_transmit_or_receive (n : nat) (s : state) (p : packet) (e : nat)
  : option (state * code) :=
  match set_side (kern s) TransmitOrReceive with
  | None => Some (s, INVAL)
  | Some k =>
      if waiting k then Some (set_kern s k, ALREADY)
      else
        match receive_packet n (set_kern s (set_app k (app_side k) true)) with
        | None => None
        | Some s =>
            if negb (waiting (kern s)) then Some (s, Success)
            else
              let '(k, r) := transmit_packet n (kern s) p e in
              Some (set_kern s k, r)
        end
  end.

(** Lines 532-555: CTAP_CMD_CANCEL. *)
Definition command_cancel (n : nat) (s : state) (e : nat) : state * code :=
  if waiting (kern s) then
    let k := stop_waiting (kern s) in
    let '(k, r) := cancel_transaction n k e in
    (set_kern s k, if r then Success else BUSY)
  else (s, ALREADY).

(** ** usb_ctap_hid.rs: the calls of the firmware *)

(** Lines 119-213: recv_with_timeout, send and send_or_recv_with_timeout, with
    the packet and the endpoint they are given. *)
Inductive call :=
| Recv
| Send (p : packet) (e : nat)
| SendOrRecv (p : packet) (e : nat).

Definition receives (c : call) : bool :=
  match c with Send _ _ => false | _ => true end.
Definition transmits (c : call) : bool :=
  match c with Recv => false | _ => true end.

(** What a call returns: the status, with the content of the buffer if a packet
    was received, or the error of the command. *)
Inductive outcome :=
| IsSent
| IsReceived (e : nat) (q : packet)
| IsTimeout
| IsError (r : code).

(** Where the process stands in a call: not in a call; everything is set up for
    the command; in the loop of yields; the loop was left with a status; the
    transaction is to be cancelled. *)
Inductive phase :=
| Idle
| Prepared (c : call)
| Waiting (c : call)
| Woken (c : call) (s : status)
| Cancelling (c : call).

Record world := mk_world {
  sys : state;
  at_phase : phase;
  results : list (call * outcome)
}.

(** Lines 229-247, 322-341, 425-446: the allow, the subscriptions and the alarm. *)
Definition prepare (s : state) (c : call) : state :=
  set_proc s (mk_process (if receives c then Some (repeat 0%N 64) else None)
                         (transmits c) (receives c) true []).

(** Lines 276, 375, 487: the end of the scope takes back what was shared.  The
    listeners and the alarm were removed just before (lines 252-274). *)
Definition release (s : state) : state :=
  set_proc s (mk_process None false false false []).

(** Lines 249, 343, 449-455. *)
Definition command (n : nat) (s : state) (c : call) : option (state * code) :=
  match c with
  | Recv => command_receive n s
  | Send p e => command_transmit n s p e
  | SendOrRecv p e => command_transmit_or_receive n s p e
  end.

(** Lines 287, 385, 498: the endpoint given to CANCEL. *)
Definition cancelled_endpoint (c : call) : nat :=
  match c with Send _ e => e | _ => 0 end.

(** The transactions of the controller, the alarm, and the system calls of the
    process. *)
Inductive event :=
| In_ (e : nat)                  (* the controller asks for a packet *)
| Done (e : nat)                 (* the host took the packet in flight *)
| Out (e : nat) (q : packet)     (* the host sends a packet *)
| Ring                           (* the alarm expires *)
| Begin (c : call)
| Command
| Yield
| Leave
| Cancel.

Definition at_state (w : world) (o : option state) : option world :=
  match o with
  | Some s => Some (mk_world s (at_phase w) (results w))
  | None => None
  end.

(** One step.  An event that cannot happen now changes nothing. *)
Definition step (n : nat) (w : world) (ev : event) : option world :=
  let s := sys w in
  match ev with
  | In_ e => at_state w (Some (packet_in n s e))
  | Done e => at_state w (packet_transmitted n s e)
  | Out e q => at_state w (packet_out n s e q)
  | Ring =>
      at_state w (Some (
        if alarm (proc s) then
          let p := schedule (proc s) Timeout in
          set_proc s (mk_process (receive_buffer p) (on_transmit p) (on_receive p)
                                 false (upcalls p))
        else s))
  | Begin c =>
      match at_phase w with
      | Idle => Some (mk_world (prepare s c) (Prepared c) (results w))
      | _ => Some w
      end
  | Command =>
      match at_phase w with
      | Prepared c =>
          match command n s c with
          | None => None
          | Some (s, Success) => Some (mk_world s (Waiting c) (results w))
          | Some (s, r) =>
              Some (mk_world (release s) Idle (results w ++ [(c, IsError r)]))
          end
      | _ => Some w
      end
  | Yield =>
      match at_phase w, upcalls (proc s) with
      | Waiting c, u :: us =>
          let p := proc s in
          Some (mk_world (set_proc s (mk_process (receive_buffer p) (on_transmit p)
                                                 (on_receive p) (alarm p) us))
                         (Woken c u) (results w))
      | _, _ => Some w
      end
  | Leave =>
      match at_phase w with
      | Woken c Timeout => Some (mk_world (release s) (Cancelling c) (results w))
      | Woken c Sent => Some (mk_world (release s) Idle (results w ++ [(c, IsSent)]))
      | Woken c (Received e) =>
          let q := match receive_buffer (proc s) with Some q => q | None => [] end in
          Some (mk_world (release s) Idle (results w ++ [(c, IsReceived e q)]))
      | _ => Some w
      end
  | Cancel =>
      match at_phase w with
      | Cancelling c =>
          Some (mk_world (fst (command_cancel n s (cancelled_endpoint c))) Idle
                         (results w ++ [(c, IsTimeout)]))
      | _ => Some w
      end
  end.

Fixpoint run (n : nat) (w : world) (evs : list event) : option world :=
  match evs with
  | [] => Some w
  | ev :: evs =>
      match step n w ev with
      | Some w => run n w evs
      | None => None
      end
  end.

(** Lines 842-849, 693-704 and App::default: nothing pending, nothing held. *)
Definition init : world :=
  mk_world
    (mk_state
       (mk_kernel (fun _ => mk_endpoint None false false (repeat 0%N 64))
                  false 0 None false)
       (mk_process None false false false [])
       (mk_bus (fun _ => None) (fun _ => false) [] []))
    Idle [].
