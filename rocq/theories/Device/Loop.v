(** The main loop of the firmware: packets in, packets out.  src/main.rs 60-265, libraries/opensk/src/lib.rs 54-126, with the HID
    layer of Hid/Model.v and the authenticator of Ctap/. *)
From Verif Require Import Base.
From Verif Require Hid.Model U2f.Model Ctap.Machine Ctap.Commands Ctap.Parse Ctap.System Device.Wait.
Import Hid.Model U2f.Model Ctap.Machine Ctap.Commands Ctap.Parse Ctap.System.

(** apdu.rs 24-49: the status words. *)
Definition sw_word (s : sw) : N :=
  match s with
  | SW_SUCCESS => 0x9000 | SW_GET_RESPONSE => 0x6100 | SW_MEMERR => 0x6501 | SW_WRONG_DATA => 0x6A80
  | SW_WRONG_LENGTH => 0x6700 | SW_COND_USE_NOT_SATISFIED => 0x6985 | SW_COMMAND_NOT_ALLOWED => 0x6986
  | SW_FILE_NOT_FOUND => 0x6A82 | SW_INCORRECT_P1P2 => 0x6A86 | SW_INS_INVALID => 0x6D00
  | SW_CLA_INVALID => 0x6E00 | SW_INTERNAL_EXCEPTION => 0x6F00 | SW_PANIC => 0
  end.

Section Loop.
  Variable e : env.
  (** env/mod.rs 60-65: process_vendor_command of the environment: the response, and the attestations that it sets, if any. *)
  Variable hook : world -> bytes -> Ctap.Machine.channel -> option (bytes * option (bytes * bytes) * option (bytes * bytes)).

  (** The state of the authenticator, and whether it still runs (false: a panic). *)
  Definition core : Type := (world * bool)%type.

  Definition channel_of (ch : Hid.Model.channel) : Ctap.Machine.channel :=
    match ch with MainChannel c => Ctap.Machine.MainHid c | VendorChannel c => Ctap.Machine.VendorHid c end.

  (** mod.rs 585-612: process_command, from bytes to bytes.  The clock is the one of the world. *)
  Definition ctap2 (_ : N) (s : core) (b : bytes) (ch : Hid.Model.channel) : core * bytes :=
    let '(w, live) := s in
    match hook w b (channel_of ch) with
    | Some (r, batch, ent) => ((snd (run_op e (OpVendor (channel_of ch) batch ent) w), live), r)
    | None =>
        let '(o, w') := run_op e (OpMessage b (channel_of ch)) w in
        match o with
        | OutCtap r => match response_bytes (e_cfg e) r with Some x => ((w', live), x) | None => ((w', false), []) end
        | _ => ((w', live), [])
        end
    end.
  (** main_hid.rs 81-92, 133-155: CTAP1, with the status word. *)
  Definition ctap1 (_ : N) (s : core) (b : bytes) : core * bytes :=
    let '(w, live) := s in
    let '(o, w') := run_op e (OpU2f b) w in
    match o with
    | OutU2f (Ok r) => ((w', live), r ++ [0x90; 0]%N)
    | OutU2f (Err SW_PANIC) => ((w', false), [])
    | OutU2f (Err s) => ((w', live), be_bytes 2 (sw_word s))
    | _ => ((w', live), [])
    end.

  (** main.rs 66-117: the authenticator and the packets of the replies still to be sent, for each endpoint. *)
  Record device := mkDev { d_ctap : ctap core; d_main : list packet; d_vendor : list packet }.
  Definition d_world (d : device) : world := fst (c_state _ (d_ctap d)).
  Definition d_live (d : device) : bool := snd (c_state _ (d_ctap d)).
  Definition set_core (c : ctap core) (s : core) : ctap core := mkCtap core (c_main _ c) (c_vendor _ c) s.
  Definition on_world (f : world -> world) (d : device) : device :=
    mkDev (set_core (d_ctap d) (f (d_world d), d_live d)) (d_main d) (d_vendor d).
  Definition halt (d : device) : device := mkDev (set_core (d_ctap d) (d_world d, false)) (d_main d) (d_vendor d).

  (** main.rs 98-107: next_packet. *)
  Definition next_packet (d : device) : option (Hid.Model.transport * packet * device) :=
    match d_main d with
    | p :: ps => Some (Hid.Model.MainHid, p, mkDev (d_ctap d) ps (d_vendor d))
    | [] => match d_vendor d with
            | p :: ps => Some (Hid.Model.VendorHid, p, mkDev (d_ctap d) [] ps)
            | [] => None
            end
    end.
  Definition set_queue (t : Hid.Model.transport) (ps : list packet) (d : device) : device :=
    match t with
    | Hid.Model.MainHid => mkDev (d_ctap d) ps (d_vendor d)
    | Hid.Model.VendorHid => mkDev (d_ctap d) (d_main d) ps
    end.

  (** What the USB driver answers to send or recv_with_timeout (flex_unwrap panics on errors: UError). *)
  Inductive usb := USent | UTimeout | UReceived (endpoint : N) (p : packet) | UError.
  (** api/connection.rs 25-37: UsbEndpoint::try_from. *)
  Definition endpoint_of (n : N) : option Hid.Model.transport :=
    if (n =? 1)%N then Some Hid.Model.MainHid else if (n =? 2)%N then Some Hid.Model.VendorHid else None.

  (** What the world does in one iteration: the answer of the driver, the time it took, whether a button is pressed. *)
  Record input := mkIn { i_usb : usb; i_time : N; i_touch : bool }.

  (** What can be seen from outside: packets sent, given up and received, and the loss of power. *)
  Inductive seen :=
  | Sent (t : Hid.Model.transport) (p : packet) | Lost (t : Hid.Model.transport) (p : packet)
  | Got (t : Hid.Model.transport) (p : packet) (now : N) | Off.

  Definition run1 (o : op) (w : world) : world := snd (run_op e o w).

  (** main.rs 161-206: sending or receiving; the received packet, if any; main.rs 208-218: time and touch. *)
  Definition transfer (d : device) (x : input) : device * option (Hid.Model.transport * packet) * list seen :=
    let settle d := on_world (fun w => (if i_touch x then run1 OpTouch else fun w => w) (run1 (OpTick (i_time x)) w)) d in
    match next_packet d with
    | Some (t, p, d1) =>
        match i_usb x with
        | USent => (settle d1, None, [Sent t p])
        | UTimeout => (settle (set_queue t [] d1), None, [Lost t p])
        | _ => (halt d1, None, [])
        end
    | None =>
        match i_usb x with
        | UReceived n p => (settle d, match endpoint_of n with Some t => Some (t, p) | None => None end, [])
        | UTimeout => (settle d, None, [])
        | _ => (halt d, None, [])
        end
    end.

  (** main.rs 220-246: the packet is processed and the reply queued if it has data. *)
  Definition iterate (d : device) (x : input) : device * list seen :=
    if negb (d_live d) then (d, [])
    else
      match transfer d x with
      | (d, None, o) => (d, o)
      | (d, Some (t, p), o) =>
          let now := w_now (d_world d) in
          let '(c, r) := ctap_packet core ctap2 ctap1 true (c_max_msg (e_cfg e)) now (d_ctap d) p t in
          let d := mkDev c (d_main d) (d_vendor d) in
          ((match r with [] => d | _ => set_queue t r d end), o ++ [Got t p now])
      end.

  (** lib.rs 65-80, main_hid.rs 36-53: Ctap::new; the capabilities of main_hid.rs 39 and vendor_hid.rs 29-31. *)
  Definition device_new (w : world) : device :=
    mkDev (mkCtap core (mkMain (hid_new 5) timer_default) (hid_new 12) (w, true)) [] [].

  (** The life of a device: iterations, the store compacting in between, and power being lost in an iteration (its last [n] writes
      and events did not happen, as in System.step). *)
  Inductive event := Go (x : input) | Cut (x : input) (n : nat) | Compact (n : nat).
  Definition live1 (d : device) (ev : event) : device * list seen :=
    match ev with
    | Go x => iterate d x
    | Compact n => (on_world (run1 (OpCompact n)) d, [])
    | Cut x n =>
        let '(d', o) := iterate d x in
        (device_new (reboot e (lose_power n (d_world d) (d_world d'))), o ++ [Off])
    end.
  Fixpoint live (d : device) (evs : list event) : device * list seen :=
    match evs with
    | [] => (d, [])
    | ev :: evs => let '(d, o) := live1 d ev in let '(d, os) := live d evs in (d, o ++ os)
    end.
End Loop.
