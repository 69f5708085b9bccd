(** Specification vocabulary for the device as a whole. *)
From Verif Require Import Base.
From Verif Require Hid.Model Hid.Spec U2f.Model Ctap.Machine Ctap.System Device.Wait.
From Verif Require Import Device.Loop.
Import Hid.Model Hid.Spec Ctap.System.
Import Device.Loop.

(** A finished exchange: a packet comes in; then nothing, or the packets of one message for the channel of that packet go out on
    the same endpoint, up to the first that the platform does not take. *)
Inductive finished : list seen -> Prop :=
| fin_quiet t p now : finished [Got t p now]
| fin_reply t p now m :
    m_cid m = packet_chan p -> (Nlen (m_payload m) <= 7609)%N -> finished (Got t p now :: map (Sent t) (framing m))
| fin_lost t p now m sent q rest :
    m_cid m = packet_chan p -> (Nlen (m_payload m) <= 7609)%N -> framing m = sent ++ q :: rest ->
    finished (Got t p now :: map (Sent t) sent ++ [Lost t q]).
(** A finished exchange, or one cut short by the loss of power. *)
Definition exchange (l : list seen) : Prop :=
  finished l \/ exists before rest, finished (before ++ rest) /\ l = before ++ [Off].

(** The packets received on an endpoint since power came on, with their times. *)
Definition teqb (a b : Hid.Model.transport) : bool := Device.Wait.transport_eqb a b.
Definition received1 (t : Hid.Model.transport) (acc : list (packet * N)) (s : seen) : list (packet * N) :=
  match s with
  | Got t' p now => if teqb t' t then acc ++ [(p, now)] else acc
  | Off => []
  | _ => acc
  end.
Definition received (t : Hid.Model.transport) (tr : list seen) : list (packet * N) := fold_left (received1 t) tr [].
Definition arrival (ev : Hid.Spec.event) : packet * N := (snd ev, fst (fst ev)).

(** The last packets received complete the message [m]. *)
Definition completes (got : list (packet * N)) (m : message) : Prop :=
  exists pre ses cmd len t n data,
    got = pre ++ map arrival ses /\ session (m_cid m) cmd len ses t n data /\
    m_cmd m = cmd_of cmd /\ m_payload m = firstn (N.to_nat len) data /\ Nlen (m_payload m) = len.
(** The operation that a message on an endpoint asks for: a CTAP2 request (or one for the vendor hook) or a CTAP1 one. *)
Definition asks (t : Hid.Model.transport) (m : message) (o : op) : Prop :=
  let ch := match t with Hid.Model.MainHid => Ctap.Machine.MainHid (m_cid m) | Hid.Model.VendorHid => Ctap.Machine.VendorHid (m_cid m) end in
  match m_cmd m with
  | Cbor => o = OpMessage (m_payload m) ch \/ exists batch ent, o = OpVendor ch batch ent
  | Msg => t = Hid.Model.MainHid /\ o = OpU2f (m_payload m)
  | _ => False
  end.
(** What happens by itself. *)
Definition by_itself (o : op) : Prop :=
  match o with OpTick _ | OpTouch | OpCompact _ => True | _ => False end.

(** [story tr h]: the history [h] of the authenticator is accounted for by what was seen: every request in it was completed by a
    packet of its own, received on an allocated channel.  Interrupted operations are followed by power-up. *)
Inductive story : list seen -> list (op * option nat) -> Prop :=
| story_nil : story [] []
| story_itself tr h o : story tr h -> by_itself o -> story tr (h ++ [(o, None)])
| story_seen tr h s : story tr h -> s <> Off -> story (tr ++ [s]) h
| story_asked tr h t p now m o :
    story tr h -> completes (received t (tr ++ [Got t p now])) m -> m_cid m = packet_chan p -> asks t m o ->
    story (tr ++ [Got t p now]) (h ++ [(o, None)])
| story_off tr h n : story tr h -> story (tr ++ [Off]) (h ++ [(OpTick 0, Some n)])
| story_cut tr h t p now m o n :
    story tr h -> completes (received t (tr ++ [Got t p now])) m -> m_cid m = packet_chan p -> asks t m o ->
    story (tr ++ [Got t p now; Off]) (h ++ [(o, Some n)]).

(** Received packets are packets. *)
Definition input_ok (x : input) : Prop := match i_usb x with UReceived _ p => packet_ok p | _ => True end.
Definition event_ok (ev : Device.Loop.event) : Prop :=
  match ev with Go x => input_ok x | Cut x _ => input_ok x | Compact _ => True end.

(** How often the user pressed the button, and how much time passed; the same for a history of the authenticator. *)
Definition input_of (ev : Device.Loop.event) : input := match ev with Go x | Cut x _ => x | Compact _ => mkIn UTimeout 0 false end.
Definition presses (evs : list Device.Loop.event) : nat := length (filter (fun ev => i_touch (input_of ev)) evs).
Definition elapsed (evs : list Device.Loop.event) : N := fold_right (fun ev a => (i_time (input_of ev) + a)%N) 0%N evs.
Definition touches (h : list (op * option nat)) : nat := length (filter (fun x => match fst x with OpTouch => true | _ => false end) h).
Definition ticks (h : list (op * option nat)) : N := fold_right (fun x a => (match fst x with OpTick d => d | _ => 0 end + a)%N) 0%N h.
