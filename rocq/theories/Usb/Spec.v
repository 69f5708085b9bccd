(** What the host and the firmware see of the USB packet driver. *)
From Coq Require Import List Arith Bool.
Import ListNotations.
From Verif Require Import Base.
From Verif.Usb Require Import Model.
Local Open Scope nat_scope.

(** The packets of an endpoint, in order. *)
Definition of_endpoint (e : nat) (l : list (nat * packet)) : list packet :=
  map snd (filter (fun x => fst x =? e) l).

(** What the host sent to an endpoint and got from it. *)
Definition sent_by_host (w : world) (e : nat) : list packet :=
  of_endpoint e (host_sent (ctrl (sys w))).
Definition got_by_host (w : world) (e : nat) : list packet :=
  of_endpoint e (host_got (ctrl (sys w))).

(** What the calls of the firmware returned as received from an endpoint. *)
Definition received_in (e : nat) (r : call * outcome) : list packet :=
  match snd r with
  | IsReceived e' q => if e' =? e then [q] else []
  | _ => []
  end.
Definition received (w : world) (e : nat) : list packet :=
  flat_map (received_in e) (results w).

(** The packet a call is given for an endpoint. *)
Definition given_in (e : nat) (c : call) : list packet :=
  match c with
  | Send p e' | SendOrRecv p e' => if e' =? e then [p] else []
  | Recv => []
  end.

(** What the firmware reported as sent on an endpoint. *)
Definition reported_in (e : nat) (r : call * outcome) : list packet :=
  match snd r with IsSent => given_in e (fst r) | _ => [] end.
Definition reported (w : world) (e : nat) : list packet :=
  flat_map (reported_in e) (results w).

(** The call the firmware is in. *)
Definition current (w : world) : list call :=
  match at_phase w with
  | Idle => []
  | Prepared c | Waiting c | Woken c _ | Cancelling c => [c]
  end.

(** What the calls were given for an endpoint, the current one included. *)
Definition given (w : world) (e : nat) : list packet :=
  flat_map (given_in e) (map fst (results w) ++ current w).

(** [l] is what remains of [m] when some packets are left out: same order, and
    none of them twice. *)
Inductive subsequence {A} : list A -> list A -> Prop :=
| sub_nil : subsequence [] []
| sub_skip x l m : subsequence l m -> subsequence l (x :: m)
| sub_keep x l m : subsequence l m -> subsequence (x :: l) (x :: m).

(** No call returned an error, or none timed out. *)
Definition is_error (r : call * outcome) : bool :=
  match snd r with IsError _ => true | _ => false end.
Definition is_timeout (r : call * outcome) : bool :=
  match snd r with IsTimeout => true | _ => false end.
Definition no_error (w : world) : Prop := existsb is_error (results w) = false.
Definition no_timeout (w : world) : Prop := existsb is_timeout (results w) = false.

(** The packet the controller holds for an endpoint. *)
Definition held_packet (w : world) (e : nat) : list packet :=
  if held (ctrl (sys w)) e then [out_buffer (endpoints (kern (sys w)) e)] else [].

(** Every call of a schedule satisfies a condition. *)
Definition calls_are (P : call -> Prop) (evs : list event) : Prop :=
  forall c, In (Begin c) evs -> P c.

(** The endpoint of a call exists. *)
Definition endpoint_exists (n : nat) (c : call) : Prop :=
  match c with Send _ e | SendOrRecv _ e => 1 <= e <= n | Recv => True end.

(** The device has one endpoint, or the firmware does not use the call that both
    sends and receives. *)
Definition one_way (n : nat) (c : call) : Prop :=
  n = 1 \/ match c with SendOrRecv _ _ => False | _ => True end.

(** The host takes every packet as soon as the controller has it. *)
Fixpoint prompt (evs : list event) : Prop :=
  match evs with
  | [] => True
  | In_ e :: evs =>
      match evs with
      | Done e' :: evs => e' = e /\ prompt evs
      | _ => False
      end
  | Done _ :: _ => False
  | _ :: evs => prompt evs
  end.

(** No packet arrives between the end of a call that timed out and its
    cancellation. *)
Definition quiet (n : nat) (evs : list event) : Prop :=
  forall pre e q post w c,
    evs = pre ++ Out e q :: post ->
    run n init pre = Some w -> at_phase w <> Cancelling c.

(** How many calls returned a packet. *)
Definition is_reception (r : call * outcome) : bool :=
  match snd r with IsReceived _ _ => true | _ => false end.
Definition receptions (w : world) : nat := length (filter is_reception (results w)).

(** The controller holds a packet of an endpoint: the host waits for it to be
    accepted. *)
Definition holds (w : world) (e : nat) : bool := held (ctrl (sys w)) e.
