(** Waiting for the user: check_user_presence and the keepalive packets.
    Source: libraries/opensk/src/ctap/mod.rs 250-371. *)
From Verif Require Import Base.
From Verif Require Hid.Model Ctap.Machine.
Import Hid.Model Ctap.Machine.

(** api/connection.rs 44-54: what send_and_maybe_recv returns, with the packet that it received.  src/env/tock/mod.rs
    122-134: an endpoint of unknown number is an error. *)
Inductive link := LTimeout | LSent | LReceived (t : transport) (p : packet) | LError.

(** What the environment does in the n-th call of wait_with_timeout (api/user_presence.rs 38) and of
    send_and_maybe_recv, and how many milliseconds it takes. *)
Record surroundings := mkSur { s_wait : nat -> up_result * N; s_link : nat -> link * N }.

(** The calls made, in order, with their outcomes. *)
Inductive call := CWait (ms : N) (r : up_result) (d : N) | CSend (t : transport) (p : packet) (l : link) (d : N).

Definition transport_eqb (a b : transport) : bool :=
  match a, b with Hid.Model.MainHid, Hid.Model.MainHid | Hid.Model.VendorHid, Hid.Model.VendorHid => true | _, _ => false end.

(** mod.rs 258-262. *)
Definition transport_of (ch : Ctap.Machine.channel) : transport :=
  match ch with Ctap.Machine.MainHid _ => Hid.Model.MainHid | Ctap.Machine.VendorHid _ => Hid.Model.VendorHid end.
Definition cid_of (ch : Ctap.Machine.channel) : chan :=
  match ch with Ctap.Machine.MainHid c | Ctap.Machine.VendorHid c => c end.

Inductive kept := KOk | KCanceled | KPanic.

(** mod.rs 264-325: the loop of send_keepalive_up_needed.  [n] is the number of sends so far. *)
Fixpoint send_all (s : surroundings) (n : nat) (t : transport) (cid : chan) (ps : list packet) : list call * kept :=
  match ps with
  | [] => ([], KOk)
  | p :: ps =>
      let '(l, d) := s_link s n in
      let c := CSend t p l d in
      let next := let '(cs, k) := send_all s (S n) t cid ps in (c :: cs, k) in
      match l with
      | LTimeout | LSent => next
      | LError => ([c], KPanic)
      | LReceived t' q =>
          if negb (transport_eqb t' t) then next
          else
            let '(cid', pp) := process_single_packet q in
            if negb (bytes_eqb cid' cid) then ([c], KOk)
            else match pp with
                 | PInit cmd _ _ => if (cmd =? cmd_code Cancel)%N then ([c], KCanceled) else next
                 | PCont _ _ => next
                 end
      end
  end.

(** hid/mod.rs 434-441: keepalive, with the status UpNeeded = 2. *)
Definition keepalive (cid : chan) : list packet := split_message (mkMsg cid Keepalive [2%N]).

(** mod.rs 98-99, 336. *)
Definition KEEPALIVE_DELAY_MS : N := 100.
Definition TOUCH_TIMEOUT_MS : N := 30000.
Definition TIMEOUT_ITERATIONS : nat := N.to_nat (TOUCH_TIMEOUT_MS / KEEPALIVE_DELAY_MS).

Definition timed_out (r : up_result) : bool := match r with UpTimeout => true | _ => false end.

(** mod.rs 341-367: the loop of check_user_presence from iteration [i] on, [more] iterations; None is a panic.  check_init and
    check_complete only concern LEDs (src/env/tock/mod.rs 266, 352). *)
Fixpoint wait_loop (s : surroundings) (ch : Ctap.Machine.channel) (i n more : nat) : list call * option up_result :=
  match more with
  | O => ([], Some UpTimeout)
  | S more =>
      let '(r, d) := s_wait s i in
      let c := CWait (match i with O => 0 | _ => KEEPALIVE_DELAY_MS end) r d in
      if negb (timed_out r) then ([c], Some r)
      else
        match send_all s n (transport_of ch) (cid_of ch) (keepalive (cid_of ch)) with
        | (cs, KPanic) => (c :: cs, None)
        | (cs, KCanceled) => (c :: cs, Some UpCanceled)
        | (cs, KOk) => let '(cs', o) := wait_loop s ch (S i) (n + length cs) more in (c :: cs ++ cs', o)
        end
  end.

(** mod.rs 332-371: check_user_presence; the result is turned into a status by Machine.up_status. *)
Definition check_user_presence (s : surroundings) (ch : Ctap.Machine.channel) : list call * option up_result :=
  wait_loop s ch 0 0 (S TIMEOUT_ITERATIONS).
Definition call_time (c : call) : N := match c with CWait _ _ d | CSend _ _ _ d => d end.
Definition time_of (cs : list call) : N := fold_right (fun c a => (call_time c + a)%N) 0%N cs.
