(** Waiting for a touch on the hardware: wait_with_timeout, the button listener and the alarm.
    Source: src/env/tock/mod.rs 263-360, third_party/libtock-drivers/src/timer.rs 34-149 and util.rs 8-12.
    The Tock kernel and the crates libtock_buttons and libtock_alarm are not in the repository: the part of the kernel that
    is used here is described below after its documented system-call interface.  Simplifications: the kernel's queue of
    upcalls is unbounded, the LEDs (blink_leds, switch_off_leds) are left out, and no other upcall is subscribed while this
    function runs (the USB driver unsubscribes before it returns). *)
From Verif Require Import Base.
Local Open Scope nat_scope.

(** What the kernel has to tell the process: a button was pressed (true) or released (false); the alarm went off. *)
Inductive upcall := UButton (n : nat) (pressed : bool) | UAlarm.

(** The kernel's side: the clock in ticks, the buttons whose interrupts are enabled, whether the process has subscribed to
    the buttons and to the alarm, the tick for which the alarm is set, and the upcalls not delivered yet. *)
Record kernel := mkKernel { now : nat; enabled : nat -> bool; buttons_sub : bool; alarm_sub : bool; alarm : option nat; queue : list upcall }.

Definition is_button (u : upcall) : bool := match u with UButton _ _ => true | UAlarm => false end.

(** The commands of the button driver: enable and disable the interrupts of a button (mod.rs 281-283, 329-331). *)
Definition set_enabled (n : nat) (b : bool) (k : kernel) : kernel :=
  mkKernel (now k) (fun m => if m =? n then b else enabled k m) (buttons_sub k) (alarm_sub k) (alarm k) (queue k).
(** Subscribing or unsubscribing drops the pending upcalls of that subscription (mod.rs 310, 314-316, 326; timer.rs 86-92, 132). *)
Definition set_buttons_sub (b : bool) (k : kernel) : kernel :=
  mkKernel (now k) (enabled k) b (alarm_sub k) (alarm k) (filter (fun u => negb (is_button u)) (queue k)).
Definition set_alarm_sub (b : bool) (k : kernel) : kernel :=
  mkKernel (now k) (enabled k) (buttons_sub k) b (alarm k) (filter is_button (queue k)).
(** timer.rs 138-148: SET_RELATIVE; [ticks] is what libtock_alarm computes for the duration.  A new alarm replaces an old one. *)
Definition set_alarm (ticks : nat) (k : kernel) : kernel :=
  mkKernel (now k) (enabled k) (buttons_sub k) (alarm_sub k) (Some (now k + ticks)) (queue k).
Definition no_alarm (k : kernel) : kernel := mkKernel (now k) (enabled k) (buttons_sub k) (alarm_sub k) None (queue k).
Definition set_queue (q : list upcall) (k : kernel) : kernel := mkKernel (now k) (enabled k) (buttons_sub k) (alarm_sub k) (alarm k) q.

(** What happens around the process: a button is pressed or released, time passes, the interrupt of the alarm is served. *)
Inductive event := Press (n : nat) | Release (n : nat) | Time (d : nat) | Expire.

Definition button_event (n : nat) (b : bool) (k : kernel) : kernel :=
  if buttons_sub k && enabled k n then set_queue (queue k ++ [UButton n b]) k else k.

Definition happen (e : event) (k : kernel) : kernel :=
  match e with
  | Press n => button_event n true k
  | Release n => button_event n false k
  | Time d => mkKernel (now k + d) (enabled k) (buttons_sub k) (alarm_sub k) (alarm k) (queue k)
  | Expire =>
      match alarm k with
      | Some t => if t <=? now k then (let k' := no_alarm k in if alarm_sub k then set_queue (queue k ++ [UAlarm]) k' else k') else k
      | None => k
      end
  end.

(** What wait_with_timeout gives: Ok, Err(Timeout), Err(Fail), or a panic. *)
Inductive outcome := Confirmed | TimedOut | Failed | Panicked.

(** Where the process is, before its next system call. *)
Inductive place :=
  | Count            (* mod.rs 280: Buttons::count *)
  | Enable (n : nat) (* 281-283: the loop from button n on *)
  | Register         (* 310-311 *)
  | Init             (* 313, timer.rs 65-82 *)
  | Subscribe        (* 314-316, timer.rs 86-92 *)
  | SetAlarm         (* 317-319, timer.rs 138-148 *)
  | Wait             (* 322-324, util.rs 8-12 *)
  | Unregister       (* 326 *)
  | Disable (n : nat) (* 329-331 *)
  | Unsubscribe      (* 334, timer.rs 132 *)
  | Stop             (* 334-343, timer.rs 133 *)
  | Over (o : outcome).

(** The device: its number of buttons and the ticks of the timeout. *)
Record config := mkConfig { buttons : nat; ticks : nat }.

(** The process: its place and the two cells (mod.rs 285, 294). *)
Record process := mkProcess { place_of : place; touched : bool; expired : bool }.

Definition state : Type := kernel * process.

Definition at_place (l : place) (k : kernel) (p : process) : state := (k, mkProcess l (touched p) (expired p)).
(** Leaving share::scope (mod.rs 297-346) unsubscribes both. *)
Definition leave (o : outcome) (k : kernel) (p : process) : state := at_place (Over o) (set_alarm_sub false (set_buttons_sub false k)) p.

(** mod.rs 286-291, 295-296: the listener and the callback of the alarm. *)
Definition deliver (u : upcall) (p : process) : process :=
  match u with
  | UButton _ true => mkProcess (place_of p) true (expired p)
  | UButton _ false => p
  | UAlarm => mkProcess (place_of p) (touched p) true
  end.

(** mod.rs 348-354: the result, once the scope is left. *)
Definition result (p : process) : outcome :=
  if touched p then Confirmed else if expired p then TimedOut else Panicked.

(** The next step of the process; [ok] says whether the system call succeeds, where it can fail. *)
Definition proceed (c : config) (ok : bool) (s : state) : state :=
  let '(k, p) := s in
  match place_of p with
  | Count => if ok then at_place (Enable 0) k p else at_place (Over Failed) k p
  | Enable n =>
      if n <? buttons c then (if ok then at_place (Enable (S n)) (set_enabled n true k) p else at_place (Over Failed) k p)
      else at_place Register k p
  | Register => if ok then at_place Init (set_buttons_sub true k) p else leave Failed k p
  | Init => if ok then at_place Subscribe k p else at_place (Over Panicked) k p
  | Subscribe => if ok then at_place SetAlarm (set_alarm_sub true k) p else leave Failed k p
  | SetAlarm => if ok then at_place Wait (set_alarm (ticks c) k) p else at_place (Over Panicked) k p
  | Wait =>
      if touched p || expired p then at_place Unregister k p
      else match queue k with
           | [] => s
           | u :: q => (set_queue q k, deliver u p)
           end
  | Unregister => at_place (Disable 0) (set_buttons_sub false k) p
  | Disable n =>
      if n <? buttons c then (if ok then at_place (Disable (S n)) (set_enabled n false k) p else leave Failed k p)
      else at_place Unsubscribe k p
  | Unsubscribe => at_place Stop (set_alarm_sub false k) p
  | Stop =>
      if negb ok then at_place (Over Panicked) k p
      else match alarm k with
           | Some _ => leave (result p) (no_alarm k) p
           | None => if expired p then leave (result p) k p else at_place (Over Panicked) k p
           end
  | Over _ => s
  end.

(** What happens in between, or a step of the process with the answer to its system call. *)
Inductive item := Ev (e : event) | Run (ok : bool).

Definition step (c : config) (s : state) (i : item) : state :=
  match i with
  | Ev e => (happen e (fst s), snd s)
  | Run ok => proceed c ok s
  end.

Definition run (c : config) (s : state) (l : list item) : state := fold_left (step c) l s.

(** mod.rs 272-275: the call for [timeout_ms] milliseconds begins. *)
Definition wait_with_timeout (timeout_ms : nat) (k : kernel) : state :=
  (k, mkProcess (if timeout_ms =? 0 then Over TimedOut else Count) false false).
