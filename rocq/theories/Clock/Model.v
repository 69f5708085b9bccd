(** Model of the timers of the Tock port, /repo/src/env/tock/clock.rs. The hardware counter is
    an input: a real tick count T read modulo 2^24. *)
From Verif Require Import Base.

Definition U32_MAX : N := 0xFFFFFFFF.
(** u32::saturating_add, saturating_mul. *)
Definition sat_add (a b : N) : N := N.min (a + b) U32_MAX.
Definition sat_mul (a b : N) : N := N.min (a * b) U32_MAX.

(** clock.rs 24-27: Timestamp; the derived order compares epoch, then tick (line 23). *)
Record timestamp := mkTs { epoch : N; tick : N }.
Definition ts_default : timestamp := mkTs 0 0.
Definition ts_geb (a b : timestamp) : bool :=
  ((epoch b <? epoch a) || ((epoch a =? epoch b) && (tick b <=? tick a)))%N.

(** clock.rs 31-36: add_ticks. [self.epoch += _] on u32 is unbounded here: a run that would
    overflow it takes 70 000 years of ticks. *)
Definition add_ticks (t : timestamp) (ticks : N) : timestamp :=
  let sum := sat_add (tick t) ticks in
  mkTs (epoch t + N.shiftr sum 24) (N.land sum 0xffffff).

(** The 24-bit hardware counter (line 26) at real tick count [T]. *)
Definition hw_counter (T : N) : N := (T mod 2 ^ 24)%N.

(** clock.rs 67-73: tickle, called at real tick count [T]. *)
Definition tickle (now : timestamp) (T : N) : timestamp :=
  let cur := hw_counter T in
  mkTs (if (cur <? tick now)%N then epoch now + 1 else epoch now)%N cur.

(** clock.rs 83-87: milliseconds to ticks; [ms] and [freq] are u32. *)
Definition delta_tick (freq ms : N) : N :=
  if (ms * freq <=? U32_MAX)%N then (ms * freq / 1000)%N
  else sat_mul (ms / 100) (freq / 10).

(** clock.rs 79-91: make_timer. Returns the clock and the deadline. *)
Definition make_timer (freq : N) (now : timestamp) (T ms : N) : timestamp * timestamp :=
  let now := tickle now T in
  (now, add_ticks now (delta_tick freq ms)).

(** clock.rs 93-96: is_elapsed. *)
Definition is_elapsed (now : timestamp) (T : N) (deadline : timestamp) : timestamp * bool :=
  let now := tickle now T in
  (now, ts_geb now deadline).

(** Any calls on the clock at the real times [Ts]; every one of them starts with tickle. *)
Definition clock_after (now : timestamp) (Ts : list N) : timestamp := fold_left tickle Ts now.
