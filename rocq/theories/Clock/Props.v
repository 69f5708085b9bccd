(** C48: timers. *)
From Verif Require Import Base Facts.
From Verif.Clock Require Import Model Spec Proofs.

(** C48: with the clock consulted at least once per counter period, a timer of [ms]
    milliseconds made at real tick [T] is reported elapsed at [T'] exactly from a fixed number
    of ticks on. That number does not depend on the queries, and it is never more than [ms]
    milliseconds. Whenever ms * freq fits 32 bits (131 s at 32768 Hz) it is exactly ms
    milliseconds in ticks, rounded down. *)
Theorem C48_exact : forall freq first before T ms between T',
  regular first (before ++ T :: between ++ [T']) ->
  exists ticks,
    (forall before' between' T'',
       regular first (before' ++ T :: between' ++ [T'']) ->
       timer_query freq (first :: before') T ms between' T'' = (T + ticks <=? T'')%N) /\
    timer_query freq (first :: before) T ms between T' = (T + ticks <=? T')%N /\
    (ticks <= ms * freq / 1000)%N /\
    ((ms * freq < 2 ^ 32)%N -> ticks = (ms * freq / 1000)%N).
Proof.
  intros freq first before T ms between T' H.
  exists (N.min (delta_tick freq ms) (U32_MAX - hw_counter T)).
  split; [|split; [|split]].
  - intros. apply timer_query_exact. intros _ _. assumption.
  - apply timer_query_exact. intros _ _. assumption.
  - pose proof (delta_le freq ms). lia.
  - intro Hs. change (2 ^ 32)%N with 4294967296%N in Hs. unfold delta_tick, U32_MAX.
    destruct (N.leb_spec (ms * freq) 0xFFFFFFFF); [|lia].
    pose proof (hw_ok T). unfold P24 in *. lia.
Qed.

(** Same, when the timer is made by the very first call on the clock. *)
Theorem C48_exact_first : forall freq T ms between T',
  regular T (between ++ [T']) -> (ms * freq < 2 ^ 32)%N ->
  timer_query freq [] T ms between T' = (T + ms * freq / 1000 <=? T')%N.
Proof.
  intros freq T ms between T' H Hs. rewrite timer_query_exact by (intros; assumption).
  change (2 ^ 32)%N with 4294967296%N in Hs. unfold delta_tick, U32_MAX.
  destruct (N.leb_spec (ms * freq) 0xFFFFFFFF); [|lia].
  pose proof (hw_ok T). unfold P24 in *.
  replace (N.min (ms * freq / 1000) (4294967295 - hw_counter T)) with (ms * freq / 1000)%N by lia.
  reflexivity.
Qed.

(** Longer timers: the fallback formula loses less than 10 ticks per 100 ms plus the ticks of
    one 100 ms step, as long as it does not saturate. *)
Theorem C48_long_lower : forall freq ms,
  (ms / 100 * (freq / 10) <= 2 ^ 32 - 1)%N ->
  (ms * freq / 1000 <= delta_tick freq ms + ms / 100 + freq / 10 + 1)%N.
Proof.
  intros freq ms H. unfold delta_tick, sat_mul, U32_MAX.
  change (2 ^ 32 - 1)%N with 4294967295%N in H.
  destruct (N.leb_spec (ms * freq) 0xFFFFFFFF); [lia|].
  rewrite N.min_l by lia.
  apply N.lt_succ_r. apply N.div_lt_upper_bound; [lia|].
  pose proof (N.div_mod ms 100 ltac:(lia)). pose proof (N.mod_lt ms 100 ltac:(lia)).
  pose proof (N.div_mod freq 10 ltac:(lia)). pose proof (N.mod_lt freq 10 ltac:(lia)).
  set (a := (ms / 100)%N) in *. set (b := (freq / 10)%N) in *.
  set (r := (ms mod 100)%N) in *. set (q := (freq mod 10)%N) in *.
  clearbody a b r q. subst ms freq.
  assert (a * q <= a * 9)%N by (apply N.mul_le_mono_l; lia).
  assert (r * b <= 99 * b)%N by (apply N.mul_le_mono_r; lia).
  assert (r * q <= 99 * 9)%N by (apply N.mul_le_mono; lia).
  replace ((100 * a + r) * (10 * b + q))%N with (1000 * (a * b) + 100 * (a * q) + 10 * (r * b) + r * q)%N by ring.
  lia.
Qed.

(** The condition on the schedule is needed: with one gap of a whole counter period a timer
    long past its deadline is reported as not elapsed. *)
Theorem C48_gap_needed : exists freq T ms T',
  (T + ms * freq / 1000 + 16000000 <= T')%N /\ (ms * freq < 2 ^ 32)%N /\
  timer_query freq [] T ms [] T' = false.
Proof. exists 32768%N, 5%N, 10000%N, (5 + 2 ^ 24)%N. vm_compute. intuition discriminate. Qed.

Example C48_nonvacuous :
  regular 7 ([8] ++ 16777000 :: [16777100; 33000000] ++ [33104891])%N /\
  timer_query 32768 [7; 8]%N 16777000 10000 [16777100]%N 17104679 = false /\
  timer_query 32768 [7; 8]%N 16777000 10000 [16777100]%N 17104680 = true.
Proof. vm_compute. intuition discriminate. Qed.

Print Assumptions C48_exact.
Print Assumptions C48_exact_first.
Print Assumptions C48_long_lower.
Print Assumptions C48_gap_needed.
