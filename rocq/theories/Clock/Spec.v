From Verif Require Import Base.
From Verif.Clock Require Import Model.

(** A schedule of calls: times do not decrease and are less than one counter period apart. *)
Fixpoint regular (T0 : N) (Ts : list N) : Prop :=
  match Ts with
  | [] => True
  | T :: Ts' => (T0 <= T < T0 + 2 ^ 24)%N /\ regular T Ts'
  end.

(** A device queried at times [before], then making a timer of [ms] at time [T], then queried
    at times [between], and finally asked at time [T'] whether the timer is elapsed. *)
Definition timer_query (freq : N) (before : list N) (T ms : N) (between : list N) (T' : N) : bool :=
  let c0 := clock_after ts_default before in
  let (c1, d) := make_timer freq c0 T ms in
  let c2 := clock_after c1 between in
  snd (is_elapsed c2 T' d).
