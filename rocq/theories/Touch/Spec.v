(** Specification vocabulary for the touch. *)
From Verif Require Import Base.
From Verif Require Import Touch.Model.
Local Open Scope nat_scope.

(** No subscription, no undelivered upcall and no alarm: between two calls. *)
Definition idle (k : kernel) : Prop := buttons_sub k = false /\ alarm_sub k = false /\ alarm k = None /\ queue k = [].

(** The kernel reports button [n] to the process. *)
Definition listens (k : kernel) (n : nat) : Prop := buttons_sub k = true /\ enabled k n = true.

(** The alarm is set and its time has come. *)
Definition due (k : kernel) : Prop := exists t, alarm k = Some t /\ t <= now k.

(** In the course [l] from the state [s]: a reported press, with what comes before it. *)
Definition pressed_after (c : config) (s : state) (l a : list item) (n : nat) (b : list item) : Prop :=
  l = a ++ Ev (Press n) :: b /\ listens (fst (run c s a)) n.
(** The alarm goes off, with what comes before it. *)
Definition expires_after (c : config) (s : state) (l a b : list item) : Prop :=
  l = a ++ Ev Expire :: b /\ due (fst (run c s a)).

(** No system call fails. *)
Definition no_failure (l : list item) : Prop := ~ In (Run false) l.

(** The number of steps of the process, and of events. *)
Definition steps (l : list item) : nat := length (filter (fun i => match i with Run _ => true | Ev _ => false end) l).
Definition events (l : list item) : nat := length (filter (fun i => match i with Run _ => false | Ev _ => true end) l).

Definition over (s : state) : Prop := exists o, place_of (snd s) = Over o.
Definition ends (s : state) (o : outcome) : Prop := place_of (snd s) = Over o.
