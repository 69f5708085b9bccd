(** Specification vocabulary for random bytes. *)
From Verif Require Import Base.
From Verif Require Import Rng.Model.
Local Open Scope nat_scope.

(** Between two calls. *)
Definition idle (k : kernel) : Prop := shared k = false /\ sub k = false /\ missing k = 0 /\ pending k = 0.

(** The bytes that the hardware gives in a course. *)
Definition supplied (l : list item) : bytes := flat_map (fun i => match i with Entropy bs => bs | Run _ => [] end) l.

(** No system call fails. *)
Definition no_failure (l : list item) : Prop := ~ In (Run false) l.

(** [a] can be got from [b] by leaving out elements: every element of b is used at most once, in order. *)
Inductive subsequence {A} : list A -> list A -> Prop :=
  | sub_nil b : subsequence [] b
  | sub_take x a b : subsequence a b -> subsequence (x :: a) (x :: b)
  | sub_drop x a b : subsequence a b -> subsequence a (x :: b).

Definition ends (s : state) (r : bool) : Prop := place_of (snd s) = Over r.
Definition over (s : state) : Prop := exists r, ends s r.
Definition steps (l : list item) : nat := length (filter (fun i => match i with Run _ => true | Entropy _ => false end) l).
