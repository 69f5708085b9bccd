(** Random bytes: the client of the kernel's generator.
    Source: third_party/libtock-drivers/src/rng.rs 34-76, src/env/tock/mod.rs 77-112, libraries/opensk/src/api/rng.rs 17-30.
    The kernel's driver (capsules::rng of Tock) is not in the repository: the part that is used here is described after its
    documented interface.  Simplifications: one application; the hardware gives bytes in pieces of any length, of which the driver
    takes what is missing and drops the rest; requests have less than 2^32 bytes (rng.rs 67). *)
From Verif Require Import Base.
Local Open Scope nat_scope.

(** The kernel's side: whether a buffer is shared, whether the process has subscribed, how many bytes were written and how many are
    missing, and the number of upcalls not delivered yet. *)
Record kernel := mkKernel { shared : bool; sub : bool; written : nat; missing : nat; pending : nat }.

(** Where the process is, before its next system call (rng.rs). *)
Inductive place :=
  | Share       (* 47-50: allow_rw *)
  | Subscribe   (* 53-59 *)
  | Command     (* 62-70 *)
  | Wait        (* 73, util.rs 8-12 *)
  | Over (filled : bool). (* 75, or one of the returns of false *)

(** The process: its place, the buffer and the cell of rng.rs 36. *)
Record process := mkProcess { place_of : place; buf : bytes; is_filled : bool }.
Definition state : Type := kernel * process.

(** The hardware has new bytes: the driver writes what is missing to the shared buffer and tells the process when nothing is missing any
    more.  If no buffer is shared the request is given up. *)
Definition entropy (bs : bytes) (s : state) : state :=
  let '(k, p) := s in
  match missing k with
  | O => s
  | S _ =>
      if shared k then
        let n := min (min (missing k) (length (buf p) - written k)) (length bs) in
        let m := missing k - n in
        (mkKernel true (sub k) (written k + n) m (if (m =? 0) && sub k then S (pending k) else pending k),
         mkProcess (place_of p) (firstn (written k) (buf p) ++ firstn n bs ++ skipn (written k + n) (buf p)) (is_filled p))
      else (mkKernel false (sub k) 0 0 (if sub k then S (pending k) else pending k), p)
  end.

(** Leaving share::scope (rng.rs 38-45, 76): the buffer is taken back, the subscription ends and its upcalls are dropped. *)
Definition leave (r : bool) (s : state) : state :=
  let '(k, p) := s in (mkKernel false false (written k) (missing k) 0, mkProcess (Over r) (buf p) (is_filled p)).

Definition goto (l : place) (p : process) : process := mkProcess l (buf p) (is_filled p).

(** The next step of the process; [ok] says whether the system call succeeds, where it can fail. *)
Definition proceed (ok : bool) (s : state) : state :=
  let '(k, p) := s in
  match place_of p with
  | Share => if ok then (mkKernel true (sub k) (written k) (missing k) (pending k), goto Subscribe p) else leave false s
  | Subscribe => if ok then (mkKernel (shared k) true (written k) (missing k) 0, goto Command p) else leave false s
  | Command => if ok then (mkKernel (shared k) (sub k) 0 (length (buf p)) (pending k), goto Wait p) else leave false s
  | Wait =>
      if is_filled p then leave true s
      else match pending k with
           | O => s
           | S n => (mkKernel (shared k) (sub k) (written k) (missing k) n, mkProcess Wait (buf p) true)
           end
  | Over _ => s
  end.

(** The hardware has new bytes, or a step of the process with the answer to its system call. *)
Inductive item := Entropy (bs : bytes) | Run (ok : bool).
Definition step (s : state) (i : item) : state := match i with Entropy bs => entropy bs s | Run ok => proceed ok s end.
Definition run (s : state) (l : list item) : state := fold_left step l s.

(** rng.rs 35: the call begins. *)
Definition fill_buffer (b : bytes) (k : kernel) : state := (k, mkProcess Share b false).

(** mod.rs 101-103: fill_bytes does not look at the result; 105-108: try_fill_bytes always gives Ok.  The answer for the buffer [b] if the
    call has ended after the course [l], with the kernel that is left. *)
Definition fill_bytes (b : bytes) (k : kernel) (l : list item) : option (bytes * kernel) :=
  let s := run (fill_buffer b k) l in
  match place_of (snd s) with Over _ => Some (buf (snd s), fst s) | _ => None end.

(** api/rng.rs 25-29. *)
Definition gen_uniform_u8x32 (k : kernel) (l : list item) : option (bytes * kernel) := fill_bytes (repeat 0%N 32) k l.

(** Several calls, one after the other: for each the content of its buffer and its course.  What happens between two calls counts to the
    former. *)
Fixpoint fill_all (k : kernel) (cs : list (bytes * list item)) : option (list bytes * kernel) :=
  match cs with
  | [] => Some ([], k)
  | (b, l) :: cs =>
      match fill_bytes b k l with
      | None => None
      | Some (x, k) => match fill_all k cs with None => None | Some (xs, k) => Some (x :: xs, k) end
      end
  end.
