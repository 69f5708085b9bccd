(** The interface of the store and its life on a device that can lose power at any time. *)
From Verif Require Import Base.
From Verif.Kv Require Import Model.
From Verif.Store Require Import Format Model.
Open Scope nat_scope.

Section SYSTEM.
Variable F : format.

(** store.rs 264-272: capacity; the used and the total capacity. *)
Definition capacity : M (nat * nat) := u <~ used F ;; ret (u, capacity_of F).
(** store.rs 279-283: lifetime; the used and the total lifetime. *)
Definition lifetime : M (nat * nat) := t <~ reads (tail F) ;; ret (t, total_lifetime F).
(** store.rs 448-452: remove_handle, for a handle given by its position and the length of its
    value; 677-683: check_handle. *)
Definition remove_handle (pos len : nat) : M unit :=
  head <~ the_head ;;
  if pos <? head then fail InvalidArgument
  else _ <~ delete_pos F pos (to_words len) ;; remove_entry pos.

(** The calls that modify the store. A handle (store.rs 123-137) is a position with the key and
    the length of the entry there. *)
Inductive call :=
| CTransaction (us : list update) | CInsert (key : N) (value : bytes) | CRemove (key : N)
| CRemoveHandle (handle : nat * header) | CClear (min_key : N) | CPrepare (length : nat) | CCompact.
(** store.rs 294-452. A compaction (store.rs 707-719) is not a public call, but calls do them. *)
Definition do_call (c : call) : M unit :=
  match c with
  | CTransaction us => transaction F us
  | CInsert k v => insert F k v
  | CRemove k => remove F k
  | CRemoveHandle (pos, h) => remove_handle pos (h_length h)
  | CClear k => clear F k
  | CPrepare n => prepare F n
  | CCompact => compact F
  end.
(** The values a Rust program can give are byte strings. Handles stay valid until the next call
    that modifies the store (store.rs 125-126): they are those the iteration of the present store
    returns. *)
Definition call_ok (s : st) (c : call) : Prop :=
  match c with
  | CTransaction us => Forall (fun u => match u with UInsert _ v => bytes_ok v = true | URemove _ => True end) us
  | CInsert _ v => bytes_ok v = true
  | CRemoveHandle h => exists hs l, iter F s = (Ok hs, s, l) /\ In h hs
  | _ => True
  end.

(** A device is running, with the store in memory, or off, with only its flash. *)
Inductive device := Running (s : st) | Off (f : flash).
Inductive event :=
| Called (c : call) (r : res store_error unit)   (** a call returned [r] *)
| CutDuring (c : call)                           (** power was lost during a call *)
| CutBetween                                     (** power was lost between calls *)
| Booted (r : res store_error unit)              (** the store was opened with result [r] *)
| CutBooting.                                    (** power was lost while opening the store *)

(** Power loss during an execution happens during one of the writes and erases it performs, and
    leaves some of the bits of that operation modified (lib.rs 108-130). *)
Definition cut (l : log) (f' : flash) : Prop :=
  exists f a, In (f, a) l /\ interrupted F f a f'.

(** [boot] is Store::new (store.rs 223-238). *)
Inductive step : device -> event -> device -> Prop :=
| step_call s c r s' l : call_ok s c -> do_call c s = (r, s', l) ->
    step (Running s) (Called c r) (Running s')
| step_cut_call s c r s' l f' : call_ok s c -> do_call c s = (r, s', l) -> cut l f' ->
    step (Running s) (CutDuring c) (Off f')
| step_cut s : step (Running s) CutBetween (Off (fl s))
| step_boot f s l : boot F f = (Ok tt, s, l) -> step (Off f) (Booted (Ok tt)) (Running s)
| step_boot_fails f e s l : boot F f = (Err e, s, l) -> step (Off f) (Booted (Err e)) (Off (fl s))
| step_cut_boot f r s l f' : boot F f = (r, s, l) -> cut l f' -> step (Off f) CutBooting (Off f').

(** Histories: the events with the device after each of them. *)
Inductive history : device -> list (event * device) -> Prop :=
| history_nil d : history d []
| history_cons d e d' t : step d e d' -> history d' t -> history d ((e, d') :: t).

(** A new device is off and its flash is erased and was never used (buffer.rs 97-112). *)
Definition blank_flash : flash := mkFlash (fun _ _ => ERASED) (fun _ _ => 0) (fun _ => 0).
Definition reachable (d : device) : Prop :=
  d = Off blank_flash \/ exists t e, history (Off blank_flash) (t ++ [(e, d)]).
End SYSTEM.
