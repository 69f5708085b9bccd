(** Vocabulary of the PIN properties: what a log of the device says about PIN entry. *)
From Verif Require Import Base Hid.Model U2f.Model Cbor.Model Ctap.Crypto Ctap.Types Ctap.Machine
  Ctap.Commands Ctap.Parse Ctap.System.

(** Everything that happened in a history, oldest first: writes to the persistent store and events,
    up to the points at which power was lost. *)
Definition trace (e : env) (h : list (op * option nat)) : list item := rev (w_log (run e h)).
(** The content of the store after a trace. *)
Definition stored (t : list item) : pers := last_write (rev t).

Definition is_compare (i : item) : bool :=
  match i with LEv (EvCompare _) => true | _ => false end.
(** The number of PIN candidates compared with the stored PIN. *)
Definition compares (t : list item) : nat := length (filter is_compare t).

(** In [t] no PIN entry is successful and the PIN stays [pin]: it is neither set nor changed nor
    removed. *)
Definition pin_quiet (pin : option (bytes * N)) (t : list item) : Prop :=
  Forall (fun i => match i with
                   | LEv (EvCompare ok) => ok = false
                   | LEv _ => True
                   | LWrite p => p_pin p = pin
                   end) t.
(** [t] lies within one power cycle. *)
Definition one_cycle (t : list item) : Prop := ~ In (LEv EvBoot) t.
