(** What a store must do, in terms of the map from keys to values it holds. *)
From Coq Require Import Permutation.
From Verif Require Import Base.
From Verif.Kv Require Import Model.
From Verif.Store Require Import Format Model System.
Open Scope nat_scope.

Section SPEC.
Variable F : format.

(** model.rs 73-133: the effect of a call on the content (a finite map, as an association list),
    or the reason to refuse it. *)
Inductive effect (m : kv) : call -> res store_error kv -> Prop :=
| eff_transaction us : effect m (CTransaction us) (Kv.Model.transaction (limits_of F) None m us)
| eff_insert k v : effect m (CInsert k v) (Kv.Model.transaction (limits_of F) None m [UInsert k v])
| eff_remove k : effect m (CRemove k) (Kv.Model.transaction (limits_of F) None m [URemove k])
| eff_handle pos h : effect m (CRemoveHandle (pos, h)) (Ok (kv_remove m (h_key h)))
| eff_clear k : effect m (CClear k)
    (if (k <=? MAX_KEY)%N then Ok (filter (fun p => (fst p <? k)%N) m) else Err InvalidArgument)
| eff_prepare n : effect m (CPrepare n)
    (if (kv_used m + N.of_nat n <=? N.of_nat (capacity_of F))%N then Ok m else Err NoCapacity)
| eff_compact : effect m CCompact (Ok m).

(** Calls that only remove entries need no room: they work even at the end of the lifetime. *)
Definition needs_room (c : call) : bool :=
  match c with
  | CRemove _ | CRemoveHandle _ | CTransaction [] | CTransaction [URemove _] => false
  | _ => true
  end.

(** All the words ever written are counted by [lifetime] (store.rs 274-283); once the used lifetime is past
    this limit, all pages have been erased as often as allowed. *)
Definition worn_out (s : st) : Prop :=
  exists used total l, lifetime F s = (Ok (used, total), s, l) /\
    max_page_erases F * num_pages F * virt_page_size F <= used.

(** How the content may change with an event; [d] and [d'] are the device before and after. A call
    does what it says or is refused for the right reason, or for the end of the lifetime; an
    interrupted call is done or not done; nothing else changes the content, and opening the store
    never fails. *)
Inductive allowed : kv -> device -> event -> device -> kv -> Prop :=
| all_done m d c d' m' : effect m c (Ok m') -> allowed m d (Called c (Ok tt)) d' m'
| all_refused m d c e d' : effect m c (Err e) -> allowed m d (Called c (Err e)) d' m
| all_worn m d c m' s : needs_room c = true -> effect m c (Ok m') -> worn_out s ->
    allowed m d (Called c (Err NoLifetime)) (Running s) m
| all_cut_before m d c d' : allowed m d (CutDuring c) d' m
| all_cut_after m d c d' m' : effect m c (Ok m') -> allowed m d (CutDuring c) d' m'
| all_cut m d d' : allowed m d CutBetween d' m
| all_boot m d d' : allowed m d (Booted (Ok tt)) d' m
| all_cut_boot m d d' : allowed m d CutBooting d' m.

(** What an operation on the storage [g] with flash [f] may do (storage.rs 38-83, buffer.rs 218-342):
    stay within a page, turn no bit from 0 to 1 except by erasing a page, change no word that was
    already written as often as a word may be written between two erasures, and erase no page that
    was already erased as often as a page may be erased. *)
Definition respects (g : storage) (f : flash) (a : action) : Prop :=
  match a with
  | AWrite page word ws =>
      (N.of_nat page < s_num_pages g)%N /\ (N.of_nat (4 * (word + length ws)) <= s_page_size g)%N /\
      forall i, i < length ws ->
        (forall b, N.testbit (nth i ws 0%N) b = true -> N.testbit (f page (word + i)) b = true) /\
        (nth i ws 0%N <> f page (word + i) ->
           (N.of_nat (writes f page (word + i)) < s_max_word_writes g)%N)
  | AErase page =>
      (N.of_nat page < s_num_pages g)%N /\ (N.of_nat (erases f page) < s_max_page_erases g)%N
  end.
(** The flash of a device. *)
Definition flash_of (d : device) : flash := match d with Running s => fl s | Off f => f end.

(** A running store shows the content [m]: every lookup gives what the map gives, the iteration
    gives each entry once, through a handle with its key, length and value, and the capacity is the
    one of the map. *)
Definition shows_running (s : st) (m : kv) : Prop :=
  NoDup (kv_keys m) /\
  (forall k, exists l, find F k s = (Ok (kv_get m k), s, l)) /\
  (exists hs l, iter F s = (Ok hs, s, l) /\
     Permutation (map (fun h => (h_key (snd h), h_length (snd h))) hs)
                 (map (fun p => (fst p, length (snd p))) m) /\
     forall h, In h hs -> exists v l', get_value F (fst h) s = (Ok v, s, l') /\
       kv_get m (h_key (snd h)) = Some v) /\
  (exists used l, capacity F s = (Ok (used, capacity_of F), s, l) /\ N.of_nat used = kv_used m /\
     used <= capacity_of F) /\
  (exists used total l, lifetime F s = (Ok (used, total), s, l) /\ used <= total).
(** A device that is off shows [m] when opening its store shows [m]. *)
Definition shows (d : device) (m : kv) : Prop :=
  match d with
  | Running s => shows_running s m
  | Off f => exists s l, boot F f = (Ok tt, s, l) /\ shows_running s m
  end.

(** A history is right for a content [m]: the content changes as allowed with every event, and is
    what the device shows after every event. *)
Inductive right : kv -> device -> list (event * device) -> Prop :=
| right_nil m d : right m d []
| right_cons m d e d' m' t : allowed m d e d' m' -> shows d' m' -> right m' d' t ->
    right m d ((e, d') :: t).
End SPEC.
