(** What the flash of a board is supposed to do for the store. *)
From Verif Require Import Base Cbor.Model Cbor.Spec Upgrade.Model.
From Verif Require Cbor.Spec.
From Verif.Store Require Import Format.
From Verif.Store Require Model.
From Verif.Flash Require Import Model.
Local Open Scope N_scope.

(** An address belongs to a range. *)
Definition within (a start len : N) : Prop := start <= a < start + len.
(** An address belongs to a location that the kernel lists for the store. *)
Definition in_store (locs : list location) (a : N) : Prop :=
  exists l, In l locs /\ l_type l = Store /\ within a (l_ptr l) (l_len l).
(** An address belongs to a location of any type. *)
Definition in_location (locs : list location) (a : N) : Prop :=
  exists l, In l locs /\ within a (l_ptr l) (l_len l).

(** The locations for the store consist of whole pages of 4096 bytes. *)
Definition whole_pages (locs : list location) : Prop :=
  forall l, In l locs -> l_type l = Store -> l_ptr l mod 4096 = 0 /\ l_len l mod 4096 = 0.
(** No two locations share an address. *)
Definition apart (locs : list location) : Prop :=
  ForallOrdPairs (fun l l' => l_ptr l + l_len l <= l_ptr l' \/ l_ptr l' + l_len l' <= l_ptr l) locs.

(** The addresses of the pages of the store, in the order in which the kernel lists the locations. *)
Definition store_pages (locs : list location) : list N :=
  flat_map (fun l => match l_type l with
                     | Store => map (fun i => l_ptr l + 4096 * N.of_nat i) (seq 0 (N.to_nat (l_len l / 4096)))
                     | Partition => []
                     end) locs.
(** The address of a byte of a page. *)
Definition place (locs : list location) (page byte : N) : N := nth (N.to_nat page) (store_pages locs) 0 + byte.

(** The driver is ready for a command. *)
Definition ready (k : kernel) : Prop := k_waiting k = false /\ k_buffer k = true.
(** Memory holds bytes. *)
Definition proper (k : kernel) : Prop := forall a, k_mem k a < 256.

(** Nothing but the contents and the counters of the range changes. *)
Definition elsewhere (k k' : kernel) (a len : N) : Prop :=
  forall x, ~ within x a len -> k_mem k' x = k_mem k x /\ k_writes k' x = k_writes k x /\ k_erases k' x = k_erases k x.

(** Writing [v] at [a]: bits are cleared where [v] has them clear, and a word counts as written iff it changes. *)
Definition wrote (k k' : kernel) (a : N) (v : bytes) : Prop :=
  elsewhere k k' a (Nlen v) /\
  (forall i, (i < length v)%nat -> k_mem k' (a + N.of_nat i) = N.land (k_mem k (a + N.of_nat i)) (nth i v 0)) /\
  (forall x, k_erases k' x = k_erases k x) /\
  (forall i, (i < length v)%nat ->
     k_writes k' (a + N.of_nat i) =
       if (i mod 4 =? 0)%nat && negb (get_word (k_mem k') (a + N.of_nat i) =? get_word (k_mem k) (a + N.of_nat i))
       then S (k_writes k (a + N.of_nat i)) else k_writes k (a + N.of_nat i)).
(** Erasing the page at [a]. *)
Definition erased (k k' : kernel) (a : N) : Prop :=
  elsewhere k k' a 4096 /\
  (forall x, within x a 4096 -> k_mem k' x = 255 /\ k_writes k' x = 0%nat) /\
  (forall x, k_erases k' x = if x =? a then S (k_erases k x) else k_erases k x).

(** The flash of a store with this many pages (Store/Model.v), and the one of a board, agree on the pages of
    the store. *)
Definition agrees (locs : list location) (k : kernel) (f : Store.Model.flash) : Prop :=
  forall p, (p < length (store_pages locs))%nat ->
    Store.Model.erases f p = k_erases k (place locs (N.of_nat p) 0) /\
    forall x, (x < 1024)%nat ->
      Store.Model.cells f p x = get_word (k_mem k) (place locs (N.of_nat p) (4 * N.of_nat x)) /\
      Store.Model.writes f p x = k_writes k (place locs (N.of_nat p) (4 * N.of_nat x)).
(** The same, but only for what can be read. *)
Definition reads_as (locs : list location) (m : mem) (f : Store.Model.flash) : Prop :=
  forall p x, (p < length (store_pages locs))%nat -> (x < 1024)%nat ->
    Store.Model.cells f p x = get_word m (place locs (N.of_nat p) (4 * N.of_nat x)).

(** An action of the store, done through the storage of the board. *)
Definition perform (locs : list location) (t : tock_storage) (k : kernel) (a : Store.Model.action)
  : kernel * res storage_error unit :=
  match a with
  | Store.Model.AWrite page word ws => tock_write locs t k (N.of_nat page) (4 * N.of_nat word) (bytes_of ws)
  | Store.Model.AErase page => tock_erase locs t k (N.of_nat page)
  end.
(** A list of actions, one after the other, until one fails. *)
Fixpoint perform_all (locs : list location) (t : tock_storage) (k : kernel) (l : list Store.Model.action)
  : kernel * res storage_error unit :=
  match l with
  | [] => (k, Ok tt)
  | a :: l' => match perform locs t k a with
               | (k', Ok _) => perform_all locs t k' l'
               | (k', Err e) => (k', Err e)
               end
  end.

(** The numbers that the storage of a board gives to the store. *)
Definition numbers (t : tock_storage) : storage :=
  mkStorage (t_word_size t) (t_page_size t) (t_num_pages t) (t_max_word_writes t) (t_max_page_erases t).

(** Power is lost while the driver writes a slice: some words are written, one may be written in part, the
    others are as before. *)
Inductive write_cut : kernel -> N -> bytes -> mem -> Prop :=
| cut_before k ptr v : write_cut k ptr v (k_mem k)
| cut_word k ptr b0 b1 b2 b3 rest m :
    (forall x, ~ within x ptr 4 -> m x = k_mem k x) ->
    (forall x i, within x ptr 4 -> N.testbit (m x) i = N.testbit (k_mem k x) i \/
       N.testbit (m x) i = N.testbit (k_mem (write_words k ptr [b0; b1; b2; b3]) x) i) ->
    write_cut k ptr (b0 :: b1 :: b2 :: b3 :: rest) m
| cut_after k ptr b0 b1 b2 b3 rest m :
    write_cut (write_words k ptr [b0; b1; b2; b3]) (ptr + 4) rest m ->
    write_cut k ptr (b0 :: b1 :: b2 :: b3 :: rest) m.
(** Power is lost while the controller erases a page: some bits are set already. *)
Definition erase_cut (k : kernel) (a : N) (m : mem) : Prop :=
  (forall x, ~ within x a 4096 -> m x = k_mem k x) /\
  (forall x i, within x a 4096 -> N.testbit (m x) i = N.testbit (k_mem k x) i \/ N.testbit (m x) i = N.testbit 255 i).
(** Power is lost during an action of the store, or just before it. *)
Inductive action_cut (locs : list location) (k : kernel) : Store.Model.action -> mem -> Prop :=
| action_cut_write page word ws m :
    write_cut k (place locs (N.of_nat page) (4 * N.of_nat word)) (bytes_of ws) m ->
    action_cut locs k (Store.Model.AWrite page word ws) m
| action_cut_erase page m :
    erase_cut k (place locs (N.of_nat page) 0) m -> action_cut locs k (Store.Model.AErase page) m.

(** ** What an application may do *)

(** Commands of an application: number, address, length, and the slice that is allowed with it. *)
Definition commands (locs : list location) (k : kernel) (l : list (N * N * N * bytes)) : kernel :=
  fold_left (fun k x => let '(cmd, ptr, len, allow) := x in fst (command locs k cmd ptr len allow)) l k.
(** The flash is used: by a command of the application, by the store, or by a vendor message from the host. *)
Inductive use :=
| UCommand (cmd ptr len : N) (allow : bytes)
| UWrite (page byte : N) (v : bytes)
| UErase (page : N)
| UMessage (b : bytes).
Definition after (c : uprims) (locs : list location) (t : tock_storage) (u : option upgrade) (k : kernel) (x : use) : kernel :=
  match x with
  | UCommand cmd ptr len allow => fst (command locs k cmd ptr len allow)
  | UWrite page byte v => fst (tock_write locs t k page byte v)
  | UErase page => fst (tock_erase locs t k page)
  | UMessage b => fst (k_vendor_message c locs k u b)
  end.
Definition uses (c : uprims) (locs : list location) (t : tock_storage) (u : option upgrade) (k : kernel) (l : list use) : kernel :=
  fold_left (after c locs t u) l k.
(** Uses by the code of the repository only. *)
Definition own (x : use) : Prop := match x with UCommand _ _ _ _ => False | _ => True end.

(** A message that carries data for an upgrade. *)
Definition upgrade_request (offset : N) (data hash : bytes) : bytes :=
  0x42 :: Cbor.Spec.enc (Cbor.Model.VMap [(Cbor.Model.VUnsigned 1, Cbor.Model.VUnsigned offset);
                                         (Cbor.Model.VUnsigned 2, Cbor.Model.VBytes data);
                                         (Cbor.Model.VUnsigned 3, Cbor.Model.VBytes hash)]).
(** The data of a message, if there is any, goes to a multiple of 4 bytes and consists of whole words, at most a page. *)
Definition word_wise (b : bytes) : Prop :=
  forall rest v offset data hash, b = 0x42 :: rest -> Cbor.Model.cbor_read 32 rest = Some v ->
    parse_upgrade v = Ok (offset, data, hash) ->
    offset mod 4 = 0 /\ Nlen data mod 4 = 0 /\ Nlen data <= 4096.
