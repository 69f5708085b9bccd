(** The flash of the boards: the kernel's driver, the library for applications, and the storage that
    the persistent store and the upgrade are built on.
    Sources: patches/tock/06-persistent-storage.patch (the driver in chips/nrf52/src/nvmc.rs and
    fits_in_storage_location in kernel/src/process_standard.rs; lines are those of the patch),
    boards/nordic/nrf52840_dongle_opensk/src/main.rs (the system call filter; the other boards have the
    same), third_party/libtock-drivers/src/storage.rs, src/env/tock/storage.rs and
    src/env/tock/storage_helper.rs.

    Simplifications. There is one application. usize has 32 bits, and addresses are unbounded numbers
    here; locations are assumed to end within the address space where this matters. The driver
    waits for the flash controller, which is taken to be ready in the end. *)
From Verif Require Import Base Cbor.Model Ctap.Crypto Ctap.Types Ctap.Machine Ctap.Parse Upgrade.Model.
From Verif.Store Require Format.
Local Open Scope N_scope.

(** ** The kernel *)

(** The kernel's flash: its contents, how often each word (by its address) was written since its page was
    erased, and how often each page (by its address) was erased; the counts are those of the
    hardware, and nobody reads them. Patch 122-129: the application that waits for a callback, and
    whether the driver has its buffer. *)
Record kernel := mkKernel {
  k_mem : mem;
  k_writes : N -> nat;
  k_erases : N -> nat;
  k_waiting : bool;
  k_buffer : bool
}.
Definition set_waiting (k : kernel) (b : bool) : kernel :=
  mkKernel (k_mem k) (k_writes k) (k_erases k) b (k_buffer k).
Definition set_buffer (k : kernel) (b : bool) : kernel :=
  mkKernel (k_mem k) (k_writes k) (k_erases k) (k_waiting k) b.

(** The errors the driver and the filter give. *)
Inductive code := INVAL | BUSY | RESERVE | NOSUPPORT.

(** Patch 24-30. *)
Definition WORD_SIZE : N := 4.
Definition MAX_WORD_WRITES : N := 2.
Definition MAX_PAGE_ERASES : N := 10000.
(** boards/nordic/nrf52840_dongle_opensk/src/main.rs 94: APP_FLASH_BUFFER. *)
Definition BUFFER_LEN : N := 0x1000.

(** Patch 136-139: is_write_needed. *)
Definition is_write_needed (old new : N) : bool := negb (N.land old new =? old).

(** Reading the word at an address (VolatileCell::get). *)
Definition get_word (m : mem) (a : N) : N := Format.word_of (m a) (m (a + 1)) (m (a + 2)) (m (a + 3)).
(** Writing a word (VolatileCell::set) while the controller allows writes: bits can only be cleared, and
    the write counts. *)
Definition set_word (k : kernel) (a v : N) : kernel :=
  let w := N.land (get_word (k_mem k) a) v in
  mkKernel (fun x => if inside x a 4 then nth (N.to_nat (x - a)) (Format.word_bytes w) 0 else k_mem k x)
           (fun x => if x =? a then S (k_writes k x) else k_writes k x)
           (k_erases k) (k_waiting k) (k_buffer k).
(** Patch 186-193: the loop of write_slice over the chunks of a slice of whole words. *)
Fixpoint write_words (k : kernel) (ptr : N) (slice : bytes) : kernel :=
  match slice with
  | b0 :: b1 :: b2 :: b3 :: rest =>
      let val := Format.word_of b0 b1 b2 b3 in
      let k' := if is_write_needed (get_word (k_mem k) ptr) val then set_word k ptr val else k in
      write_words k' (ptr + 4) rest
  | _ => k
  end.
(** Patch 181-199: write_slice. *)
Definition driver_write (k : kernel) (ptr : N) (slice : bytes) : kernel * res code unit :=
  if negb (N.land ptr (WORD_SIZE - 1) =? 0) || negb (N.land (Nlen slice) (WORD_SIZE - 1) =? 0) then (k, Err INVAL)
  else (write_words k ptr slice, Ok tt).
(** Patch 208-217: erase_page; the flash controller erases the page of a number. *)
Definition driver_erase (k : kernel) (ptr : N) : kernel * res code unit :=
  if negb (N.land ptr (PAGE_SIZE - 1) =? 0) then (k, Err INVAL)
  else
    let page := ptr / PAGE_SIZE * PAGE_SIZE in
    (mkKernel (fun x => if inside x page PAGE_SIZE then 255 else k_mem k x)
              (fun x => if inside x page PAGE_SIZE then 0%nat else k_writes k x)
              (fun x => if x =? page then S (k_erases k x) else k_erases k x)
              (k_waiting k) (k_buffer k), Ok tt).
(** Patch 220-228: the deferred call, which runs after a successful command and schedules the callback. *)
Definition deferred (k : kernel) : kernel := set_waiting k false.

(** Patch 251-290: the command that writes the slice the application allows. *)
Definition command_write (k : kernel) (ptr : N) (allow : bytes) : kernel * res code unit :=
  if negb (k_buffer k) then (k, Err RESERVE)
  else
    let k := set_buffer k false in
    if BUFFER_LEN <? Nlen allow then (k, Err INVAL)
    else if k_waiting k then (k, Err BUSY)
    else
      let k := set_waiting k true in
      let '(k, r) := driver_write k ptr allow in
      (set_buffer k true, r).
(** Patch 292-301: the command that erases a page. *)
Definition command_erase (k : kernel) (ptr len : N) : kernel * res code unit :=
  if negb (len =? PAGE_SIZE) then (k, Err INVAL)
  else if k_waiting k then (k, Err BUSY)
  else driver_erase (set_waiting k true) ptr.

(** Patch 491-510: fits_in_storage_location. *)
Definition fits_in_storage_location (locs : list location) (ptr len : N) : bool :=
  existsb (fun l => (l_ptr l <=? ptr) && ((len <=? l_len l) && (ptr - l_ptr l <=? l_len l - len))) locs.
(** main.rs 158-175: filter_syscall, then patch 235-305: the commands that modify the flash. A command is
    given with the slice that the application allows; after a success the callback is awaited. *)
Definition command (locs : list location) (k : kernel) (cmd ptr len : N) (allow : bytes) : kernel * res code unit :=
  if ((cmd =? 2) || (cmd =? 3)) && negb (fits_in_storage_location locs ptr len) then (k, Err INVAL)
  else
    let '(k, r) :=
      if cmd =? 2 then command_write k ptr allow
      else if cmd =? 3 then command_erase k ptr len
      else (k, Err NOSUPPORT) in
    match r with Ok _ => (deferred k, Ok tt) | Err e => (k, Err e) end.

(** ** libtock-drivers storage.rs *)

(** 94-107, 109-119: block_command and write_slice. The callback always has 0 as its first argument (patch
    224), so that a command that was accepted succeeds. *)
Definition libtock_write (locs : list location) (k : kernel) (ptr : N) (value : bytes) : kernel * res code unit :=
  command locs k 2 ptr (Nlen value) value.
(** 121-128: erase_page. *)
Definition libtock_erase (locs : list location) (k : kernel) (ptr page_length : N) : kernel * res code unit :=
  command locs k 3 ptr page_length [].

(** ** TockStorage *)

(** src/env/tock/storage.rs 34-36: to_storage_result. *)
Definition to_storage_result (r : res code unit) : res storage_error unit :=
  match r with Ok _ => Ok tt | Err _ => Err CustomError end.
(** storage_helper.rs 29-45: find_slice, the address of the slice. *)
Fixpoint find_slice (slices : list mod_range) (start length : N) : res storage_error N :=
  match slices with
  | [] => Err OutOfBounds
  | s :: slices' =>
      if mr_length s <=? start then find_slice slices' (start - mr_length s) length
      else if mr_length s <? start + length then Err OutOfBounds
      else Ok (mr_start s + start)
  end.

(** storage.rs 42-51. *)
Record tock_storage := mkTock {
  t_word_size : N; t_page_size : N; t_num_pages : N; t_max_word_writes : N; t_max_page_erases : N;
  t_locations : list mod_range
}.
(** 84-99: the loop of new over the locations: the number of pages and the slices. *)
Fixpoint tock_scan (page_size : N) (locs : list location) (n : N) (slices : list mod_range)
  : res storage_error (N * list mod_range) :=
  match locs with
  | [] => Ok (n, slices)
  | l :: locs' =>
      match l_type l with
      | Partition => tock_scan page_size locs' n slices
      | Store =>
          if negb (is_aligned page_size (l_ptr l)) || negb (is_aligned page_size (l_len l)) then Err CustomError
          else tock_scan page_size locs' (n + l_len l / page_size) (slices ++ [mkRange (l_ptr l) (l_len l)])
      end
  end.
(** 63-101: TockStorage::new, on a kernel that gives these numbers (patch 245-248) and locations. *)
Definition tock_new_with (word_size page_size max_word_writes max_page_erases : N) (locs : list location)
  : res storage_error tock_storage :=
  if negb (is_power_of_two word_size) || negb (is_power_of_two page_size) || negb (is_aligned word_size page_size)
  then Err CustomError
  else
    r <- tock_scan page_size locs 0 [] ;;
    let '(n, slices) := r in
    Ok (mkTock word_size page_size n max_word_writes max_page_erases slices).
Definition tock_new (locs : list location) : res storage_error tock_storage :=
  tock_new_with WORD_SIZE PAGE_SIZE MAX_WORD_WRITES MAX_PAGE_ERASES locs.

(** libraries/persistent_store/src/storage.rs 94-114: StorageIndex::is_valid and range, its start. *)
Definition index_start (t : tock_storage) (page byte length : N) : res storage_error N :=
  if (page <? t_num_pages t) && ((length <=? t_page_size t) && (byte <=? t_page_size t - length))
  then Ok (page * t_page_size t + byte) else Err OutOfBounds.
(** storage.rs 135-138: read_slice, the address of the slice. *)
Definition tock_slice (t : tock_storage) (page byte length : N) : res storage_error N :=
  start <- index_start t page byte length ;; find_slice (t_locations t) start length.
Definition tock_read (t : tock_storage) (k : kernel) (page byte : N) (length : nat) : res storage_error bytes :=
  a <- tock_slice t page byte (N.of_nat length) ;; Ok (read (k_mem k) a length).
(** 140-146: write_slice. *)
Definition tock_write (locs : list location) (t : tock_storage) (k : kernel) (page byte : N) (value : bytes)
  : kernel * res storage_error unit :=
  if negb (is_aligned (t_word_size t) byte) || negb (is_aligned (t_word_size t) (Nlen value)) then (k, Err NotAligned)
  else match tock_slice t page byte (Nlen value) with
  | Err e => (k, Err e)
  | Ok ptr => let '(k', r) := libtock_write locs k ptr value in (k', to_storage_result r)
  end.
(** 148-153: erase_page. *)
Definition tock_erase (locs : list location) (t : tock_storage) (k : kernel) (page : N) : kernel * res storage_error unit :=
  match tock_slice t page 0 (t_page_size t) with
  | Err e => (k, Err e)
  | Ok ptr => let '(k', r) := libtock_erase locs k ptr (t_page_size t) in (k', to_storage_result r)
  end.

(** ** Upgrades on the kernel *)

(** storage.rs 305-307: erasing pages. *)
Fixpoint k_erase_pages (locs : list location) (k : kernel) (pages : list N) (page_size : N) : kernel * res code unit :=
  match pages with
  | [] => (k, Ok tt)
  | a :: pages' =>
      match libtock_erase locs k a page_size with
      | (k', Ok _) => k_erase_pages locs k' pages' page_size
      | (k', Err e) => (k', Err e)
      end
  end.
(** storage.rs 289-319: write_bundle. *)
Definition k_write_bundle (c : uprims) (locs : list location) (k : kernel) (u : upgrade) (offset : N) (data : bytes)
  : kernel * res storage_error unit :=
  if Nlen data =? 0 then (k, Err OutOfBounds)
  else match find_address (u_partition u) offset (Nlen data) with
  | None => (k, Err OutOfBounds)
  | Some address =>
      let write_range := mkRange address (Nlen data) in
      let checked :=
        has <- contains_metadata u write_range ;;
        if has : bool then
          check_metadata c (k_mem k) u (up_key c)
            (slice data (mr_start (u_metadata u) - address) (mr_length (u_metadata u)))
        else Ok tt in
      match checked with
      | Err e => (k, Err e)
      | Ok _ =>
          match k_erase_pages locs k (aligned_iter write_range (u_page_size u)) (u_page_size u) with
          | (k1, Err _) => (k1, Err CustomError)
          | (k1, Ok _) =>
              match libtock_write locs k1 address data with
              | (k2, Err _) => (k2, Err CustomError)
              | (k2, Ok _) =>
                  if negb (bytes_eqb (read (k_mem k2) address (length data)) data) then (k2, Err CustomError)
                  else if Nlen data =? part_length (u_partition u) - offset then
                    (k2, check_partition_hash c (k_mem k2) u
                           (read (k_mem k2) (mr_start (u_metadata u)) (N.to_nat (mr_length (u_metadata u)))))
                  else (k2, Ok tt)
              end
          end
      end
  end.
(** commands.rs 151-167: process_vendor_upgrade. *)
Definition k_vendor_upgrade (c : uprims) (locs : list location) (k : kernel) (u : option upgrade)
    (offset : N) (data hash : bytes) : kernel * res status unit :=
  if negb (bytes_eqb hash (up_sha256 c data)) then (k, Err INTEGRITY_FAILURE)
  else match u with
  | None => (k, Err INVALID_COMMAND)
  | Some u =>
      let '(k', r) := k_write_bundle c locs k u offset data in
      (k', match r with Ok _ => Ok tt | Err _ => Err INVALID_PARAMETER end)
  end.
(** commands.rs 42-81: process_vendor_command for the upgrade command 0x42. None: not a command of this model. *)
Definition k_vendor_message (c : uprims) (locs : list location) (k : kernel) (u : option upgrade) (b : bytes)
  : kernel * option bytes :=
  match b with
  | [] => (k, None)
  | cmd :: rest =>
      if cmd =? 0x42 then
        match (v <- (match cbor_read 32 rest with Some v => Ok v | None => Err INVALID_CBOR end) ;; parse_upgrade v) with
        | Err e => (k, Some [status_code e])
        | Ok (offset, data, hash) =>
            let '(k', r) := k_vendor_upgrade c locs k u offset data hash in
            (k', Some [match r with Ok _ => 0 | Err e => status_code e end])
        end
      else (k, snd (vendor_message c (fun _ => None) (k_mem k) u b))
  end.
