(** Firmware upgrades and the bootloader.
    Sources: src/env/tock/storage_helper.rs 46-215, src/env/tock/upgrade_helper.rs,
    src/env/tock/storage.rs 156-334, src/env/tock/commands.rs 57-181 and 239-298,
    bootloader/src/main.rs, and the flash driver in patches/tock/06-persistent-storage.patch. *)
From Verif Require Import Base Cbor.Model Ctap.Crypto Ctap.Types Ctap.Machine Ctap.Parse.
Local Open Scope N_scope.

(** ** Ranges and partitions *)

(** storage_helper.rs 58-62: ModRange, the interval from start of the given length. *)
Record mod_range := mkRange { mr_start : N; mr_length : N }.
(** 71-73: new_empty. *)
Definition range_empty : mod_range := mkRange 0 0.
(** 86-88: is_empty. *)
Definition is_empty (r : mod_range) : bool := mr_length r =? 0.

(** usize on the boards. *)
Definition USIZE : N := 2 ^ 32.

(** 96-117: ModRange::append, the new range and whether it was successful. *)
Definition range_append (r other : mod_range) : mod_range * bool :=
  if is_empty r then (other, true)
  else if is_empty other then (r, false)
  else if mr_start other <=? mr_start r then (r, false)
  else if negb (mr_length r =? mr_start other - mr_start r) then (r, false)
  else if mr_length r + mr_length other <? USIZE then (mkRange (mr_start r) (mr_length r + mr_length other), true)
  else (r, false).

(** 120-122: starts_inside. *)
Definition starts_inside (self r : mod_range) : bool :=
  negb (is_empty r) && (mr_start r <=? mr_start self) && (mr_start self - mr_start r <? mr_length r).
(** 127-129: intersects_range. *)
Definition intersects_range (self r : mod_range) : bool := starts_inside self r || starts_inside r self.
(** 134-139: contains_range. *)
Definition contains_range (self r : mod_range) : bool :=
  is_empty r || ((mr_start self <=? mr_start r) && (mr_length r <=? mr_length self) &&
                 (mr_start r - mr_start self <=? mr_length self - mr_length r)).

(** 142-149: aligned_iter.  The iterator takes length numbers from start (fewer at the end of the
    address space), skips up to the first multiple and then steps by the modulus. *)
Fixpoint from_step (a m : N) (k : nat) : list N :=
  match k with O => [] | S k' => a :: from_step (a + m) m k' end.
Definition aligned_iter (r : mod_range) (m : N) : list N :=
  let taken := N.min (mr_length r) (USIZE - mr_start r) in
  let skipped := (m - mr_start r mod m) mod m in
  from_step (mr_start r + skipped) m (N.to_nat ((taken - skipped + (m - 1)) / m)).

(** 152-155: Partition, its ranges. *)
Definition partition := list mod_range.
(** 158-161: length. *)
Definition part_length (p : partition) : N := fold_right (fun r n => mr_length r + n) 0 p.
(** 166-181: Partition::append. *)
Fixpoint part_append (p : partition) (r : mod_range) : partition * bool :=
  match p with
  | [] => ([r], true)
  | [l] =>
      if (mr_start r <=? mr_start l) || (mr_start r - mr_start l <? mr_length l) then ([l], false)
      else let '(l', b) := range_append l r in if b then ([l'], true) else ([l; r], true)
  | x :: p' => let '(q, b) := part_append p' r in (x :: q, b)
  end.
(** 187-199: find_address. *)
Fixpoint find_address (p : partition) (offset len : N) : option N :=
  match p with
  | [] => None
  | r :: p' =>
      if offset <? mr_length r then
        if len <=? mr_length r - offset then Some (mr_start r + offset) else None
      else find_address p' (offset - mr_length r) len
  end.
(** 201-214: ranges_from. *)
Fixpoint ranges_from (p : partition) (start : N) : list mod_range :=
  match p with
  | [] => []
  | r :: p' =>
      if start <=? mr_start r then r :: ranges_from p' start
      else let offset := start - mr_start r in
           if offset <? mr_length r then mkRange start (mr_length r - offset) :: ranges_from p' start
           else ranges_from p' start
  end.

(** 50-53: is_aligned. *)
Definition is_aligned (block address : N) : bool := N.land address (block - 1) =? 0.
(** core: usize::is_power_of_two. *)
Definition is_power_of_two (n : N) : bool := negb (n =? 0) && (n =? 2 ^ N.log2 n).

(** ** Flash *)

(** The contents of the address space, one byte per address. *)
Definition mem := N -> N.
Fixpoint read (m : mem) (a : N) (n : nat) : bytes :=
  match n with O => [] | S n' => m a :: read m (a + 1) n' end.
Definition inside (a start len : N) : bool := (start <=? a) && (a <? start + len).

(** What becomes of a call of the flash driver: it is completed, or it fails or is interrupted by a loss
    of power and leaves anything in the range it works on.  Calls that the driver refuses, because they
    are not aligned to words or because an earlier call is pending, are failures that leave the range
    as it was. *)
Definition fault := option mem.
(** 06-persistent-storage.patch 208-217, nRF52840: erasing a page sets its bits. *)
Definition erase_page (f : fault) (m : mem) (a len : N) : mem * bool :=
  match f with
  | None => (fun x => if inside x a len then 255 else m x, true)
  | Some junk => (fun x => if inside x a len then junk x else m x, false)
  end.
(** 06-persistent-storage.patch 181-200: writing can only clear bits.  Words are not modelled: a word
    whose write is skipped keeps its value, which is what clearing gives. *)
Definition write_slice (f : fault) (m : mem) (a : N) (data : bytes) : mem * bool :=
  match f with
  | None => (fun x => if inside x a (Nlen data) then N.land (m x) (nth (N.to_nat (x - a)) data 0) else m x, true)
  | Some junk => (fun x => if inside x a (Nlen data) then junk x else m x, false)
  end.

(** ** TockUpgradeStorage *)

Inductive storage_error := NotAligned | OutOfBounds | CustomError.

(** storage.rs 156-167. *)
Record upgrade := mkUpgrade {
  u_page_size : N;
  u_partition : partition;
  u_metadata : mod_range;
  u_running : mod_range;
  u_identifier : N
}.
(** 176-178. *)
Definition METADATA_ADDRESS : N := 0x4000.
Definition PARTITION_ADDRESS_A : N := 0x20000.
Definition PARTITION_ADDRESS_B : N := 0x60000.

(** What the kernel tells about its storage locations (libtock-drivers storage.rs 146-160). *)
Inductive storage_type := Store | Partition.
Record location := mkLocation { l_type : storage_type; l_ptr : N; l_len : N }.

(** storage.rs 208-232: the loop over the locations: whether there is metadata, and the firmware. *)
Fixpoint scan (page_size : N) (locs : list location) (meta : bool) (fw : mod_range)
  : res storage_error (bool * mod_range) :=
  match locs with
  | [] => Ok (meta, fw)
  | l :: locs' =>
      match l_type l with
      | Store => scan page_size locs' meta fw
      | Partition =>
          if negb (is_aligned page_size (l_ptr l)) || negb (is_aligned page_size (l_len l)) then Err CustomError
          else if l_ptr l =? METADATA_ADDRESS then scan page_size locs' true fw
          else let '(fw', b) := range_append fw (mkRange (l_ptr l) (l_len l)) in
               if b then scan page_size locs' meta fw' else Err NotAligned
      end
  end.

(** storage.rs 194-250: TockUpgradeStorage::new.  The system calls are assumed to succeed. *)
Definition upgrade_new (page_size : N) (locs : list location) : res storage_error upgrade :=
  if negb (is_power_of_two page_size) then Err CustomError
  else
    r <- scan page_size locs false range_empty ;;
    let '(meta, fw) := r in
    if is_empty fw || negb meta then Err CustomError
    else
      let first := mkRange METADATA_ADDRESS page_size in
      let second := mkRange (METADATA_ADDRESS + page_size) page_size in
      let on_b := mr_start fw =? PARTITION_ADDRESS_B in
      let metadata := if on_b then second else first in
      let running := if on_b then first else second in
      let identifier := if on_b then PARTITION_ADDRESS_B else PARTITION_ADDRESS_A in
      let '(p1, b1) := part_append [] metadata in
      if negb b1 then Err NotAligned
      else
        let '(p2, b2) := part_append p1 fw in
        if negb b2 then Err NotAligned
        else Ok (mkUpgrade page_size p2 metadata running identifier).

(** storage.rs 260-270: contains_metadata. *)
Definition contains_metadata (u : upgrade) (r : mod_range) : res storage_error bool :=
  if intersects_range r (u_metadata u) then
    if contains_range r (u_metadata u) then Ok true else Err NotAligned
  else Ok false.

(** upgrade_helper.rs 30: METADATA_SIGN_OFFSET, 54: METADATA_LEN. *)
Definition METADATA_SIGN_OFFSET : N := 0x800.
Definition METADATA_LEN : N := 0x1000.

(** byteorder LittleEndian::read_u32, read_u64. *)
Definition le (l : bytes) : N := fold_right (fun b n => b + 256 * n) 0 l.
(** A subslice [&d[start..][..len]]. *)
Definition slice (d : bytes) (start len : N) : bytes := firstn (N.to_nat len) (skipn (N.to_nat start) d).
(** 77-79: parse_metadata_hash, 82-84: parse_metadata_version. *)
Definition metadata_hash (d : bytes) : bytes := slice d 0 32.
Definition metadata_version (d : bytes) : N := le (slice d METADATA_SIGN_OFFSET 8).
(** 63: the address that the metadata is for; 71: the signature. *)
Definition metadata_address (d : bytes) : N := le (slice d (METADATA_SIGN_OFFSET + 8) 4).
Definition metadata_signature (d : bytes) : bytes := slice d 32 64.

(** The cryptographic functions that are called: SHA-256, the parsers of signatures and keys, the
    verification of a signature over a hash, and the public key that is compiled in. *)
Record uprims := mkUprims {
  up_sha256 : bytes -> bytes;
  up_signature_ok : bytes -> bool;
  up_point_ok : bytes -> bytes -> bool;
  up_verify : bytes -> bytes -> bytes -> bytes -> bool;
  up_key : bytes
}.

(** upgrade_helper.rs 89-107: verify_signature. *)
Definition verify_signature (c : uprims) (sig key hash : bytes) : res storage_error unit :=
  if negb (up_signature_ok c sig) then Err CustomError
  else if negb (Nlen key =? 65) || negb (nth 0 key 0 =? 4) then Err CustomError
  else
    let x := slice key 1 32 in
    let y := slice key 33 32 in
    if negb (up_point_ok c x y) then Err CustomError
    else if negb (up_verify c x y hash sig) then Err CustomError
    else Ok tt.

(** storage.rs 325-333: running_firmware_version. *)
Definition running_version (m : mem) (u : upgrade) : N :=
  metadata_version (read m (mr_start (u_running u)) (N.to_nat (mr_length (u_running u)))).

(** upgrade_helper.rs 44-74: check_metadata. *)
Definition check_metadata (c : uprims) (m : mem) (u : upgrade) (key metadata : bytes) : res storage_error unit :=
  if negb (Nlen metadata =? METADATA_LEN) then Err CustomError
  else if metadata_version metadata <? running_version m u then Err CustomError
  else if negb (metadata_address metadata =? u_identifier u) then Err CustomError
  else verify_signature c (metadata_signature metadata) key (metadata_hash metadata).

(** storage.rs 273-287: check_partition_hash.  The hash of several updates is taken to be that of the
    concatenation (proved for the software implementation of SHA-256 as property C44). *)
Definition partition_bytes (m : mem) (u : upgrade) : bytes :=
  flat_map (fun r => read m (mr_start r) (N.to_nat (mr_length r)))
    (ranges_from (u_partition u) (mr_start (u_metadata u) + METADATA_SIGN_OFFSET)).
Definition check_partition_hash (c : uprims) (m : mem) (u : upgrade) (metadata : bytes) : res storage_error unit :=
  if bytes_eqb (up_sha256 c (partition_bytes m u)) (metadata_hash metadata) then Ok tt else Err CustomError.

(** storage.rs 305-307: erasing pages; the number of the next driver call is threaded through. *)
Fixpoint erase_pages (flt : nat -> fault) (n : nat) (m : mem) (pages : list N) (page_size : N) : mem * bool * nat :=
  match pages with
  | [] => (m, true, n)
  | a :: pages' =>
      let '(m', ok) := erase_page (flt n) m a page_size in
      if ok then erase_pages flt (S n) m' pages' page_size else (m', false, S n)
  end.

(** storage.rs 289-319: write_bundle.  flt n is what becomes of its n-th call of the flash driver. *)
Definition write_bundle (c : uprims) (flt : nat -> fault) (m : mem) (u : upgrade) (offset : N) (data : bytes)
  : mem * res storage_error unit :=
  if Nlen data =? 0 then (m, Err OutOfBounds)
  else match find_address (u_partition u) offset (Nlen data) with
  | None => (m, Err OutOfBounds)
  | Some address =>
      let write_range := mkRange address (Nlen data) in
      let checked :=
        has <- contains_metadata u write_range ;;
        if has : bool then
          check_metadata c m u (up_key c)
            (slice data (mr_start (u_metadata u) - address) (mr_length (u_metadata u)))
        else Ok tt in
      match checked with
      | Err e => (m, Err e)
      | Ok _ =>
          let '(m1, ok, n) := erase_pages flt 0 m (aligned_iter write_range (u_page_size u)) (u_page_size u) in
          if negb ok then (m1, Err CustomError)
          else
            let '(m2, ok) := write_slice (flt n) m1 address data in
            if negb ok then (m2, Err CustomError)
            else if negb (bytes_eqb (read m2 address (length data)) data) then (m2, Err CustomError)
            else if Nlen data =? part_length (u_partition u) - offset then
              (m2, check_partition_hash c m2 u
                     (read m2 (mr_start (u_metadata u)) (N.to_nat (mr_length (u_metadata u)))))
            else (m2, Ok tt)
      end
  end.

(** ** The vendor commands *)

(** commands.rs 151-167: process_vendor_upgrade.  The device offers upgrades iff there is an
    upgrade storage. *)
Definition vendor_upgrade (c : uprims) (flt : nat -> fault) (m : mem) (u : option upgrade)
    (offset : N) (data hash : bytes) : mem * res status unit :=
  if negb (bytes_eqb hash (up_sha256 c data)) then (m, Err INTEGRITY_FAILURE)
  else match u with
  | None => (m, Err INVALID_COMMAND)
  | Some u =>
      let '(m', r) := write_bundle c flt m u offset data in
      (m', match r with Ok _ => Ok tt | Err _ => Err INVALID_PARAMETER end)
  end.

(** commands.rs 246-263: VendorUpgradeParameters; the offset is cast from u64 to usize. *)
Definition parse_upgrade (v : value) : res status (N * bytes * bytes) :=
  kvs <- extract_map v ;;
  let f := fields kvs [vint 1; vint 2; vint 3] in
  offset <- ok_or_missing (f 0%nat) ;;
  offset <- extract_unsigned offset ;;
  data <- ok_or_missing (f 1%nat) ;;
  data <- extract_byte_string data ;;
  hash <- ok_or_missing (f 2%nat) ;;
  hash <- extract_byte_string hash ;;
  if Nlen hash =? 32 then Ok (offset mod USIZE, data, hash) else Err INVALID_PARAMETER.

(** commands.rs 42-81: process_vendor_command for the upgrade commands 0x42 and 0x43.  None: not a
    command of this model. *)
Definition vendor_message (c : uprims) (flt : nat -> fault) (m : mem) (u : option upgrade) (b : bytes)
  : mem * option bytes :=
  match b with
  | [] => (m, None)
  | cmd :: rest =>
      if cmd =? 0x42 then
        match (v <- (match cbor_read 32 rest with Some v => Ok v | None => Err INVALID_CBOR end) ;; parse_upgrade v) with
        | Err e => (m, Some [status_code e])
        | Ok (offset, data, hash) =>
            let '(m', r) := vendor_upgrade c flt m u offset data hash in
            (m', Some [match r with Ok _ => 0 | Err e => status_code e end])
        end
      else if cmd =? 0x43 then
        match u with
        | None => (m, Some [status_code INVALID_COMMAND])
        | Some u => (m, Some (match cbor_write (map_options [(vint 1, Some (VUnsigned (u_identifier u)))]) with
                              | Some e => 0 :: e
                              | None => [status_code VENDOR_INTERNAL_ERROR]
                              end))
        end
      else (m, None)
  end.

(** ** The bootloader *)

(** bootloader/src/main.rs 36: PAGE_SIZE, 76: FIRMWARE_LENGTH. *)
Definition PAGE_SIZE : N := 0x1000.
Definition FIRMWARE_LENGTH : N := 0x40000.
(** 43-47: read_page. *)
Definition read_page (m : mem) (a : N) : bytes := read m a (N.to_nat PAGE_SIZE).
(** 70-73: BootPartition. *)
Record boot_partition := mkBoot { b_firmware : N; b_metadata : N }.
(** 105-118: compute_upgrade_hash.  The driver of the hash accelerator (crypto_cell.rs) is in Boot/:
    that it computes the hash of the concatenated updates is C71_bootloader. *)
Definition compute_upgrade_hash (c : uprims) (m : mem) (p : boot_partition) (metadata_page : bytes) : bytes :=
  up_sha256 c (skipn (N.to_nat METADATA_SIGN_OFFSET) metadata_page ++
               flat_map (fun offset => read_page m (b_firmware p + offset))
                 (from_step 0 PAGE_SIZE (N.to_nat (FIRMWARE_LENGTH / PAGE_SIZE)))).
(** 79-98: read_version, with the metadata of 58-67. *)
Definition read_version (c : uprims) (m : mem) (p : boot_partition) : option N :=
  let page := read_page m (b_metadata p) in
  let hash := compute_upgrade_hash c m p page in
  if negb (b_firmware p =? metadata_address page) then None
  else if negb (bytes_eqb hash (metadata_hash page)) then None
  else Some (metadata_version page).
(** 151-158. *)
Definition partition_a : boot_partition := mkBoot 0x20000 0x4000.
Definition partition_b : boot_partition := mkBoot 0x60000 0x5000.
(** 146-178: main; None is the panic. *)
Definition boot (c : uprims) (m : mem) : option boot_partition :=
  match read_version c m partition_a, read_version c m partition_b with
  | Some t1, Some t2 => if t2 <=? t1 then Some partition_a else Some partition_b
  | Some _, None => Some partition_a
  | None, Some _ => Some partition_b
  | None, None => None
  end.

(** ** The boards with partitions *)

(** boards/nordic/nrf52840dk_opensk_a/build.rs and nrf52840dk_opensk_b/build.rs: STORAGE_LOCATIONS of the
    kernel in partition A and in partition B. *)
Definition board (p : boot_partition) : list location :=
  if b_firmware p =? PARTITION_ADDRESS_A then
    [mkLocation Store 0xC0000 0x10000; mkLocation Store 0xD0000 0x4000; mkLocation Partition 0x4000 0x2000;
     mkLocation Partition 0x60000 0x20000; mkLocation Partition 0x80000 0x20000]
  else
    [mkLocation Store 0xC0000 0x10000; mkLocation Store 0xD0000 0x4000; mkLocation Partition 0x4000 0x2000;
     mkLocation Partition 0x20000 0x20000; mkLocation Partition 0x40000 0x20000].
