(** The hash accelerator of the bootloader: the driver bootloader/src/crypto_cell.rs and its use in
    bootloader/src/main.rs 105-118.

    The accelerator itself is hardware and is described by what the driver relies on:
    - its compression function is the one of SHA-256 (hash_block of Hash/Model.v; C44 is that this is the
      function of FIPS 180-4);
    - data is processed in blocks of 64 bytes, and what is left over when the transfer ends is lost;
    - with automatic padding the padding for the length in its length registers is processed after the
      data, and DO_PAD processes the padding alone;
    - the length registers count the bytes it was given.
    Not modelled: that the accelerator gets ready (the loops that wait for it end), its byte order, the
    check of its signature (82-98), clocks, power and interrupts. *)
From Verif Require Import Base Hash.Model.
From Verif Require Upgrade.Model.
Open Scope N_scope.

(** FIPS 180-4 5.1.1, for a message of [len] bytes. *)
Definition padding (len : N) : bytes :=
  [128] ++ repeat 0 (N.to_nat ((119 - len mod 64) mod 64)) ++ be_bytes 8 (8 * len).

(** registers.rs 53-71: the registers that the driver writes and reads. *)
Record hardware := mkHw { hw_hash : regs; hw_lsb : N; hw_msb : N; hw_auto_padding : bool }.
Definition hw_len (h : hardware) : N := hw_msb h * 2 ^ 32 + hw_lsb h.
(** The blocks of some input. *)
Definition absorb (s : regs) (input : bytes) : regs := fst (full_blocks (length input) s input).
(** A transfer of data. *)
Definition dma (h : hardware) (data : bytes) : hardware :=
  let len := (hw_len h + Nlen data) mod 2 ^ 64 in
  mkHw (absorb (hw_hash h) (data ++ if hw_auto_padding h then padding len else []))
       (len mod 2 ^ 32) (len / 2 ^ 32) (hw_auto_padding h).
(** DO_PAD. *)
Definition do_pad (h : hardware) : hardware :=
  mkHw (absorb (hw_hash h) (padding (hw_len h))) (hw_lsb h) (hw_msb h) (hw_auto_padding h).

(** crypto_cell.rs 45-52: CryptoCell310. *)
Record cell := mkCell { hash_ctx : regs; hash_total_size : N; hw : hardware }.
(** 31-33: SHA256_INIT_VALUE. *)
Definition SHA256_INIT_VALUE : regs :=
  mkRegs 0x6A09E667 0xBB67AE85 0x3C6EF372 0xA54FF53A 0x510E527F 0x9B05688C 0x1F83D9AB 0x5BE0CD19.
(** 68-77: new, on an accelerator in any state that an earlier use leaves. *)
Definition new (h : hardware) : cell := mkCell SHA256_INIT_VALUE 0 h.
(** bitfields.rs: BYTES_NUM has 30 bits. *)
Definition bytes_num (data : bytes) : nat := N.to_nat (Nlen data mod 2 ^ 30).
(** 143-271: update. *)
Definition update (c : cell) (data : bytes) (is_last_block : bool) : cell :=
  let size := hash_total_size c in
  let h := mkHw (hash_ctx c) (size mod 2 ^ 32) (N.shiftr size 32 mod 2 ^ 32) (hw_auto_padding (hw c)) in
  let h :=
    match data with
    | [] => do_pad h
    | _ =>
        dma (mkHw (hw_hash h) (hw_lsb h) (hw_msb h) (if is_last_block then true else hw_auto_padding h))
            (firstn (bytes_num data) data)
    end in
  mkCell (hw_hash h) (N.shiftl (hw_msb h) 32 + hw_lsb h)
         (mkHw (hw_hash h) (hw_lsb h) (hw_msb h) false).
(** 132-137: clear_data. *)
Definition clear_data (c : cell) : cell := mkCell (mkRegs 0 0 0 0 0 0 0 0) 0 (hw c).
(** 274-283: finalize_and_clear. *)
Definition finalize_and_clear (c : cell) : bytes * cell := (encode (hash_ctx c), clear_data c).

(** Several calls of update before the last one. *)
Definition updates (c : cell) (chunks : list bytes) : cell :=
  fold_left (fun c data => update c data false) chunks c.

(** main.rs 105-118: compute_upgrade_hash. *)
Definition compute_upgrade_hash (h : hardware) (m : Upgrade.Model.mem) (p : Upgrade.Model.boot_partition)
    (metadata_page : bytes) : bytes :=
  let cc310 := update (new h) (skipn (N.to_nat Upgrade.Model.METADATA_SIGN_OFFSET) metadata_page) false in
  let cc310 :=
    fold_left (fun cc310 page_offset =>
        let page := Upgrade.Model.read_page m (Upgrade.Model.b_firmware p + page_offset) in
        update cc310 page (page_offset + Upgrade.Model.PAGE_SIZE =? Upgrade.Model.FIRMWARE_LENGTH))
      (Upgrade.Model.from_step 0 Upgrade.Model.PAGE_SIZE
         (N.to_nat (Upgrade.Model.FIRMWARE_LENGTH / Upgrade.Model.PAGE_SIZE)))
      cc310 in
  fst (finalize_and_clear cc310).
(** 79-98: read_version. *)
Definition read_version (h : hardware) (m : Upgrade.Model.mem) (p : Upgrade.Model.boot_partition) : option N :=
  let page := Upgrade.Model.read_page m (Upgrade.Model.b_metadata p) in
  let hash := compute_upgrade_hash h m p page in
  if negb (Upgrade.Model.b_firmware p =? Upgrade.Model.metadata_address page) then None
  else if negb (bytes_eqb hash (Upgrade.Model.metadata_hash page)) then None
  else Some (Upgrade.Model.metadata_version page).
(** 146-178: main.  [h] and [h'] are the states of the accelerator before the two partitions. *)
Definition boot (h h' : hardware) (m : Upgrade.Model.mem) : option Upgrade.Model.boot_partition :=
  match read_version h m Upgrade.Model.partition_a, read_version h' m Upgrade.Model.partition_b with
  | Some t1, Some t2 =>
      if t2 <=? t1 then Some Upgrade.Model.partition_a else Some Upgrade.Model.partition_b
  | Some _, None => Some Upgrade.Model.partition_a
  | None, Some _ => Some Upgrade.Model.partition_b
  | None, None => None
  end.
