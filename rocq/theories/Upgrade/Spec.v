(** What upgrades and booting are supposed to do. *)
From Verif Require Import Base Ctap.Crypto Upgrade.Model.
Local Open Scope N_scope.

(** An address belongs to a range. *)
Definition within (a start len : N) : Prop := start <= a < start + len.

(** An address of a partition that the kernel lists as writable, other than the location that holds both
    metadata pages. *)
Definition listed (locs : list location) (a : N) : Prop :=
  exists l, In l locs /\ l_type l = Partition /\ l_ptr l <> METADATA_ADDRESS /\ within a (l_ptr l) (l_len l).

(** The bytes of a region of flash are d. *)
Definition holds (m : mem) (a : N) (d : bytes) : Prop :=
  forall i, (i < length d)%nat -> m (a + N.of_nat i) = nth i d 0.

(** Metadata that may be installed: a page, for the partition that is written, not older than the running
    firmware, with a signature by the upgrade key over its hash. *)
Record acceptable (c : uprims) (running : N) (identifier : N) (d : bytes) : Prop := mkAcceptable {
  ac_length : Nlen d = 4096;
  ac_version : running <= le (slice d 0x800 8);
  ac_address : le (slice d 0x808 4) = identifier;
  ac_signature : up_verify c (slice (up_key c) 1 32) (slice (up_key c) 33 32) (slice d 0 32) (slice d 32 64) = true
}.

(** What the device does between two boots: a vendor message with upgrade data, with the calls of the flash
    driver that fail or are interrupted, or a use of the flash outside the partitions and the
    bootloader (the credential store). *)
Inductive action :=
| Message (b : bytes) (flt : nat -> fault)
| Elsewhere (f : mem).

Definition act (c : uprims) (u : option upgrade) (m : mem) (a : action) : mem :=
  match a with
  | Message b flt => fst (vendor_message c flt m u b)
  | Elsewhere f => fun x => if x <? 0xC0000 then m x else f x
  end.

(** A partition is valid with version v if its metadata page says that it is for that partition and carries the
    hash of the rest of the page and the firmware. *)
Definition valid (c : uprims) (m : mem) (p : boot_partition) (v : N) : Prop :=
  exists page fw, Nlen page = 4096 /\ Nlen fw = 0x40000 /\
    holds m (b_metadata p) page /\ holds m (b_firmware p) fw /\
    le (slice page 0x808 4) = b_firmware p /\
    slice page 0 32 = up_sha256 c (skipn (N.to_nat 2048) page ++ fw) /\
    le (slice page 0x800 8) = v.

(** The signature in the metadata of a partition. *)
Definition signed (c : uprims) (m : mem) (p : boot_partition) : Prop :=
  exists page, Nlen page = 4096 /\ holds m (b_metadata p) page /\
    up_verify c (slice (up_key c) 1 32) (slice (up_key c) 33 32) (slice page 0 32) (slice page 32 64) = true.

(** A life of the device: it boots, acts, boots again.  The result is the partition it runs in the end, if
    it boots, and the flash. *)
Fixpoint life (c : uprims) (m : mem) (l : list (list action)) : option boot_partition * mem :=
  match boot c m, l with
  | None, _ => (None, m)
  | Some p, [] => (Some p, m)
  | Some p, s :: l' =>
      let u := match upgrade_new PAGE_SIZE (board p) with Ok u => Some u | Err _ => None end in
      life c (fold_left (act c u) s m) l'
  end.

(** No metadata page is left half written: a request whose flash operations are disturbed is not one that
    writes metadata. *)
Definition action_clean (c : uprims) (u : option upgrade) (m : mem) (a : action) : Prop :=
  match a with
  | Message b flt => bytes_ok b = true /\
      ((forall n, flt n = None) \/
       forall x u', u = Some u' -> within x (mr_start (u_metadata u')) (mr_length (u_metadata u')) -> act c u m a x = m x)
  | Elsewhere _ => True
  end.
Fixpoint undisturbed (c : uprims) (m : mem) (l : list (list action)) : Prop :=
  match boot c m, l with
  | Some p, s :: l' =>
      let u := match upgrade_new PAGE_SIZE (board p) with Ok u => Some u | Err _ => None end in
      (forall s1 a s2, s = s1 ++ a :: s2 -> action_clean c u (fold_left (act c u) s1 m) a) /\
      undisturbed c (fold_left (act c u) s m) l'
  | _, _ => True
  end.

(** The metadata page of a partition, if it claims to be for that partition, is signed.  An erased page
    claims nothing. *)
Definition sound (c : uprims) (m : mem) (p : boot_partition) : Prop :=
  forall page, Nlen page = 4096 -> holds m (b_metadata p) page -> le (slice page 0x808 4) = b_firmware p ->
    up_verify c (slice (up_key c) 1 32) (slice (up_key c) 33 32) (slice page 0 32) (slice page 32 64) = true.
