(** The vendor commands of the firmware, and the authenticator that has them.  src/env/tock/commands.rs 42-150 and 182-298,
    src/env/tock/mod.rs 202-204 and 388-411, libraries/opensk/src/ctap/mod.rs 585-612. *)
From Verif Require Import Base Hid.Model U2f.Model Cbor.Model Ctap.Crypto Ctap.Types Ctap.Machine Ctap.Commands Ctap.Parse
  Ctap.System.
From Verif Require Upgrade.Model.

(** commands.rs 182-209: AttestationMaterial, as the private key and the certificate. *)
Definition parse_material (v : value) : res status (bytes * bytes) :=
  kvs <- extract_map v ;;
  let f := fields kvs [vint 1; vint 2] in
  cert <- ok_or_missing (f 0%nat) ;;
  cert <- extract_byte_string cert ;;
  key <- ok_or_missing (f 1%nat) ;;
  key <- extract_byte_string key ;;
  if (Nlen key =? 32)%N then Ok (key, cert) else Err INVALID_PARAMETER.

(** commands.rs 211-237: VendorConfigureParameters, lockdown and attestation_material. *)
Definition parse_configure (v : value) : res status (bool * option (bytes * bytes)) :=
  kvs <- extract_map v ;;
  let f := fields kvs [vint 1; vint 2] in
  lockdown <- map_or false extract_bool (f 0%nat) ;;
  material <- map_opt parse_material (f 1%nat) ;;
  Ok (lockdown, material).

(** What the vendor commands need of the board: whether there is a separate endpoint for them (feature vendor_hid), and the
    firmware upgrades with the faults of their flash accesses. *)
Record board := mkBoard {
  b_env : env;
  b_hid : bool;
  b_prims : Upgrade.Model.uprims;
  b_flash : nat -> nat -> Upgrade.Model.fault;
  b_upgrade : option Upgrade.Model.upgrade
}.
(** The firmware: the authenticator, whether it runs (false: a panic), the flash of upgrades, and the number of vendor commands so
    far, which selects the faults of the flash. *)
Record tock := mkTock { t_world : world; t_live : bool; t_mem : Upgrade.Model.mem; t_n : nat }.

Section Vendor.
  Variable bd : board.
  Let e : env := b_env bd.

  (** tock/mod.rs 399-411 and attestation_store.rs 78-102: AttestationStore::set; the transaction is one update of the store. *)
  Definition set_attestation (a : bytes * bytes) : M status unit :=
    map_status Panic attestation_status (store e (fun p => set_atts (Some a) (p_ent p) p)).

  (** commands.rs 92-149: process_vendor_configure up to the lockdown: the two values of the response. *)
  Definition configure (lockdown : bool) (material : option (bytes * bytes)) : M status (bool * bool) :=
    do* (if lockdown || match material with Some _ => true | None => false end then check_user_presence e else ret tt) in
    let* current := get_attestation e Batch in
    let present := match current with Some _ => true | None => false end in
    match material with
    | None => ret (present, present)
    | Some a =>
        do* (if present then ret tt else set_attestation a) in
        ret (true, true)
    end.

  (** tock/mod.rs 201-203: lock_firmware_protection. *)
  Definition lock_firmware_protection : bool := false.
  (** commands.rs 130-148: the lockdown, with CTAP1 compiled in. *)
  Definition lock_down (lockdown : bool) (r : bool * bool) : M status (bool * bool) :=
    do* guard (negb (lockdown && (negb (fst r && snd r) || negb lock_firmware_protection))) VENDOR_INTERNAL_ERROR in
    ret r.

  (** commands.rs 265-284 and 82-89: the response. *)
  Definition configure_response (r : bool * bool) : bytes :=
    match cbor_write (VMap [(vint 1, vbool (fst r)); (vint 2, vbool (snd r))]) with
    | Some b => 0%N :: b
    | None => [status_code VENDOR_INTERNAL_ERROR]
    end.

  (** commands.rs 42-80: process_vendor_command and process_cbor.  None: the hook does not answer; Some None: it panics (bytes[0]
      of an empty message). *)
  Definition vendor_command (t : tock) (b : bytes) (ch : channel) : tock * option (option bytes) :=
    match b_hid bd, ch with
    | true, MainHid _ => (t, None)
    | _, _ =>
        match b with
        | [] => (t, Some None)
        | cmd :: rest =>
            if (cmd =? 0x40)%N then
              match (v <- (match cbor_read (c_width (e_cfg e)) rest with Some v => Ok v | None => Err INVALID_CBOR end) ;;
                     parse_configure v) with
              | Err s => (t, Some (Some [status_code s]))
              | Ok (lockdown, material) =>
                  let '(r, w) := (let* r := configure lockdown material in lock_down lockdown r) (t_world t) in
                  (mkTock w (t_live t) (t_mem t) (t_n t),
                   Some (Some (match r with Ok r => configure_response r | Err s => [status_code s] end)))
              end
            else
              let '(m, r) := Upgrade.Model.vendor_message (b_prims bd) (b_flash bd (t_n t)) (t_mem t) (b_upgrade bd) b in
              (mkTock (t_world t) (t_live t) m (S (t_n t)), match r with Some x => Some (Some x) | None => None end)
        end
    end.

  Definition with_world (t : tock) (w : world) : tock := mkTock w (t_live t) (t_mem t) (t_n t).
  Definition dead (t : tock) : tock := mkTock (t_world t) false (t_mem t) (t_n t).

  (** mod.rs 585-612: process_command, from bytes to bytes (None: no answer, the firmware panicked). *)
  Definition tock_message (t : tock) (b : bytes) (ch : channel) : tock * option bytes :=
    match vendor_command t b ch with
    | (t, Some None) => (dead t, None)
    | (t, Some (Some r)) => (with_world t (snd (after_vendor_response ch (t_world t))), Some r)
    | (t, None) =>
        let '(o, w) := run_op e (OpMessage b ch) (t_world t) in
        match o with
        | OutCtap r =>
            match response_bytes (e_cfg e) r with
            | Some x => (with_world t w, Some x)
            | None => (dead (with_world t w), None)
            end
        | _ => (with_world t w, None)
        end
    end.

  (** What happens to the firmware: messages, touches, time and compaction as in System.op. *)
  Inductive deed := Message (b : bytes) (ch : channel) | U2f (b : bytes) | Touch | Tick (d : N) | Compaction (n : nat).
  Definition act (t : tock) (d : deed) : tock * option bytes :=
    let plain o := with_world t (snd (run_op e o (t_world t))) in
    match d with
    | Message b ch => tock_message t b ch
    | U2f b =>
        let '(o, w) := run_op e (OpU2f b) (t_world t) in
        match o with
        | OutU2f (Err SW_PANIC) => (dead (with_world t w), None)
        | OutU2f (Ok r) => (with_world t w, Some r)
        | _ => (with_world t w, None)
        end
    | Touch => (plain OpTouch, None)
    | Tick d => (plain (OpTick d), None)
    | Compaction n => (plain (OpCompact n), None)
    end.
  (** One step of a history: a firmware that panicked does nothing; power may be lost in a step, as in System.step, with anything
      in the flash of upgrades. *)
  Definition tock_step (t : tock) (x : deed * option (nat * Upgrade.Model.mem)) : tock :=
    let t' := if t_live t then fst (act t (fst x)) else t in
    match snd x with
    | None => t'
    | Some (n, m) => mkTock (reboot e (lose_power n (t_world t) (t_world t'))) true m (t_n t')
    end.
  Definition tock_run (m : Upgrade.Model.mem) (h : list (deed * option (nat * Upgrade.Model.mem))) : tock :=
    fold_left tock_step h (mkTock (start e) true m 0).
End Vendor.
