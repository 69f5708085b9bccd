(** Histories of the device: messages on any channel, touches, time, compaction of the store, power
    cycles, and power loss at any point of any operation. *)
From Verif Require Import Base Hid.Model U2f.Model Cbor.Model Ctap.Crypto Ctap.Types Ctap.Machine
  Ctap.Commands Ctap.Parse.

(** api/customization.rs 380-450: is_valid, as far as the modelled code depends on it, and the
    number of credential keys (storage/key.rs).  The width of usize is that of the targets. *)
Record cfg_ok (c : cfg) : Prop := {
  ok_msg : (1024 <= c_max_msg c <= 7609)%N;
  ok_min_pin : (4 <= c_min_pin c <= 63)%N;
  ok_retries : (c_max_retries c <= 8)%N;
  ok_cred_blob : (32 <= c_max_cred_blob c <= 64)%nat;
  ok_blob : (1024 <= c_max_blob c)%N;
  ok_max_rk : (c_max_rk c <= 300)%nat;
  ok_width : c_width c = 32%N \/ c_width c = 64%N
}.

(** What happens to the device. *)
Inductive op :=
| OpMessage (b : bytes) (ch : channel)      (* a CTAP2 message, mod.rs 585-612 *)
| OpU2f (b : bytes)                         (* a CTAP1 message, ctap1.rs 189-239 *)
| OpVendor (ch : channel) (batch ent : option (bytes * bytes))
                                            (* a vendor command answered by the environment, which
                                               may set the attestations: mod.rs 591-597 *)
| OpTouch                                   (* the user touches the device: mod.rs 1393-1395 *)
| OpTick (d : N)                            (* time passes *)
| OpCompact (n : nat).                      (* the store compacts: its first [n] credential entries
                                               move behind the others, store.rs 722-760 *)

Inductive outcome :=
| OutCtap (r : res status response)
| OutU2f (r : res sw bytes)
| OutNone.

Definition write_world (p : pers) (w : world) : world :=
  mkWorld p (w_v w) (w_now w) (w_rng w) (w_up w) (w_op w) (LWrite p :: w_log w).

Definition run_op (e : env) (o : op) (w : world) : outcome * world :=
  match o with
  | OpMessage b ch => let '(r, w') := process_command e b ch w in (OutCtap r, w')
  | OpU2f b => let '(r, w') := u2f_process e b w in (OutU2f r, w')
  | OpVendor ch b en =>
      (OutNone, snd (after_vendor_response ch (write_world (set_atts b en (w_p w)) w)))
  | OpTouch => (OutNone, snd (modify (E := status) (fun v => set_up (grant_up (w_now w) (v_up v)) v) w))
  | OpTick d =>
      (OutNone, mkWorld (w_p w) (w_v w) (w_now w + d) (w_rng w) (w_up w) (w_op w) (w_log w))
  | OpCompact n =>
      let l := p_creds (w_p w) in
      (OutNone, write_world (set_creds (skipn n l ++ firstn n l) (w_p w)) w)
  end.

(** The persistent state is the one of the last write of the log. *)
Fixpoint last_write (log : list item) : pers :=
  match log with
  | [] => pers_init
  | LWrite p :: _ => p
  | LEv _ :: log' => last_write log'
  end.

(** Power-up: volatile state is lost, persistent state stays. *)
Definition reboot (e : env) (w : world) : world :=
  snd (boot e (mkWorld (w_p w) (w_v w) 0 (w_rng w) (w_up w) (w_op w) (LEv EvBoot :: w_log w))).

(** Power is lost while an operation that leads from [w] to [w'] runs: what the operation did last,
    [n] items of its log, never happened. *)
Definition lose_power (n : nat) (w w' : world) : world :=
  let log := skipn (Nat.min n (length (w_log w') - length (w_log w))) (w_log w') in
  mkWorld (last_write log) (w_v w') (w_now w') (w_rng w') (w_up w') (w_op w') log.

(** One step of a history: an operation, completed or interrupted by power loss. *)
Definition step (e : env) (w : world) (x : op * option nat) : world :=
  let w' := snd (run_op e (fst x) w) in
  match snd x with
  | None => w'
  | Some n => reboot e (lose_power n w w')
  end.

Definition vol_off : vol :=
  mkVol (mkProto [] []) (mkProto [] []) 0 token_init up_init stateful_clear (mkBlobs [] 0 0).
(** A new device is powered up with an empty store. *)
Definition start (e : env) : world := reboot e (mkWorld pers_init vol_off 0 0 0 0 []).

Definition run (e : env) (h : list (op * option nat)) : world := fold_left (step e) h (start e).
