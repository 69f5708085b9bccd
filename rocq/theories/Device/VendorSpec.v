(** What the vendor command configure (0x40) says, in terms of the bytes of the message. *)
From Verif Require Import Base Cbor.Model Ctap.Machine Device.Vendor.

(** The message is the command byte followed by one CBOR map.  [W] is the width of usize. *)
Definition configures (W : N) (b : bytes) (m : list (value * value)) : Prop :=
  exists rest, b = 0x40%N :: rest /\ cbor_read W rest = Some (VMap m).
(** It has a private key of 32 bytes and a certificate under key 2. *)
Definition carries (W : N) (b : bytes) (key cert : bytes) : Prop :=
  exists m a, configures W b m /\ In (VUnsigned 2, VMap a) m /\
    In (VUnsigned 1, VBytes cert) a /\ In (VUnsigned 2, VBytes key) a /\ length key = 32%nat.
(** It demands the lockdown: true under key 1. *)
Definition demands_lock (W : N) (b : bytes) : Prop :=
  exists m, configures W b m /\ In (VUnsigned 1, VSimple STrue) m.

(** The endpoint takes vendor commands. *)
Definition takes_vendor (bd : board) (ch : channel) : Prop :=
  b_hid bd = true -> exists c, ch = VendorHid c.

(** What the firmware copes with: messages of bytes that are not empty where vendor commands are taken, and that carry no key that
    ECDSA refuses. *)
Definition acceptable (bd : board) (d : deed) : Prop :=
  match d with
  | Message b ch =>
      bytes_ok b = true /\
      (takes_vendor bd ch ->
       b <> [] /\ forall key cert, carries (c_width (e_cfg (b_env bd))) b key cert ->
         Ctap.Crypto.ecdsa_valid (e_prims (b_env bd)) key = true)
  | U2f b => bytes_ok b = true
  | _ => True
  end.
