(** A concrete environment and client, used only for examples: primitives with the laws of
    [prims_ok], a configuration that satisfies [cfg_ok], and the messages that a platform sends. *)
From Verif Require Import Base Facts Hid.Model U2f.Model Cbor.Model Ctap.Crypto Ctap.Types Ctap.Machine
  Ctap.Commands Ctap.Parse Ctap.System.
From Coq Require Import String Lia List.
Import ListNotations.
Open Scope list_scope.
Open Scope N_scope.

Definition pad (n : nat) (b : bytes) : bytes := firstn n (b ++ repeat 0 n).
Lemma pad_length n b : length (pad n b) = n.
Proof.
  unfold pad. rewrite firstn_length, app_length, repeat_length. lia.
Qed.
Definition low (b : bytes) : bytes := map (fun x => x mod 256) b.

Definition toy_prims : prims := mkPrims
  (fun m => low (pad 32 m))
  (fun k m => low (pad 8 k ++ pad 7 m ++ [fold_left N.add m 0 mod 256] ++ pad 8 (skipn 7 m) ++ pad 8 (skipn 8 k)))
  (fun k s i => pad 8 k ++ pad 24 s)
  (fun k i => pad 32 (i ++ k))
  (fun k b => low b)
  (fun k b => b)
  (fun sk => (pad 32 sk, repeat 1 32))
  (fun _ => true)
  (fun sk xy => pad 32 (fst xy))
  (fun _ => true)
  (fun k m => pad 40 m)
  (fun k => mkCose (pad 32 (pk_bytes k)) (repeat 2 32) (-7) 2 1).

Lemma low_ok b : bytes_ok (low b) = true.
Proof.
  unfold bytes_ok, low. apply forallb_forall. intros x Hx. apply in_map_iff in Hx as (y & <- & _).
  unfold byte_ok. apply N.ltb_lt. apply N.mod_lt. lia.
Qed.
Lemma low_id b : bytes_ok b = true -> low b = b.
Proof.
  unfold bytes_ok, low. intro H. rewrite forallb_forall in H.
  rewrite <- (map_id b) at 2. apply map_ext_in. intros x Hx. specialize (H x Hx).
  unfold byte_ok in H. apply N.mod_small. lia.
Qed.
Lemma toy_prims_ok : prims_ok toy_prims.
Proof.
  split; intros; cbn [sha256 hmac hkdf aes_enc aes_dec toy_prims];
    rewrite ?app_length, ?pad_length; auto.
  - unfold low. now rewrite map_length, pad_length.
  - apply low_ok.
  - unfold low. now rewrite map_length, !app_length, !pad_length.
  - apply low_ok.
  - unfold low. now rewrite map_length.
  - apply low_ok.
  - now apply low_id.
Qed.

Definition toy_cfg : cfg := mkCfg 8 4 [] 4 false true 8 1024 1024 32 None None [] false true
  (repeat 7 16) None None true 64.
Lemma toy_cfg_ok : cfg_ok toy_cfg.
Proof. split; cbn; lia. Qed.

(** Random draws are all different; presence is always confirmed after one second; nothing fails. *)
Definition toy_rnd (i n : nat) : bytes := pad n (be_bytes 2 (N.of_nat (S i))).
Definition toy : env := mkEnv toy_prims toy_cfg toy_rnd (fun _ => (UpConfirmed, 1000)) (fun _ => None).
(** The same with failures of the persistent store. *)
Definition toy_faulty (f : nat -> option (store_fault * bool)) : env :=
  mkEnv toy_prims toy_cfg toy_rnd (fun _ => (UpConfirmed, 1000)) f.

(** ** What a platform sends *)

Definition message (code : N) (fields : list (N * value)) : bytes :=
  code :: match cbor_write (VMap (map (fun f => (VUnsigned (fst f), snd f)) fields)) with
          | Some b => b
          | None => []
          end.
Definition ch0 : channel := MainHid [1; 2; 3; 4].
Definition toy_key : cose := mkCose (repeat 5 32) (repeat 6 32) (-25) 2 1.
(** The shared secret of protocol 1 between the platform with [toy_key] and the device. *)
Definition toy_shared : shared := shared_new toy_prims V1 (ecdh_shared toy_prims [] (repeat 5 32, repeat 6 32)).
Definition or_nil (o : option bytes) : bytes := match o with Some b => b | None => [] end.
Definition enc (plain : bytes) : bytes := or_nil (shared_encrypt toy_prims toy_shared [] plain).
Definition mac (msg : bytes) : bytes := authenticate toy_prims V1 (sh_hmac toy_shared) msg.
Definition toy_pin : bytes := str "1234".
Definition pin_hash16 (pin : bytes) : bytes := firstn 16 (sha256 toy_prims pin).

Definition set_pin_msg (pin : bytes) : bytes :=
  let new := enc (pad 64 pin) in
  message 6 [(1, VUnsigned 1); (2, VUnsigned 3); (3, cose_to_cbor toy_key);
             (4, VBytes (mac new)); (5, VBytes new)].
Definition change_pin_msg (old pin : bytes) : bytes :=
  let new := enc (pad 64 pin) in
  let h := enc (pin_hash16 old) in
  message 6 [(1, VUnsigned 1); (2, VUnsigned 4); (3, cose_to_cbor toy_key);
             (4, VBytes (mac (new ++ h))); (5, VBytes new); (6, VBytes h)].
Definition get_token_msg (pin : bytes) : bytes :=
  message 6 [(1, VUnsigned 1); (2, VUnsigned 5); (3, cose_to_cbor toy_key);
             (6, VBytes (enc (pin_hash16 pin)))].
Definition token_perms_msg (pin : bytes) (perms : N) (rp : option bytes) : bytes :=
  message 6 ([(1, VUnsigned 1); (2, VUnsigned 9); (3, cose_to_cbor toy_key);
              (6, VBytes (enc (pin_hash16 pin))); (9, VUnsigned perms)] ++
             match rp with Some r => [(10, VText r)] | None => [] end).
(** A pinHashEnc whose length is not a multiple of the block size. *)
Definition malformed_token_msg : bytes :=
  message 6 [(1, VUnsigned 1); (2, VUnsigned 5); (3, cose_to_cbor toy_key); (6, VBytes [1; 2; 3])].

Definition on (b : bytes) : op * option nat := (OpMessage b ch0, None).

Example toy_set_pin : p_pin (w_p (run toy [on (set_pin_msg toy_pin)])) = Some (pin_hash16 toy_pin, 4).
Proof. vm_compute. reflexivity. Qed.
