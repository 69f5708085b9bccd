(** Property C56, continued: the laws that theorems about the authenticator assume of the primitives hold
    of the library's SHA-256, HMAC, HKDF and AES-256 (api/crypto/software_crypto.rs). *)
From Verif Require Import Base Facts Ctap.Crypto.
From Verif Require Hash.Model Hash.Proofs Aes.Model Aes.Spec Aes.Proofs Aes.Cbc Aes.Props.
Open Scope nat_scope.

(** The arguments of type [u8; n] are lists of n bytes; the functions of [prims] take any lists, and
    [fit] turns a list that is not of the type into one that is. *)
Definition fit (n : nat) (l : bytes) : bytes := map (fun b => (b mod 256)%N) (firstn n (l ++ repeat 0%N n)).
Lemma fit_ok n l : Aes.Proofs.blk n (fit n l).
Proof.
  split; unfold fit.
  - rewrite map_length, firstn_length, app_length, repeat_length. lia.
  - apply Forall_map, Forall_forall. intros b _. apply N.mod_lt. discriminate.
Qed.
Lemma fit_id n l : Aes.Proofs.blk n l -> fit n l = l.
Proof.
  intros [L F]. unfold fit. rewrite firstn_app, L, Nat.sub_diag. cbn [firstn]. rewrite app_nil_r, firstn_all2 by lia.
  clear L. induction F as [|b l Hb F IH]; [reflexivity|]. cbn [map]. rewrite IH, N.mod_small by exact Hb. reflexivity.
Qed.
Lemma blk_bytes n l : Aes.Proofs.blk n l <-> length l = n /\ bytes_ok l = true.
Proof.
  unfold Aes.Proofs.blk, bytes_ok. rewrite forallb_forall, Forall_forall.
  split; intros [L H]; (split; [exact L|]); intros b Hb; specialize (H b Hb); unfold byte_ok in *; [apply N.ltb_lt|apply N.ltb_lt in H]; exact H.
Qed.

(** software_crypto.rs 191-297: SoftwareSha256, SoftwareHmac256, SoftwareHkdf256 and SoftwareAes256, on a
    machine of 64 bits. A digest of more than 2^61 bytes panics in the code: any 32 bytes stand for it.
    The elliptic curves and signatures are those of [rest]. *)
Definition digest (o : option bytes) : bytes := match o with Some d => d | None => repeat 0%N 32 end.
Definition software (rest : prims) : prims := {|
  sha256 := fun m => digest (Hash.Model.hash 64 m);
  hmac := fun k m => digest (Hash.Model.hmac 64 k m);
  hkdf := fun ikm salt info => digest (Hash.Model.hkdf 64 ikm salt info);
  hkdf_empty_salt := fun ikm info => digest (Hash.Model.hkdf_empty_salt 64 ikm info);
  aes_enc := fun k b => Aes.Model.encrypt (fit 32 k) (fit 16 b);
  aes_dec := fun k b => Aes.Model.decrypt (fit 32 k) (fit 16 b);
  ecdh_pub := ecdh_pub rest; ecdh_on_curve := ecdh_on_curve rest; ecdh_shared := ecdh_shared rest;
  ecdsa_valid := ecdsa_valid rest; sign := sign rest; pub_of := pub_of rest |}.

Lemma stream_bytes width l d : Hash.Model.stream width l = Some d -> bytes_ok d = true.
Proof.
  unfold Hash.Model.stream. destruct (Hash.Model.updates width Hash.Model.sha_new l) as [s|]; [|discriminate].
  unfold Hash.Model.finalize. destruct (if (56 <=? _)%nat then _ else _) as [st bl].
  destruct (2 ^ 64 <=? _)%N; [discriminate|]. intros E. injection E as <-. unfold Hash.Model.encode.
  cbn [flat_map]. rewrite !bytes_ok_app, !be_bytes_ok. reflexivity.
Qed.
Lemma digest_ok width l : length (digest (Hash.Model.stream width l)) = 32 /\ bytes_ok (digest (Hash.Model.stream width l)) = true.
Proof.
  destruct (Hash.Model.stream width l) as [d|] eqn:E; [|split; reflexivity].
  split; [exact (Hash.Proofs.stream_len _ _ _ E)|exact (stream_bytes _ _ _ E)].
Qed.
Lemma hmac_digest width k m : length (digest (Hash.Model.hmac width k m)) = 32 /\ bytes_ok (digest (Hash.Model.hmac width k m)) = true.
Proof.
  unfold Hash.Model.hmac. destruct (Hash.Model.stream width _) as [d|]; [apply digest_ok|split; reflexivity].
Qed.

(** The laws hold, whatever the curves and signatures are. *)
Theorem C56_software : forall rest, prims_ok (software rest).
Proof.
  intros rest. constructor; cbn [software sha256 hmac hkdf aes_enc aes_dec].
  - intros m. apply (digest_ok 64 [m]).
  - intros m. apply (digest_ok 64 [m]).
  - intros k m. apply hmac_digest.
  - intros k m. apply hmac_digest.
  - intros k s i. unfold Hash.Model.hkdf. destruct (Hash.Model.hmac 64 s k) as [p|]; [apply hmac_digest|reflexivity].
  - intros k b _. apply Aes.Proofs.encrypt_blk; apply fit_ok.
  - intros k b _. apply Aes.Proofs.decrypt_blk; apply fit_ok.
  - intros k b _. apply (blk_bytes 16), Aes.Proofs.encrypt_blk; apply fit_ok.
  - intros k b L B. pose proof (fit_ok 32 k) as K. pose proof (fit_ok 16 b) as F.
    rewrite (fit_id 16 (Aes.Model.encrypt _ _)) by (apply Aes.Proofs.encrypt_blk; assumption).
    rewrite Aes.Proofs.decrypt_encrypt by assumption. apply fit_id, blk_bytes. split; assumption.
Qed.
Print Assumptions C56_software.

(** On arguments of the right types the block functions are the library's, and the CBC functions of the
    authenticator are those of cbc.rs. *)
Theorem C56_software_blocks : forall rest key block, Aes.Spec.byte_list 32 key -> Aes.Spec.byte_list 16 block ->
  aes_enc (software rest) key block = Aes.Spec.Cipher key block /\
  aes_dec (software rest) key block = Aes.Spec.InvCipher key block.
Proof.
  intros rest key b K B. cbn [software aes_enc aes_dec].
  rewrite (fit_id 32) by (apply Aes.Cbc.byte_list_blk, K). rewrite (fit_id 16) by (apply Aes.Cbc.byte_list_blk, B).
  apply Aes.Props.C56_cipher; assumption.
Qed.
Print Assumptions C56_software_blocks.

Lemma xor_block_eq a b : xor_block a b = Aes.Model.xors a b.
Proof. reflexivity. Qed.
Lemma enc_same rest key : Aes.Proofs.blk 32 key -> forall ps iv, Forall (Aes.Proofs.blk 16) ps -> Aes.Proofs.blk 16 iv ->
  Aes.Model.cbc_encrypt_chunks (Aes.Model.encrypt key) iv ps =
  Some (cbc_enc (software rest) key iv (length ps) (concat ps)).
Proof.
  intros K. induction ps as [|p ps IH]; intros iv F I; [reflexivity|]. inversion F as [|? ? P F']; subst.
  cbn [Aes.Model.cbc_encrypt_chunks length cbc_enc concat]. rewrite (proj1 P). cbn [Nat.eqb negb].
  rewrite firstn_app, skipn_app, (proj1 P), Nat.sub_diag. rewrite firstn_all2, skipn_all2 by (rewrite (proj1 P); lia).
  cbn [firstn skipn app]. rewrite app_nil_r.
  assert (X : Aes.Proofs.blk 16 (Aes.Model.xors p iv)) by (apply Aes.Proofs.xors_blk; assumption).
  assert (E : aes_enc (software rest) key (xor_block p iv) = Aes.Model.encrypt key (Aes.Model.xors p iv)).
  { cbn [software aes_enc]. rewrite (fit_id 32) by exact K. f_equal. apply (fit_id 16), X. }
  rewrite E. rewrite IH by (assumption || (apply Aes.Proofs.encrypt_blk; assumption)). reflexivity.
Qed.
Lemma dec_same rest key : Aes.Proofs.blk 32 key -> forall cs iv, Forall (Aes.Proofs.blk 16) cs -> Aes.Proofs.blk 16 iv ->
  Aes.Model.cbc_decrypt_chunks (Aes.Model.decrypt key) iv cs =
  Some (cbc_dec (software rest) key iv (length cs) (concat cs)).
Proof.
  intros K. induction cs as [|p ps IH]; intros iv F I; [reflexivity|]. inversion F as [|? ? P F']; subst.
  cbn [Aes.Model.cbc_decrypt_chunks length cbc_dec concat]. rewrite (proj1 P). cbn [Nat.eqb negb].
  rewrite firstn_app, skipn_app, (proj1 P), Nat.sub_diag. rewrite firstn_all2, skipn_all2 by (rewrite (proj1 P); lia).
  cbn [firstn skipn app]. rewrite app_nil_r.
  assert (E : aes_dec (software rest) key p = Aes.Model.decrypt key p).
  { cbn [software aes_dec]. rewrite (fit_id 32) by exact K. rewrite (fit_id 16) by exact P. reflexivity. }
  rewrite E, IH by assumption. cbn [option_map]. apply f_equal. apply (f_equal (fun x => x ++ _)). symmetry. apply xor_block_eq.
Qed.
Lemma blocks_of l n : length l = 16 * n -> Aes.Spec.byte_list (length l) l ->
  exists bs, l = concat bs /\ Forall (Aes.Proofs.blk 16) bs /\ length bs = n.
Proof. intros L [_ H]. apply Aes.Cbc.split_blocks; [exact L|]. apply Forall_forall, H. Qed.

Theorem C56_software_cbc : forall rest key iv l,
  Aes.Spec.byte_list 32 key -> Aes.Spec.byte_list 16 iv -> Aes.Spec.byte_list (length l) l -> length l mod 16 = 0 ->
  Aes.Model.cbc_encrypt key iv l = Some (cbc_enc (software rest) key iv (length l / 16) l) /\
  Aes.Model.cbc_decrypt key iv l = Some (cbc_dec (software rest) key iv (length l / 16) l).
Proof.
  intros rest key iv l K I B M. apply Aes.Cbc.byte_list_blk in K, I. apply Nat.mod_divides in M as [n M]; [|lia].
  assert (D : length l / 16 = n) by (rewrite M, Nat.mul_comm; apply Nat.div_mul; lia). rewrite D.
  destruct (blocks_of l n M B) as (bs & -> & F & <-).
  rewrite Aes.Cbc.cbc_encrypt_eq, Aes.Cbc.cbc_decrypt_eq, Aes.Cbc.chunks_concat by (apply Aes.Cbc.blocks_len, F || reflexivity).
  split; [apply enc_same|apply dec_same]; assumption.
Qed.
Print Assumptions C56_software_cbc.
