(** Property C56 (AES-256 and its CBC mode). *)
From Verif Require Import Base Facts.
From Verif.Aes Require Import Model Spec Proofs Cbc.
Open Scope N_scope.

(** The library encrypts and decrypts a block as FIPS 197 says. *)
Theorem C56_cipher : forall key block, byte_list 32 key -> byte_list 16 block ->
  encrypt key block = Cipher key block /\ decrypt key block = InvCipher key block.
Proof.
  intros key b K B. rewrite byte_list_blk in *.
  split; [apply encrypt_is_cipher|apply decrypt_is_inv_cipher]; assumption.
Qed.
Print Assumptions C56_cipher.

(** With one key, decryption inverts encryption and encryption inverts decryption; both give blocks. *)
Theorem C56_inverse : forall key block, byte_list 32 key -> byte_list 16 block ->
  byte_list 16 (encrypt key block) /\ byte_list 16 (decrypt key block) /\
  decrypt key (encrypt key block) = block /\ encrypt key (decrypt key block) = block.
Proof.
  intros key b K B. rewrite byte_list_blk in *. rewrite !byte_list_blk.
  split; [apply encrypt_blk; assumption|]. split; [apply decrypt_blk; assumption|].
  split; [apply decrypt_encrypt|apply encrypt_decrypt]; assumption.
Qed.
Print Assumptions C56_inverse.

(** The same holds of the standard itself. *)
Theorem C56_standard : forall key block, byte_list 32 key -> byte_list 16 block ->
  InvCipher key (Cipher key block) = block /\ Cipher key (InvCipher key block) = block.
Proof.
  intros key b K B. rewrite byte_list_blk in *.
  rewrite <- (encrypt_is_cipher key b), <- (decrypt_is_inv_cipher key b) by assumption.
  rewrite <- decrypt_is_inv_cipher, <- encrypt_is_cipher by (assumption || apply encrypt_blk || apply decrypt_blk; assumption).
  split; [apply decrypt_encrypt|apply encrypt_decrypt]; assumption.
Qed.
Print Assumptions C56_standard.

(** CBC encryption of a whole number of blocks is that of SP 800-38A; any other length panics. *)
Theorem C56_cbc_encrypt : forall key iv plain, byte_list 32 key -> byte_list 16 iv -> byte_list (length plain) plain ->
  if (length plain mod 16 =? 0)%nat then
    exists ps cs, plain = concat ps /\ Forall (byte_list 16) ps /\ Forall (byte_list 16) cs /\
      cbc key iv ps cs /\ cbc_encrypt key iv plain = Some (concat cs)
  else cbc_encrypt key iv plain = None.
Proof.
  intros key iv plain K I [_ P]. rewrite byte_list_blk in *. destruct (Nat.eqb_spec (length plain mod 16) 0) as [M|M].
  - apply Nat.mod_divides in M as [n M]; [|lia]. apply Forall_forall in P.
    destruct (split_blocks n plain M P) as (ps & -> & B & _).
    destruct (enc_blocks (encrypt key) (fun b => encrypt_blk key b K) ps iv B I) as (cs & E & C & D).
    exists ps, cs. split; [reflexivity|].
    assert (W : forall l, Forall (blk 16) l -> Forall (byte_list 16) l).
    { intros l F. eapply Forall_impl; [|exact F]. intros b. apply byte_list_blk. }
    split; [apply W, B|]. split; [apply W, D|]. split; [apply chained_cbc; assumption|].
    rewrite cbc_encrypt_eq, chunks_concat by (apply blocks_len, B || reflexivity). exact E.
  - destruct (chunks_short (length plain) plain (le_n _) M) as (pre & b & E & L).
    rewrite cbc_encrypt_eq, E. apply enc_short, L.
Qed.
Print Assumptions C56_cbc_encrypt.

(** CBC decryption of a whole number of blocks gives the one plaintext that encrypts to them. *)
Theorem C56_cbc_decrypt : forall key iv cipher, byte_list 32 key -> byte_list 16 iv -> byte_list (length cipher) cipher ->
  if (length cipher mod 16 =? 0)%nat then
    exists ps cs, cipher = concat cs /\ Forall (byte_list 16) ps /\ Forall (byte_list 16) cs /\
      cbc key iv ps cs /\ cbc_decrypt key iv cipher = Some (concat ps) /\
      (forall ps', Forall (byte_list 16) ps' -> cbc key iv ps' cs -> ps' = ps)
  else cbc_decrypt key iv cipher = None.
Proof.
  intros key iv cipher K I [_ P]. rewrite byte_list_blk in *. destruct (Nat.eqb_spec (length cipher mod 16) 0) as [M|M].
  - apply Nat.mod_divides in M as [n M]; [|lia]. apply Forall_forall in P.
    destruct (split_blocks n cipher M P) as (cs & -> & B & _).
    destruct (dec_blocks (encrypt key) (decrypt key) (fun b => decrypt_blk key b K) (fun b => encrypt_decrypt key b K) cs iv B I)
      as (ps & E & C & D).
    exists ps, cs. split; [reflexivity|].
    assert (W : forall l, Forall (blk 16) l <-> Forall (byte_list 16) l).
    { intros l. split; intros F; (eapply Forall_impl; [|exact F]); intros b; apply byte_list_blk. }
    split; [apply W, D|]. split; [apply W, B|]. split; [apply chained_cbc; assumption|]. split.
    + rewrite cbc_decrypt_eq, chunks_concat by (apply blocks_len, B || reflexivity). exact E.
    + intros ps' P' H. apply W in P'.
      apply (chained_inj (encrypt key) (decrypt key) (fun b => decrypt_encrypt key b K) cs iv); try assumption.
      apply chained_cbc; assumption.
  - destruct (chunks_short (length cipher) cipher (le_n _) M) as (pre & b & E & L).
    rewrite cbc_decrypt_eq, E. apply dec_short, L.
Qed.
Print Assumptions C56_cbc_decrypt.

(** Decryption with the key and vector of the encryption gives the message back. *)
Theorem C56_cbc_round_trip : forall key iv plain, byte_list 32 key -> byte_list 16 iv -> byte_list (length plain) plain ->
  (length plain mod 16 = 0)%nat ->
  exists cipher, cbc_encrypt key iv plain = Some cipher /\ length cipher = length plain /\
    cbc_decrypt key iv cipher = Some plain.
Proof.
  intros key iv plain K I P M. pose proof (C56_cbc_encrypt key iv plain K I P) as E.
  rewrite M in E. cbn [Nat.eqb] in E. destruct E as (ps & cs & -> & Fp & Fc & C & E).
  exists (concat cs). split; [exact E|].
  assert (Len : forall l, Forall (byte_list 16) l -> length (concat l) = (16 * length l)%nat).
  { clear. intros l F. induction F as [|b l [L _] F IH]; [reflexivity|]. cbn [concat length]. rewrite app_length, IH, L. lia. }
  assert (L : length (concat cs) = length (concat ps)) by (rewrite !Len by assumption; destruct C as [-> _]; reflexivity).
  split; [exact L|].
  assert (Bc : byte_list (length (concat cs)) (concat cs)).
  { split; [reflexivity|]. intros b Hb. apply in_concat in Hb as (c & Hc & Hb). rewrite Forall_forall in Fc. apply (Fc c Hc), Hb. }
  pose proof (C56_cbc_decrypt key iv (concat cs) K I Bc) as D. rewrite L, M in D. cbn [Nat.eqb] in D.
  destruct D as (ps' & cs' & Ec & Fp' & Fc' & C' & D & U).
  assert (cs = cs').
  { rewrite <- (chunks_concat cs (length (concat cs))), <- (chunks_concat cs' (length (concat cs'))); rewrite ?Ec; try reflexivity;
      apply blocks_len; (eapply Forall_impl; [|eassumption]); intros b; apply byte_list_blk. }
  subst cs'. rewrite D. f_equal. f_equal. symmetry. apply U; assumption.
Qed.
Print Assumptions C56_cbc_round_trip.

(** The first block of the vectors F.1.5 and F.2.5 of SP 800-38A. *)
Definition nist_key : bytes := be_bytes 32 0x603deb1015ca71be2b73aef0857d77811f352c073b6108d72d9810a30914dff4.
Definition nist_iv : bytes := be_bytes 16 0x000102030405060708090a0b0c0d0e0f.
Definition nist_plain : bytes := be_bytes 16 0x6bc1bee22e409f96e93d7e117393172a.
Example C56_nonvacuous :
  byte_list 32 nist_key /\ byte_list 16 nist_iv /\ byte_list 16 nist_plain /\
  encrypt nist_key nist_plain = be_bytes 16 0xf3eed1bdb5d2a03c064b5a7e3db181f8 /\
  cbc_encrypt nist_key nist_iv nist_plain = Some (be_bytes 16 0xf58c4c04d6e5f1ba779eabfb5f7bfbd6) /\
  cbc_encrypt nist_key nist_iv (nist_plain ++ [0]) = None.
Proof.
  assert (E : forall n l, length l = n -> forallb (fun b => b <? 256) l = true -> byte_list n l).
  { intros n l L F. split; [exact L|]. intros b Hb. rewrite forallb_forall in F. apply N.ltb_lt, F, Hb. }
  split; [apply E; vm_compute; reflexivity|]. split; [apply E; vm_compute; reflexivity|]. split; [apply E; vm_compute; reflexivity|].
  split; [vm_compute; reflexivity|]. split; vm_compute; reflexivity.
Qed.
