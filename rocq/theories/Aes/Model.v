(** AES-256 of the cryptographic library (libraries/crypto/src/aes256.rs, util.rs). Blocks are lists of 16
    bytes and words lists of 4 bytes; that they have these lengths is by type in the code and a
    hypothesis of the theorems. Erasing keys from memory is not modelled. *)
From Verif Require Import Base.
Open Scope N_scope.

(** [l[i] = v]; [l[i]]. *)
Fixpoint put (l : bytes) (i : nat) (v : N) : bytes :=
  match l, i with
  | [], _ => []
  | _ :: l', O => v :: l'
  | x :: l', S i' => x :: put l' i' v
  end.
Definition at_ (l : bytes) (i : nat) : N := nth i l 0.
(** core: slice::swap. *)
Definition swap (l : bytes) (i j : nat) : bytes := put (put l i (at_ l j)) j (at_ l i).

(** aes256.rs 261: RCON. *)
Definition RCON : bytes := [0x01; 0x02; 0x04; 0x08; 0x10; 0x20; 0x40].
(** 264-281: SBOX. *)
Definition SBOX : bytes :=
  [0x63; 0x7c; 0x77; 0x7b; 0xf2; 0x6b; 0x6f; 0xc5; 0x30; 0x01; 0x67; 0x2b; 0xfe; 0xd7; 0xab; 0x76;
   0xca; 0x82; 0xc9; 0x7d; 0xfa; 0x59; 0x47; 0xf0; 0xad; 0xd4; 0xa2; 0xaf; 0x9c; 0xa4; 0x72; 0xc0;
   0xb7; 0xfd; 0x93; 0x26; 0x36; 0x3f; 0xf7; 0xcc; 0x34; 0xa5; 0xe5; 0xf1; 0x71; 0xd8; 0x31; 0x15;
   0x04; 0xc7; 0x23; 0xc3; 0x18; 0x96; 0x05; 0x9a; 0x07; 0x12; 0x80; 0xe2; 0xeb; 0x27; 0xb2; 0x75;
   0x09; 0x83; 0x2c; 0x1a; 0x1b; 0x6e; 0x5a; 0xa0; 0x52; 0x3b; 0xd6; 0xb3; 0x29; 0xe3; 0x2f; 0x84;
   0x53; 0xd1; 0x00; 0xed; 0x20; 0xfc; 0xb1; 0x5b; 0x6a; 0xcb; 0xbe; 0x39; 0x4a; 0x4c; 0x58; 0xcf;
   0xd0; 0xef; 0xaa; 0xfb; 0x43; 0x4d; 0x33; 0x85; 0x45; 0xf9; 0x02; 0x7f; 0x50; 0x3c; 0x9f; 0xa8;
   0x51; 0xa3; 0x40; 0x8f; 0x92; 0x9d; 0x38; 0xf5; 0xbc; 0xb6; 0xda; 0x21; 0x10; 0xff; 0xf3; 0xd2;
   0xcd; 0x0c; 0x13; 0xec; 0x5f; 0x97; 0x44; 0x17; 0xc4; 0xa7; 0x7e; 0x3d; 0x64; 0x5d; 0x19; 0x73;
   0x60; 0x81; 0x4f; 0xdc; 0x22; 0x2a; 0x90; 0x88; 0x46; 0xee; 0xb8; 0x14; 0xde; 0x5e; 0x0b; 0xdb;
   0xe0; 0x32; 0x3a; 0x0a; 0x49; 0x06; 0x24; 0x5c; 0xc2; 0xd3; 0xac; 0x62; 0x91; 0x95; 0xe4; 0x79;
   0xe7; 0xc8; 0x37; 0x6d; 0x8d; 0xd5; 0x4e; 0xa9; 0x6c; 0x56; 0xf4; 0xea; 0x65; 0x7a; 0xae; 0x08;
   0xba; 0x78; 0x25; 0x2e; 0x1c; 0xa6; 0xb4; 0xc6; 0xe8; 0xdd; 0x74; 0x1f; 0x4b; 0xbd; 0x8b; 0x8a;
   0x70; 0x3e; 0xb5; 0x66; 0x48; 0x03; 0xf6; 0x0e; 0x61; 0x35; 0x57; 0xb9; 0x86; 0xc1; 0x1d; 0x9e;
   0xe1; 0xf8; 0x98; 0x11; 0x69; 0xd9; 0x8e; 0x94; 0x9b; 0x1e; 0x87; 0xe9; 0xce; 0x55; 0x28; 0xdf;
   0x8c; 0xa1; 0x89; 0x0d; 0xbf; 0xe6; 0x42; 0x68; 0x41; 0x99; 0x2d; 0x0f; 0xb0; 0x54; 0xbb; 0x16].
(** 283-300: SBOX_INV. *)
Definition SBOX_INV : bytes :=
  [0x52; 0x09; 0x6a; 0xd5; 0x30; 0x36; 0xa5; 0x38; 0xbf; 0x40; 0xa3; 0x9e; 0x81; 0xf3; 0xd7; 0xfb;
   0x7c; 0xe3; 0x39; 0x82; 0x9b; 0x2f; 0xff; 0x87; 0x34; 0x8e; 0x43; 0x44; 0xc4; 0xde; 0xe9; 0xcb;
   0x54; 0x7b; 0x94; 0x32; 0xa6; 0xc2; 0x23; 0x3d; 0xee; 0x4c; 0x95; 0x0b; 0x42; 0xfa; 0xc3; 0x4e;
   0x08; 0x2e; 0xa1; 0x66; 0x28; 0xd9; 0x24; 0xb2; 0x76; 0x5b; 0xa2; 0x49; 0x6d; 0x8b; 0xd1; 0x25;
   0x72; 0xf8; 0xf6; 0x64; 0x86; 0x68; 0x98; 0x16; 0xd4; 0xa4; 0x5c; 0xcc; 0x5d; 0x65; 0xb6; 0x92;
   0x6c; 0x70; 0x48; 0x50; 0xfd; 0xed; 0xb9; 0xda; 0x5e; 0x15; 0x46; 0x57; 0xa7; 0x8d; 0x9d; 0x84;
   0x90; 0xd8; 0xab; 0x00; 0x8c; 0xbc; 0xd3; 0x0a; 0xf7; 0xe4; 0x58; 0x05; 0xb8; 0xb3; 0x45; 0x06;
   0xd0; 0x2c; 0x1e; 0x8f; 0xca; 0x3f; 0x0f; 0x02; 0xc1; 0xaf; 0xbd; 0x03; 0x01; 0x13; 0x8a; 0x6b;
   0x3a; 0x91; 0x11; 0x41; 0x4f; 0x67; 0xdc; 0xea; 0x97; 0xf2; 0xcf; 0xce; 0xf0; 0xb4; 0xe6; 0x73;
   0x96; 0xac; 0x74; 0x22; 0xe7; 0xad; 0x35; 0x85; 0xe2; 0xf9; 0x37; 0xe8; 0x1c; 0x75; 0xdf; 0x6e;
   0x47; 0xf1; 0x1a; 0x71; 0x1d; 0x29; 0xc5; 0x89; 0x6f; 0xb7; 0x62; 0x0e; 0xaa; 0x18; 0xbe; 0x1b;
   0xfc; 0x56; 0x3e; 0x4b; 0xc6; 0xd2; 0x79; 0x20; 0x9a; 0xdb; 0xc0; 0xfe; 0x78; 0xcd; 0x5a; 0xf4;
   0x1f; 0xdd; 0xa8; 0x33; 0x88; 0x07; 0xc7; 0x31; 0xb1; 0x12; 0x10; 0x59; 0x27; 0x80; 0xec; 0x5f;
   0x60; 0x51; 0x7f; 0xa9; 0x19; 0xb5; 0x4a; 0x0d; 0x2d; 0xe5; 0x7a; 0x9f; 0x93; 0xc9; 0x9c; 0xef;
   0xa0; 0xe0; 0x3b; 0x4d; 0xae; 0x2a; 0xf5; 0xb0; 0xc8; 0xeb; 0xbb; 0x3c; 0x83; 0x53; 0x99; 0x61;
   0x17; 0x2b; 0x04; 0x7e; 0xba; 0x77; 0xd6; 0x26; 0xe1; 0x69; 0x14; 0x63; 0x55; 0x21; 0x0c; 0x7d].

(** ** Key schedule *)

(** 105-111: rotword. *)
Definition rotword (word : bytes) : bytes :=
  let tmp := at_ word 0 in
  let word := put word 0 (at_ word 1) in
  let word := put word 1 (at_ word 2) in
  let word := put word 2 (at_ word 3) in
  put word 3 tmp.
(** 113-117: subword. *)
Definition subword (word : bytes) : bytes := map (fun b => at_ SBOX (N.to_nat b)) word.
(** 119-123: xorword; util.rs 20-25: xor_block_16. *)
Definition xors (a b : bytes) : bytes := map (fun p => N.lxor (fst p) (snd p)) (combine a b).
(** array_ref! of 4 bytes at 4 * j. *)
Definition word_at (block : bytes) (j : nat) : bytes := firstn 4 (skipn (4 * j) block).
(** 59-62: the inner loop: from the word and the round key before the last to the new round key and the
    last word. *)
Definition key_words (word prev : bytes) : bytes * bytes :=
  fold_left (fun acc j => let w := xors (snd acc) (word_at prev j) in (fst acc ++ w, w))
            (seq 0 4) ([], word).
(** 50-63: one iteration of the outer loop. *)
Definition key_round (acc : list bytes * bytes) (i : nat) : list bytes * bytes :=
  let '(keys, word) := acc in
  let word :=
    if Nat.even i then
      let word := subword (rotword word) in
      put word 0 (N.lxor (at_ word 0) (at_ RCON (i / 2 - 1)))
    else subword word in
  let '(rk, word) := key_words word (nth (i - 2) keys []) in
  (keys ++ [rk], word).
(** 43-66: EncryptionKey::new. *)
Definition enc_round_keys (key : bytes) : list bytes :=
  let rk0 := firstn 16 key in
  let rk1 := firstn 16 (skipn 16 key) in
  fst (fold_left key_round (seq 2 13) ([rk0; rk1], word_at rk1 3)).

(** ** Rounds *)

(** 153-155: add_round_key. *)
Definition add_round_key (block rkey : bytes) : bytes := xors block rkey.
(** 157-167: sub_bytes and inv_sub_bytes. *)
Definition sub_bytes (block : bytes) : bytes := map (fun b => at_ SBOX (N.to_nat b)) block.
Definition inv_sub_bytes (block : bytes) : bytes := map (fun b => at_ SBOX_INV (N.to_nat b)) block.
(** 169-184: shift_rows. *)
Definition shift_rows (block : bytes) : bytes :=
  let tmp := at_ block 1 in
  let block := put block 1 (at_ block 5) in
  let block := put block 5 (at_ block 9) in
  let block := put block 9 (at_ block 13) in
  let block := put block 13 tmp in
  let block := swap block 2 10 in
  let block := swap block 6 14 in
  let tmp := at_ block 3 in
  let block := put block 3 (at_ block 15) in
  let block := put block 15 (at_ block 11) in
  let block := put block 11 (at_ block 7) in
  put block 7 tmp.
(** 186-201: inv_shift_rows. *)
Definition inv_shift_rows (block : bytes) : bytes :=
  let tmp := at_ block 7 in
  let block := put block 7 (at_ block 11) in
  let block := put block 11 (at_ block 15) in
  let block := put block 15 (at_ block 3) in
  let block := put block 3 tmp in
  let block := swap block 2 10 in
  let block := swap block 6 14 in
  let tmp := at_ block 13 in
  let block := put block 13 (at_ block 9) in
  let block := put block 9 (at_ block 5) in
  let block := put block 5 (at_ block 1) in
  put block 1 tmp.

(** 204-206: mul2, on u8. *)
Definition mul2 (x : N) : N :=
  N.lxor (N.shiftl x 1 mod 256) (N.land (N.shiftr x 7) 1 * 0x1b).
(** 209-211: mul3; 227-244: mul9, mul11, mul13 and mul14. *)
Definition mul3 (x : N) : N := N.lxor (mul2 x) x.
Definition mul9 (x : N) : N := N.lxor (mul2 (mul2 (mul2 x))) x.
Definition mul11 (x : N) : N := N.lxor (mul2 (N.lxor (mul2 (mul2 x)) x)) x.
Definition mul13 (x : N) : N := N.lxor (mul2 (mul2 (N.lxor (mul2 x) x))) x.
Definition mul14 (x : N) : N := mul2 (N.lxor (mul2 (N.lxor (mul2 x) x)) x).
Definition xor4 (a b c d : N) : N := N.lxor (N.lxor (N.lxor a b) c) d.
(** 213-224: mix_columns; [mix_column] is one iteration. *)
Definition mix_column (block : bytes) (i : nat) : bytes :=
  let x0 := at_ block (4 * i) in
  let x1 := at_ block (4 * i + 1) in
  let x2 := at_ block (4 * i + 2) in
  let x3 := at_ block (4 * i + 3) in
  let block := put block (4 * i) (xor4 (mul2 x0) (mul3 x1) x2 x3) in
  let block := put block (4 * i + 1) (xor4 x0 (mul2 x1) (mul3 x2) x3) in
  let block := put block (4 * i + 2) (xor4 x0 x1 (mul2 x2) (mul3 x3)) in
  put block (4 * i + 3) (xor4 (mul3 x0) x1 x2 (mul2 x3)).
Definition mix_columns (block : bytes) : bytes := fold_left mix_column (seq 0 4) block.
(** 246-257: inv_mix_columns. *)
Definition inv_mix_column (block : bytes) (i : nat) : bytes :=
  let x0 := at_ block (4 * i) in
  let x1 := at_ block (4 * i + 1) in
  let x2 := at_ block (4 * i + 2) in
  let x3 := at_ block (4 * i + 3) in
  let block := put block (4 * i) (xor4 (mul14 x0) (mul11 x1) (mul13 x2) (mul9 x3)) in
  let block := put block (4 * i + 1) (xor4 (mul9 x0) (mul14 x1) (mul11 x2) (mul13 x3)) in
  let block := put block (4 * i + 2) (xor4 (mul13 x0) (mul9 x1) (mul14 x2) (mul11 x3)) in
  put block (4 * i + 3) (xor4 (mul11 x0) (mul13 x1) (mul9 x2) (mul14 x3)).
Definition inv_mix_columns (block : bytes) : bytes := fold_left inv_mix_column (seq 0 4) block.

(** 126-131: aes_enc; 133-138: aes_dec; 140-144: aes_enc_last; 146-150: aes_dec_last. *)
Definition aes_enc (block rkey : bytes) : bytes :=
  add_round_key (mix_columns (shift_rows (sub_bytes block))) rkey.
Definition aes_dec (block rkey : bytes) : bytes :=
  add_round_key (inv_mix_columns (inv_sub_bytes (inv_shift_rows block))) rkey.
Definition aes_enc_last (block rkey : bytes) : bytes :=
  add_round_key (shift_rows (sub_bytes block)) rkey.
Definition aes_dec_last (block rkey : bytes) : bytes :=
  add_round_key (inv_sub_bytes (inv_shift_rows block)) rkey.

(** 69-75: encrypt_block. *)
Definition encrypt_block (keys : list bytes) (block : bytes) : bytes :=
  let block := add_round_key block (nth 0 keys []) in
  let block := fold_left (fun b i => aes_enc b (nth i keys [])) (seq 1 13) block in
  aes_enc_last block (nth 14 keys []).
(** 80-92: DecryptionKey::new. *)
Definition dec_round_keys (keys : list bytes) : list bytes :=
  nth 14 keys [] :: map (fun i => inv_mix_columns (nth (14 - i) keys [])) (seq 1 13) ++ [nth 0 keys []].
(** 95-101: decrypt_block. *)
Definition decrypt_block (keys : list bytes) (block : bytes) : bytes :=
  let block := add_round_key block (nth 0 keys []) in
  let block := fold_left (fun b i => aes_dec b (nth i keys [])) (seq 1 13) block in
  aes_dec_last block (nth 14 keys []).

(** The interface: a key of 32 bytes encrypts and decrypts blocks of 16 bytes. *)
Definition encrypt (key block : bytes) : bytes := encrypt_block (enc_round_keys key) block.
Definition decrypt (key block : bytes) : bytes :=
  decrypt_block (dec_round_keys (enc_round_keys key)) block.

(** ** CBC mode (libraries/crypto/src/cbc.rs) *)

(** core: slice::chunks_mut(16): the last chunk may be shorter; [n] is at least the length. *)
Fixpoint chunks (n : nat) (l : bytes) : list bytes :=
  match n, l with
  | S n', _ :: _ => firstn 16 l :: chunks n' (skipn 16 l)
  | _, _ => []
  end.
(** cbc.rs 24-31: cbc_encrypt, where [f] encrypts a block with the key; [None] is the panic of
    [try_into().unwrap()] on a chunk of another size. *)
Fixpoint cbc_encrypt_chunks (f : bytes -> bytes) (iv : bytes) (l : list bytes) : option bytes :=
  match l with
  | [] => Some []
  | block :: l' =>
      if negb (Nat.eqb (length block) 16) then None
      else let block := f (xors block iv) in
           option_map (fun r => block ++ r) (cbc_encrypt_chunks f block l')
  end.
Definition cbc_encrypt (key iv l : bytes) : option bytes :=
  let keys := enc_round_keys key in
  cbc_encrypt_chunks (encrypt_block keys) iv (chunks (length l) l).
(** 38-46: cbc_decrypt, where [f] decrypts a block with the key. *)
Fixpoint cbc_decrypt_chunks (f : bytes -> bytes) (iv : bytes) (l : list bytes) : option bytes :=
  match l with
  | [] => Some []
  | block :: l' =>
      if negb (Nat.eqb (length block) 16) then None
      else option_map (fun r => xors (f block) iv ++ r) (cbc_decrypt_chunks f block l')
  end.
Definition cbc_decrypt (key iv l : bytes) : option bytes :=
  let keys := dec_round_keys (enc_round_keys key) in
  cbc_decrypt_chunks (decrypt_block keys) iv (chunks (length l) l).
