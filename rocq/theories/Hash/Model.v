(** The hash functions of the cryptographic library: SHA-256 with its streaming interface, HMAC and HKDF
    (libraries/crypto/src/sha256.rs, hmac.rs, hkdf.rs, lib.rs). *)
From Verif Require Import Base.
Open Scope N_scope.

(** ** Words: Wrapping<u32> *)

Definition WORD : N := 2 ^ 32.
Definition add32 (a b : N) : N := (a + b) mod WORD.
(** core: u32::rotate_right, [!]. *)
Definition rotate_right (x n : N) : N := N.lor (N.shiftr x n) (N.shiftl x (32 - n) mod WORD).
Definition not32 (x : N) : N := N.lxor x (WORD - 1).

(** sha256.rs 214-223: choice and majority. *)
Definition choice (e f g : N) : N := N.lxor (N.land e f) (N.land (not32 e) g).
Definition majority (a b c : N) : N := N.lxor (N.lxor (N.land a b) (N.land a c)) (N.land b c).
(** 225-243: bsig0, bsig1, ssig0, ssig1. *)
Definition bsig0 (x : N) : N := N.lxor (N.lxor (rotate_right x 2) (rotate_right x 13)) (rotate_right x 22).
Definition bsig1 (x : N) : N := N.lxor (N.lxor (rotate_right x 6) (rotate_right x 11)) (rotate_right x 25).
Definition ssig0 (x : N) : N := N.lxor (N.lxor (rotate_right x 7) (rotate_right x 18)) (N.shiftr x 3).
Definition ssig1 (x : N) : N := N.lxor (N.lxor (rotate_right x 17) (rotate_right x 19)) (N.shiftr x 10).

(** The eight words of the state. *)
Record regs := mkRegs { ra : N; rb : N; rc : N; rd : N; re : N; rf : N; rg : N; rh : N }.

(** 183-192: H. *)
Definition H : regs :=
  mkRegs 0x6a09e667 0xbb67ae85 0x3c6ef372 0xa54ff53a 0x510e527f 0x9b05688c 0x1f83d9ab 0x5be0cd19.
(** 195-206: K. *)
Definition K : list N :=
  [0x428a2f98; 0x71374491; 0xb5c0fbcf; 0xe9b5dba5; 0x3956c25b; 0x59f111f1; 0x923f82a4;
   0xab1c5ed5; 0xd807aa98; 0x12835b01; 0x243185be; 0x550c7dc3; 0x72be5d74; 0x80deb1fe;
   0x9bdc06a7; 0xc19bf174; 0xe49b69c1; 0xefbe4786; 0x0fc19dc6; 0x240ca1cc; 0x2de92c6f;
   0x4a7484aa; 0x5cb0a9dc; 0x76f988da; 0x983e5152; 0xa831c66d; 0xb00327c8; 0xbf597fc7;
   0xc6e00bf3; 0xd5a79147; 0x06ca6351; 0x14292967; 0x27b70a85; 0x2e1b2138; 0x4d2c6dfc;
   0x53380d13; 0x650a7354; 0x766a0abb; 0x81c2c92e; 0x92722c85; 0xa2bfe8a1; 0xa81a664b;
   0xc24b8b70; 0xc76c51a3; 0xd192e819; 0xd6990624; 0xf40e3585; 0x106aa070; 0x19a4c116;
   0x1e376c08; 0x2748774c; 0x34b0bcb5; 0x391c0cb3; 0x4ed8aa4a; 0x5b9cca4f; 0x682e6ff3;
   0x748f82ee; 0x78a5636f; 0x84c87814; 0x8cc70208; 0x90befffa; 0xa4506ceb; 0xbef9a3f7;
   0xc67178f2].

(** ** hash_block (sha256.rs 131-178) *)

(** 134-137: the block as big-endian words. *)
Definition block_words (block : bytes) : list N :=
  map (fun i => of_be (firstn 4 (skipn (4 * i) block))) (seq 0 16).
(** 139-141: the loop over i in 16..64; the array w is as long as the words computed so far. *)
Definition extend (w : list N) (i : nat) : list N :=
  w ++ [add32 (add32 (add32 (nth (i - 16) w 0) (ssig0 (nth (i - 15) w 0))) (nth (i - 7) w 0))
              (ssig1 (nth (i - 2) w 0))].
Definition expand (block : bytes) : list N := fold_left extend (seq 16 48) (block_words block).
(** 152-165: one iteration of the main loop. *)
Definition round (s : regs) (kw : N * N) : regs :=
  let tmp1 := add32 (add32 (add32 (add32 (rh s) (bsig1 (re s))) (choice (re s) (rf s) (rg s))) (fst kw)) (snd kw) in
  let tmp2 := add32 (bsig0 (ra s)) (majority (ra s) (rb s) (rc s)) in
  mkRegs (add32 tmp1 tmp2) (ra s) (rb s) (rc s) (add32 (rd s) tmp1) (re s) (rf s) (rg s).
Definition add_regs (s t : regs) : regs :=
  mkRegs (add32 (ra s) (ra t)) (add32 (rb s) (rb t)) (add32 (rc s) (rc t)) (add32 (rd s) (rd t))
         (add32 (re s) (re t)) (add32 (rf s) (rf t)) (add32 (rg s) (rg t)) (add32 (rh s) (rh t)).
Definition hash_block (s : regs) (block : bytes) : regs :=
  add_regs s (fold_left round (combine K (expand block)) s).

(** ** The streaming interface (sha256.rs 30-127) *)

Record sha := mkSha { s_state : regs; s_block : bytes; s_total : N }.
(** 50-57: new.  BUSY is a const, so that every use of it is a fresh cell: the assertion always holds. *)
Definition sha_new : sha := mkSha H (repeat 0 64) 0.
(** slice[start..start + contents.len()].copy_from_slice(contents). *)
Definition copy_at (block : bytes) (start : nat) (contents : bytes) : bytes :=
  firstn start block ++ contents ++ skipn (start + length contents) block.
(** 80-84: while contents.len() >= 64. *)
Fixpoint full_blocks (fuel : nat) (s : regs) (contents : bytes) : regs * bytes :=
  match fuel with
  | O => (s, contents)
  | S fuel' =>
      if (length contents <? 64)%nat then (s, contents)
      else full_blocks fuel' (hash_block s (firstn 64 contents)) (skipn 64 contents)
  end.
(** 59-89: update, for a usize of [width] bits; None: the sum overflows. *)
Definition update (width : N) (s : sha) (contents : bytes) : option sha :=
  let cursor := N.to_nat (s_total s mod 64) in
  let left := (64 - cursor)%nat in
  if 2 ^ width <=? s_total s + Nlen contents then None
  else
    let total := s_total s + Nlen contents in
    if (length contents <? left)%nat then
      Some (mkSha (s_state s) (copy_at (s_block s) cursor contents) total)
    else
      let block := copy_at (s_block s) cursor (firstn left contents) in
      let state := hash_block (s_state s) block in
      let '(state, rest) := full_blocks (length contents) state (skipn left contents) in
      Some (mkSha state (copy_at block 0 rest) total).
(** 121-123: the state as bytes. *)
Definition encode (s : regs) : bytes :=
  flat_map (be_bytes 4) [ra s; rb s; rc s; rd s; re s; rf s; rg s; rh s].
(** 91-126: finalize; None: the length in bits overflows u64. *)
Definition finalize (s : sha) : option bytes :=
  let cursor := N.to_nat (s_total s mod 64) in
  let block := copy_at (s_block s) cursor [0x80] in
  let block := firstn (cursor + 1) block ++ repeat 0 (64 - (cursor + 1)) in
  let '(state, block) :=
    if (56 <=? cursor)%nat then (hash_block (s_state s) block, repeat 0 64) else (s_state s, block) in
  if 2 ^ 64 <=? s_total s * 8 then None
  else
    let block := copy_at block 56 (be_bytes 8 (s_total s * 8)) in
    Some (encode (hash_block state block)).

Fixpoint updates (width : N) (s : sha) (chunks : list bytes) : option sha :=
  match chunks with
  | [] => Some s
  | c :: chunks' =>
      match update width s c with Some s' => updates width s' chunks' | None => None end
  end.
(** new, any number of calls of update, and finalize. *)
Definition stream (width : N) (chunks : list bytes) : option bytes :=
  match updates width sha_new chunks with Some s => finalize s | None => None end.

(** lib.rs 45-49: hash_mut and hash. *)
Definition hash (width : N) (contents : bytes) : option bytes := stream width [contents].

(** ** HMAC (hmac.rs) *)

(** 78-83: xor_pads, on one of the pads.  A key has 32 bytes. *)
Definition xor_pad (pad : N) (key : bytes) : bytes :=
  map (fun k => N.lxor pad k) key ++ repeat pad (64 - length key).
(** 53-76: software_hmac_256.  Keys have 32 bytes, so that the branch for long keys is dead. *)
Definition hmac (width : N) (key contents : bytes) : option bytes :=
  match stream width [xor_pad 0x36 key; contents] with
  | Some ihash => stream width [xor_pad 0x5c key; ihash]
  | None => None
  end.
(** 23-30: verify_hmac_256, 34-45: verify_hmac_256_first_128bits. *)
Definition bytes_eqb (a b : bytes) : bool := match lexcmp a b with Eq => true | _ => false end.
Definition verify_hmac (width : N) (key contents mac : bytes) : option bool :=
  match hmac width key contents with Some m => Some (bytes_eqb m mac) | None => None end.
Definition verify_hmac_128 (width : N) (key contents pin : bytes) : option bool :=
  match hmac width key contents with Some m => Some (bytes_eqb (firstn 16 m) pin) | None => None end.

(** ** HKDF (hkdf.rs) *)

(** 29-39: hkdf_256. *)
Definition hkdf (width : N) (ikm salt info : bytes) : option bytes :=
  match hmac width salt ikm with
  | Some prk => hmac width prk (info ++ [1])
  | None => None
  end.
(** 50-56: hkdf_empty_salt_256. *)
Definition hkdf_empty_salt (width : N) (ikm info : bytes) : option bytes :=
  hkdf width ikm (repeat 0 32) info.
