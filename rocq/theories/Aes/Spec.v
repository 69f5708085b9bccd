(** AES-256 as the standard defines it (FIPS 197). The state is a matrix of 4 rows and 4 columns. *)
From Verif Require Import Base.
Open Scope N_scope.

(** ** Section 4: bytes as polynomials over GF(2) *)

(** The product of polynomials, before reduction. *)
Definition pmul (a b : N) : N :=
  fold_left (fun acc i => if N.testbit b (N.of_nat i) then N.lxor acc (N.shiftl a (N.of_nat i)) else acc)
            (seq 0 8) 0.
(** The remainder modulo m(x) = x^8 + x^4 + x^3 + x + 1, from the highest degree down. *)
Definition pmod (a : N) : N :=
  fold_left (fun acc i => if N.testbit acc (N.of_nat (8 + i)) then N.lxor acc (N.shiftl 0x11b (N.of_nat i)) else acc)
            (rev (seq 0 7)) a.
(** 4.2: multiplication in GF(2^8). *)
Definition gmul (a b : N) : N := pmod (pmul a b).
Definition all_bytes : list N := map N.of_nat (seq 0 256).
(** The multiplicative inverse; 0 is mapped to itself. *)
Definition ginv (a : N) : N :=
  match find (fun b => gmul a b =? 1) all_bytes with Some b => b | None => 0 end.

(** ** Section 5.1.1: the S-box: inverse, then the affine transformation *)
Definition bit (b : N) (i : nat) : bool := N.testbit b (N.of_nat (i mod 8)).
Definition affine_bit (b : N) (i : nat) : bool :=
  xorb (bit b i) (xorb (bit b (i + 4)) (xorb (bit b (i + 5)) (xorb (bit b (i + 6)) (xorb (bit b (i + 7))
    (bit 0x63 i))))).
Definition affine (b : N) : N :=
  fold_left (fun acc i => if affine_bit b i then N.setbit acc (N.of_nat i) else acc) (seq 0 8) 0.
Definition sbox (b : N) : N := affine (ginv b).
(** 5.3.2: the inverse S-box. *)
Definition inv_sbox (b : N) : N :=
  match find (fun x => sbox x =? b) all_bytes with Some x => x | None => 0 end.

(** ** Section 3.4: the state *)
Definition state := nat -> nat -> N.   (* row, column *)
Definition to_state (input : bytes) : state := fun r c => nth (r + 4 * c)%nat input 0.
Definition of_state (s : state) : bytes :=
  flat_map (fun c => map (fun r => s r c) (seq 0 4)) (seq 0 4).

(** ** Section 5: the transformations *)
Definition SubBytes (s : state) : state := fun r c => sbox (s r c).
Definition ShiftRows (s : state) : state := fun r c => s r ((c + r) mod 4)%nat.
Definition mix (m : nat -> nat -> N) (s : state) : state := fun r c =>
  fold_left N.lxor (map (fun k => gmul (m r k) (s k c)) (seq 0 4)) 0.
(** 5.1.3: multiplication by a(x) = {03}x^3 + {01}x^2 + {01}x + {02} modulo x^4 + 1: the row r of the
    matrix is the first row rotated to the right r times. *)
Definition MixColumns : state -> state := mix (fun r k => nth ((k + 4 - r) mod 4)%nat [2; 3; 1; 1] 0).
Definition InvSubBytes (s : state) : state := fun r c => inv_sbox (s r c).
Definition InvShiftRows (s : state) : state := fun r c => s r ((c + 4 - r) mod 4)%nat.
(** 5.3.3: a^-1(x) = {0b}x^3 + {0d}x^2 + {09}x + {0e}. *)
Definition InvMixColumns : state -> state := mix (fun r k => nth ((k + 4 - r) mod 4)%nat [14; 11; 13; 9] 0).
(** 5.1.4: the words of the key schedule are columns. *)
Definition AddRoundKey (s : state) (w : nat -> bytes) (round : nat) : state := fun r c =>
  N.lxor (s r c) (nth r (w (4 * round + c)%nat) 0).

(** ** Section 5.2: the key expansion, for Nk = 8 and Nr = 14 *)
Definition SubWord (w : bytes) : bytes := map sbox w.
Definition RotWord (w : bytes) : bytes := match w with [a0; a1; a2; a3] => [a1; a2; a3; a0] | _ => w end.
Definition xor_words (a b : bytes) : bytes := map (fun p => N.lxor (fst p) (snd p)) (combine a b).
(** Rcon[i] = [x^(i-1), {00}, {00}, {00}]. *)
Fixpoint xpow (i : nat) : N := match i with O => 1 | S i' => gmul 2 (xpow i') end.
Definition Rcon (i : nat) : bytes := [xpow (i - 1); 0; 0; 0].
(** The word i from the words before it. *)
Definition next_word (key : bytes) (w : list bytes) (i : nat) : bytes :=
  if (i <? 8)%nat then firstn 4 (skipn (4 * i) key)
  else
    let temp := nth (i - 1) w [] in
    let temp := if (i mod 8 =? 0)%nat then xor_words (SubWord (RotWord temp)) (Rcon (i / 8))
                else if (i mod 8 =? 4)%nat then SubWord temp
                else temp in
    xor_words (nth (i - 8) w []) temp.
Fixpoint expansion (key : bytes) (n : nat) : list bytes :=
  match n with
  | O => []
  | S n' => let w := expansion key n' in w ++ [next_word key w n']
  end.
Definition key_word (key : bytes) (i : nat) : bytes := nth i (expansion key 60) [].

(** ** Figures 5 and 12: the cipher and the inverse cipher *)
Definition Cipher (key input : bytes) : bytes :=
  let w := key_word key in
  let s := AddRoundKey (to_state input) w 0 in
  let s := fold_left (fun s round => AddRoundKey (MixColumns (ShiftRows (SubBytes s))) w round) (seq 1 13) s in
  of_state (AddRoundKey (ShiftRows (SubBytes s)) w 14).
Definition InvCipher (key input : bytes) : bytes :=
  let w := key_word key in
  let s := AddRoundKey (to_state input) w 14 in
  let s := fold_left (fun s round => InvMixColumns (AddRoundKey (InvSubBytes (InvShiftRows s)) w round))
                     (rev (seq 1 13)) s in
  of_state (AddRoundKey (InvSubBytes (InvShiftRows s)) w 0).

(** ** Values of the types [u8; n] *)
Definition byte_list (n : nat) (l : bytes) : Prop := length l = n /\ forall b, In b l -> b < 256.

(** ** Cipher block chaining (NIST SP 800-38A, section 6.2): C_0 is the initialisation vector and
    C_j = CIPH_K(P_j xor C_(j-1)) *)
Definition cbc (key iv : bytes) (ps cs : list bytes) : Prop :=
  length cs = length ps /\
  forall j, (j < length ps)%nat -> nth j cs [] = Cipher key (xor_words (nth j ps []) (nth j (iv :: cs) [])).
