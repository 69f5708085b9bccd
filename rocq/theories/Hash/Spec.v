(** SHA-256 as in FIPS 180-4, HMAC as in RFC 2104 and HKDF as in RFC 5869.  Only the shared vocabulary
    of byte strings is used from the model. *)
From Verif Require Import Base.
From Coq Require Import Znumtheory.
Open Scope N_scope.

(** ** FIPS 180-4 *)

(** 3.2: operations on words of 32 bits. *)
Definition plus (l : list N) : N := fold_right N.add 0 l mod 2 ^ 32.
Definition SHR (n x : N) : N := N.shiftr x n.
Definition ROTR (n x : N) : N := N.lor (N.shiftr x n) (N.shiftl x (32 - n) mod 2 ^ 32).
Definition NOT (x : N) : N := 2 ^ 32 - 1 - x.
(** 4.1.2: functions. *)
Definition Ch (x y z : N) : N := N.lxor (N.land x y) (N.land (NOT x) z).
Definition Maj (x y z : N) : N := N.lxor (N.lxor (N.land x y) (N.land x z)) (N.land y z).
Definition Sum0 (x : N) : N := N.lxor (N.lxor (ROTR 2 x) (ROTR 13 x)) (ROTR 22 x).
Definition Sum1 (x : N) : N := N.lxor (N.lxor (ROTR 6 x) (ROTR 11 x)) (ROTR 25 x).
Definition sig0 (x : N) : N := N.lxor (N.lxor (ROTR 7 x) (ROTR 18 x)) (SHR 3 x).
Definition sig1 (x : N) : N := N.lxor (N.lxor (ROTR 17 x) (ROTR 19 x)) (SHR 10 x).

(** The first 64 primes. *)
Definition primes : list N :=
  [2; 3; 5; 7; 11; 13; 17; 19; 23; 29; 31; 37; 41; 43; 47; 53; 59; 61; 67; 71; 73; 79; 83; 89; 97; 101;
   103; 107; 109; 113; 127; 131; 137; 139; 149; 151; 157; 163; 167; 173; 179; 181; 191; 193; 197; 199; 211;
   223; 227; 229; 233; 239; 241; 251; 257; 263; 269; 271; 277; 281; 283; 293; 307; 311].
(** 4.2.2: the first 32 bits of the fractional part of the cube root of the t-th prime. *)
Definition is_K (t : nat) (k : N) : Prop :=
  exists r, r ^ 3 <= nth t primes 0 * 2 ^ 96 < (r + 1) ^ 3 /\ k = r mod 2 ^ 32.
(** 5.3.3: the same for square roots. *)
Definition is_H (i : nat) (h : N) : Prop :=
  exists r, r ^ 2 <= nth i primes 0 * 2 ^ 64 < (r + 1) ^ 2 /\ h = r mod 2 ^ 32.

(** 5.1.1: padding of a message of whole bytes. *)
Definition padded (m p : bytes) : Prop :=
  exists k, p = m ++ [128] ++ repeat 0 k ++ be_bytes 8 (8 * Nlen m) /\
            (k < 64)%nat /\ ((length m + 1 + k) mod 64 = 56)%nat.
(** 5.2.1: the t-th word of the i-th block. *)
Definition word (p : bytes) (i t : nat) : N := of_be (firstn 4 (skipn (64 * i + 4 * t) p)).

(** 6.2.2 step 1: the message schedule of the i-th block. *)
Definition schedule (p : bytes) (i : nat) (W : nat -> N) : Prop :=
  (forall t, (t < 16)%nat -> W t = word p i t) /\
  (forall t, (16 <= t < 64)%nat -> W t = plus [sig1 (W (t - 2)%nat); W (t - 7)%nat; sig0 (W (t - 15)%nat); W (t - 16)%nat]).
(** Steps 2 and 3: the working variables a to h, as a function from 0 to 7. *)
Definition vars := nat -> N.
Definition iteration (k w : N) (v v' : vars) : Prop :=
  let T1 := plus [v 7%nat; Sum1 (v 4%nat); Ch (v 4%nat) (v 5%nat) (v 6%nat); k; w] in
  let T2 := plus [Sum0 (v 0%nat); Maj (v 0%nat) (v 1%nat) (v 2%nat)] in
  v' 7%nat = v 6%nat /\ v' 6%nat = v 5%nat /\ v' 5%nat = v 4%nat /\ v' 4%nat = plus [v 3%nat; T1] /\
  v' 3%nat = v 2%nat /\ v' 2%nat = v 1%nat /\ v' 1%nat = v 0%nat /\ v' 0%nat = plus [T1; T2].
(** Step 4: from one intermediate hash value to the next. *)
Definition block (p : bytes) (i : nat) (Hi Hi' : vars) : Prop :=
  exists (W : nat -> N) (K : nat -> N) (v : nat -> vars),
    schedule p i W /\ (forall t, (t < 64)%nat -> is_K t (K t)) /\
    v 0%nat = Hi /\ (forall t, (t < 64)%nat -> iteration (K t) (W t) (v t) (v (t + 1)%nat)) /\
    (forall j, (j < 8)%nat -> Hi' j = plus [v 64%nat j; Hi j]).
(** The hash of a message. *)
Definition is_sha256 (m d : bytes) : Prop :=
  exists (p : bytes) (Hs : nat -> vars) (n : nat),
    padded m p /\ length p = (64 * n)%nat /\
    (forall j, (j < 8)%nat -> is_H j (Hs 0%nat j)) /\
    (forall i, (i < n)%nat -> block p i (Hs i) (Hs (i + 1)%nat)) /\
    d = flat_map (fun j => be_bytes 4 (Hs n j)) (seq 0 8).

(** ** RFC 2104 and RFC 5869, over any hash function with blocks of 64 and outputs of 32 bytes *)
Section Rfc.
  Variable hash : bytes -> bytes.

  (** RFC 2104 section 2: the key is hashed if it is longer than a block and padded with zeros. *)
  Definition pad_key (k : bytes) : bytes :=
    let k := if (64 <? length k)%nat then hash k else k in k ++ repeat 0 (64 - length k).
  Definition xor (a b : bytes) : bytes := map (fun p => N.lxor (fst p) (snd p)) (combine a b).
  Definition ipad : bytes := repeat 0x36 64.
  Definition opad : bytes := repeat 0x5C 64.
  Definition HMAC (k text : bytes) : bytes :=
    hash (xor (pad_key k) opad ++ hash (xor (pad_key k) ipad ++ text)).

  (** RFC 5869 section 2.2: without a salt, 32 zeros are used. *)
  Definition extract (salt : option bytes) (ikm : bytes) : bytes :=
    HMAC (match salt with Some s => s | None => repeat 0 32 end) ikm.
  (** Section 2.3: T(0), T(1), ... and the first [l] bytes of their concatenation. *)
  Fixpoint T (prk info : bytes) (i : nat) : bytes :=
    match i with
    | O => []
    | S i' => HMAC prk (T prk info i' ++ info ++ [N.of_nat i])
    end.
  Definition expand (prk info : bytes) (l : nat) : bytes :=
    firstn l (flat_map (T prk info) (seq 1 ((l + 31) / 32))).
  Definition HKDF (ikm : bytes) (salt : option bytes) (info : bytes) (l : nat) : bytes :=
    expand (extract salt ikm) info l.
End Rfc.
