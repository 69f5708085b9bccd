(** ECDSA (SEC 1 version 2.0, section 4.1; FIPS 186-4), the elliptic curve Diffie-Hellman primitive (SEC 1,
    section 3.3.1) and the nonces of RFC 6979, on the curve of Curve/Spec.v. *)
From Verif Require Import Base.
From Verif Require Int.Spec Point.Spec.
Open Scope Z_scope.
Notation n := Int.Spec.n.
Notation G := Point.Spec.G.
Notation mult := Point.Spec.mult.
Notation plus := Point.Spec.plus.
Notation Affine := Point.Spec.Affine.
Notation Infinity := Point.Spec.Infinity.

(** 4.1.3: (r, s) is the signature of the hash e with the key d and the ephemeral key k. *)
Definition signature_of (d k e r s : Z) : Prop :=
  exists x y, mult k G = Affine x y /\ r = x mod n /\ r <> 0 /\
    0 < s < n /\ (k * s) mod n = (e + r * d) mod n.
(** Whether k gives a signature. *)
Definition unsuitable (d k e : Z) : Prop :=
  exists x y, mult k G = Affine x y /\ (x mod n = 0 \/ (e + (x mod n) * d) mod n = 0).
(** 4.1.4: (r, s) is a valid signature of the hash e for the public key Q. *)
Definition verifies (Q : Point.Spec.point) (e r s : Z) : Prop :=
  0 < r < n /\ 0 < s < n /\
  exists w x y, (w * s) mod n = 1 /\ 0 <= w < n /\
    plus (mult ((e * w) mod n) G) (mult ((r * w) mod n) Q) = Affine x y /\ x mod n = r.

(** The result of signing with the first one of a list of candidates for k that is in range and gives a signature. *)
Definition refused (d e k : Z) : Prop := ~ (0 < k < n) \/ unsuitable d k e.
Definition first_signature (d e : Z) (ks : list Z) (o : option (Z * Z)) : Prop :=
  match o with
  | Some (r, s) => exists before k after, ks = before ++ k :: after /\ Forall (refused d e) before /\
                     0 < k < n /\ signature_of d k e r s
  | None => Forall (refused d e) ks
  end.

(** RFC 6979, section 3.2, for a hash and a group order of 256 bits. *)
Section Rfc6979.
Variable HMAC : bytes -> bytes -> bytes.
(** 2.3.3: int2octets, for numbers below 2^256: the 32 bytes, most significant first. *)
Definition int2octets (x : Z) : bytes := be_bytes 32 (Z.to_N x).
(** Steps b to g, with h1 the hash as a number: K and V. *)
Definition rfc_start (d h1 : Z) : bytes * bytes :=
  let V := repeat 0x01%N 32 in
  let K := repeat 0x00%N 32 in
  let secrets := int2octets d ++ int2octets (h1 mod n) in
  let K := HMAC K (V ++ [0x00%N] ++ secrets) in
  let V := HMAC K V in
  let K := HMAC K (V ++ [0x01%N] ++ secrets) in
  let V := HMAC K V in
  (K, V).
(** Step h: the candidate T, which becomes V, and the state for the next one. *)
Definition rfc_candidate (KV : bytes * bytes) : bytes * (bytes * bytes) :=
  let (K, V) := KV in
  let V := HMAC K V in
  let T := V in
  let K := HMAC K (V ++ [0x00%N]) in
  let V := HMAC K V in
  (T, (K, V)).
Fixpoint rfc_candidates (i : nat) (KV : bytes * bytes) : list bytes :=
  match i with
  | O => []
  | S i' => let (T, KV) := rfc_candidate KV in T :: rfc_candidates i' KV
  end.
(** A variant of step h, which is not that of the RFC: the next state is derived from the old V. *)
Fixpoint variant_candidates (i : nat) (KV : bytes * bytes) : list bytes :=
  match i with
  | O => []
  | S i' =>
      let (K, V) := KV in
      let K' := HMAC K (V ++ [0x00%N]) in
      HMAC K V :: variant_candidates i' (K', HMAC K' V)
  end.
End Rfc6979.
