(** Properties C44 (SHA-256) and C45 (HMAC and HKDF). *)
From Verif Require Import Base Facts Hash.Model Hash.Proofs.
From Verif Require Hash.Spec.
From Coq Require Import Znumtheory.
Open Scope N_scope.

(** ** C44 *)

(** However a message is cut into pieces, feeding them one after the other gives the hash of FIPS 180-4. *)
Theorem C44_streaming : forall width chunks,
  Nlen (concat chunks) < 2 ^ width -> 8 * Nlen (concat chunks) < 2 ^ 64 ->
  exists d, stream width chunks = Some d /\ Spec.is_sha256 (concat chunks) d.
Proof. exact stream_ok. Qed.
Print Assumptions C44_streaming.

(** The standard allows one hash of a message only. *)
Theorem C44_unique : forall m d d', Spec.is_sha256 m d -> Spec.is_sha256 m d' -> d = d'.
Proof. exact is_sha256_fun. Qed.
Print Assumptions C44_unique.

(** Two ways to cut the same message, and hashing it in one call, give the same digest of 32 bytes. *)
Theorem C44_chunking : forall width chunks chunks',
  concat chunks = concat chunks' ->
  Nlen (concat chunks) < 2 ^ width -> 8 * Nlen (concat chunks) < 2 ^ 64 ->
  stream width chunks = stream width chunks' /\ stream width chunks = hash width (concat chunks) /\
  exists d, stream width chunks = Some d /\ length d = 32%nat.
Proof.
  intros width l l' E H1 H2.
  split; [rewrite (stream_hash width l H1 H2), E; symmetry; apply stream_hash; rewrite <- E; assumption | ].
  split; [exact (stream_hash width l H1 H2) | ].
  destruct (stream_ok width l H1 H2) as (d & Hd & _). exists d. split; [exact Hd | ].
  exact (stream_len width l d Hd).
Qed.
Print Assumptions C44_chunking.

(** The list of primes in the specification is the list of the primes up to 311 in increasing order. *)
Definition prime_check (n : N) : bool :=
  (1 <? n) && forallb (fun d => negb (n mod d =? 0)) (map N.of_nat (seq 2 (N.to_nat n - 2))).
Lemma prime_check_ok n : prime_check n = true <-> prime (Z.of_N n).
Proof.
  unfold prime_check. rewrite andb_true_iff, N.ltb_lt, forallb_forall, <- prime_alt. unfold prime'.
  split; intros [H1 H2]; (split; [lia | ]).
  - intros d Hd [q E].
    specialize (H2 (Z.to_N d)). rewrite negb_true_iff, N.eqb_neq in H2. apply H2.
    + apply in_map_iff. exists (Z.to_nat d). split; [lia | ]. apply in_seq. lia.
    + assert (Z.of_N n mod d = 0)%Z by (rewrite E; apply Z.mod_mul; lia).
      apply N2Z.inj. rewrite N2Z.inj_mod by lia. rewrite Z2N.id by lia. exact H.
  - intros d Hd. apply in_map_iff in Hd as (k & <- & Hk). apply in_seq in Hk.
    rewrite negb_true_iff, N.eqb_neq. intros E. apply (H2 (Z.of_nat k)); [lia | ].
    exists (Z.of_N (n / N.of_nat k)). pose proof (N.div_mod n (N.of_nat k) ltac:(lia)). lia.
Qed.
Lemma primes_checked :
  filter prime_check (map N.of_nat (seq 0 312)) = Spec.primes.
Proof. vm_compute. reflexivity. Qed.
Theorem C44_primes : forall p, In p Spec.primes <-> prime (Z.of_N p) /\ p < 312.
Proof.
  intros p. rewrite <- primes_checked, filter_In, prime_check_ok. split.
  - intros [A B]. split; [exact B | ]. apply in_map_iff in A as (k & <- & Hk). apply in_seq in Hk. lia.
  - intros [A B]. split; [ | exact A]. apply in_map_iff. exists (N.to_nat p). split; [lia | ]. apply in_seq. lia.
Qed.
Print Assumptions C44_primes.

(** The digests of "abc" and of a message of two blocks, in pieces. *)
Example C44_nonvacuous :
  stream 32 [[0x61]; []; [0x62; 0x63]] =
    Some (be_bytes 32 0xba7816bf8f01cfea414140de5dae2223b00361a396177a9cb410ff61f20015ad) /\
  stream 32 [repeat 0x41 60; repeat 0x41 5; repeat 0x41 62] =
    Some (be_bytes 32 0x026134f6117e45a37c5c2dc2f330bdd274c6dc087526b91ecec4d6dac9bb7346).
Proof. split; vm_compute; reflexivity. Qed.

(** ** C45 *)

Lemma is_sha256_len m d : Spec.is_sha256 m d -> length d = 32%nat.
Proof. intros (p & Hs & n & _ & _ & _ & _ & ->). reflexivity. Qed.

Section Hmac.
  Variable width : N.
  Variable sha256 : bytes -> bytes.
  Hypothesis wide : 32 <= width.
  Hypothesis sha256_ok : forall m, 8 * Nlen m < 2 ^ 64 -> Spec.is_sha256 m (sha256 m).

  Lemma wide_pow : 2 ^ 32 <= 2 ^ width.
  Proof. apply N.pow_le_mono_r; [discriminate | exact wide]. Qed.
  Lemma sha256_of (l : list bytes) : Nlen (concat l) < 2 ^ 32 -> stream width l = Some (sha256 (concat l)).
  Proof.
    intros H. pose proof wide_pow as W.
    assert (8 * Nlen (concat l) < 2 ^ 64) as L by (change (2 ^ 64) with (2 ^ 32 * 2 ^ 32); change (2 ^ 32) with 4294967296 in *; lia).
    destruct (stream_ok width l ltac:(lia) L) as (d & -> & D).
    rewrite (is_sha256_fun _ _ _ D (sha256_ok _ L)). reflexivity.
  Qed.
  Lemma sha256_len m : Nlen m < 2 ^ 32 -> length (sha256 m) = 32%nat.
  Proof. intros H. apply (is_sha256_len m), sha256_ok. change (2 ^ 32) with 4294967296 in H. change (2 ^ 64) with 18446744073709551616. lia. Qed.

  Lemma hmac_ok (key text : bytes) : length key = 32%nat -> Nlen text < 2 ^ 32 - 64 ->
    hmac width key text = Some (Spec.HMAC sha256 key text).
  Proof.
    intros Lk Lt. change (2 ^ 32 - 64) with 4294967232 in Lt. unfold hmac, Spec.HMAC, Spec.ipad, Spec.opad.
    rewrite !xor_pad_ok by exact Lk.
    assert (L1 : Nlen (concat ([xor_pad 0x36 key; text] : list bytes)) < 2 ^ 32).
    { cbn [concat]. unfold Nlen in *. rewrite !app_length, xor_pad_len by exact Lk. cbn [length].
      change (2 ^ 32) with 4294967296. lia. }
    rewrite (sha256_of ([xor_pad 0x36 key; text] : list bytes) L1). cbn [concat]. rewrite app_nil_r.
    cbn [concat] in L1. rewrite app_nil_r in L1.
    rewrite sha256_of.
    - cbn [concat]. rewrite app_nil_r. reflexivity.
    - cbn [concat]. unfold Nlen. rewrite !app_length, xor_pad_len by exact Lk. rewrite sha256_len by exact L1. reflexivity.
  Qed.
  Lemma HMAC_len (key text : bytes) : length key = 32%nat -> Nlen text < 2 ^ 32 - 64 -> length (Spec.HMAC sha256 key text) = 32%nat.
  Proof.
    intros Lk Lt. pose proof (hmac_ok key text Lk Lt) as E. unfold hmac in E.
    destruct (stream width [xor_pad 0x36 key; text]); [ | discriminate]. exact (stream_len _ _ _ E).
  Qed.

  Lemma hkdf_ok (ikm salt info : bytes) : length salt = 32%nat -> Nlen ikm < 2 ^ 32 - 64 -> Nlen info < 2 ^ 32 - 65 ->
    hkdf width ikm salt info = Some (Spec.HKDF sha256 ikm (Some salt) info 32).
  Proof.
    intros Ls Li Lf. unfold hkdf, Spec.HKDF, Spec.extract, Spec.expand. rewrite hmac_ok by assumption.
    set (prk := Spec.HMAC sha256 salt ikm).
    assert (Lp : length prk = 32%nat) by (apply HMAC_len; assumption).
    change ((32 + 31) / 32)%nat with 1%nat. cbn [seq flat_map Spec.T app]. rewrite app_nil_r.
    change (N.of_nat 1) with 1.
    assert (Lf' : Nlen (info ++ [1]) < 2 ^ 32 - 64).
    { unfold Nlen in *. rewrite app_length. cbn [length]. change (2 ^ 32 - 65) with 4294967231 in Lf.
      change (2 ^ 32 - 64) with 4294967232. lia. }
    rewrite hmac_ok by assumption. f_equal. symmetry. apply firstn_all2.
    rewrite HMAC_len by assumption. reflexivity.
  Qed.
End Hmac.

Lemma bytes_eqb_iff a b : bytes_eqb a b = true <-> a = b.
Proof.
  unfold bytes_eqb. revert b. induction a as [ | x a IH]; intros [ | y b]; cbn [lexcmp]; try (split; congruence).
  destruct (N.compare_spec x y) as [-> | L | L].
  - rewrite IH. split; congruence.
  - split; [discriminate | intros E; injection E as E _; lia].
  - split; [discriminate | intros E; injection E as E _; lia].
Qed.

(** On a machine of at least 32 bits, and with any function that computes SHA-256 as in FIPS 180-4: the
    MAC is that of RFC 2104; it verifies exactly the MACs, and exactly their first 16 bytes. *)
Theorem C45_hmac : forall width sha256, 32 <= width ->
  (forall m, 8 * Nlen m < 2 ^ 64 -> Spec.is_sha256 m (sha256 m)) ->
  forall key text : bytes, length key = 32%nat -> Nlen text < 2 ^ 32 - 64 ->
  hmac width key text = Some (Spec.HMAC sha256 key text) /\
  (forall mac, verify_hmac width key text mac = Some true <-> mac = Spec.HMAC sha256 key text) /\
  (forall mac, verify_hmac_128 width key text mac = Some true <-> mac = firstn 16 (Spec.HMAC sha256 key text)).
Proof.
  intros width sha256 W S key text Lk Lt.
  pose proof (hmac_ok width sha256 W S key text Lk Lt) as E.
  split; [exact E | ]. unfold verify_hmac, verify_hmac_128. rewrite E. split; intros mac.
  - split; [intros A; injection A as A; symmetry; apply bytes_eqb_iff, A | intros ->; f_equal; apply bytes_eqb_iff; reflexivity].
  - split; [intros A; assert (B := f_equal (fun o => match o with Some b => b | None => false end) A); cbv beta iota in B;
            symmetry; apply bytes_eqb_iff, B | intros ->; f_equal; apply bytes_eqb_iff; reflexivity].
Qed.
Print Assumptions C45_hmac.

(** The derived keys are those of RFC 5869, with a salt and without one. *)
Theorem C45_hkdf : forall width sha256, 32 <= width ->
  (forall m, 8 * Nlen m < 2 ^ 64 -> Spec.is_sha256 m (sha256 m)) ->
  forall ikm salt info : bytes, length salt = 32%nat -> Nlen ikm < 2 ^ 32 - 64 -> Nlen info < 2 ^ 32 - 65 ->
  hkdf width ikm salt info = Some (Spec.HKDF sha256 ikm (Some salt) info 32) /\
  hkdf_empty_salt width ikm info = Some (Spec.HKDF sha256 ikm None info 32).
Proof.
  intros width sha256 W S ikm salt info Ls Li Lf. split.
  - apply hkdf_ok; assumption.
  - unfold hkdf_empty_salt. rewrite (hkdf_ok width sha256 W S) by (try assumption; apply repeat_length). reflexivity.
Qed.
Print Assumptions C45_hkdf.

(** There is such a function, and the MACs are not trivial: the first two test vectors of hmac.rs and one
    of hkdf.rs. *)
Example C45_nonvacuous : exists sha256 : bytes -> bytes,
  (forall m, 8 * Nlen m < 2 ^ 64 -> Spec.is_sha256 m (sha256 m)) /\
  hmac 32 (repeat 0 32) [] = Some (be_bytes 32 0xb613679a0814d9ec772f95d778c35fc5ff1697c493715653c6c712144292c5ad) /\
  hkdf_empty_salt 32 [0x30] [0] = Some (be_bytes 32 0xf9be72116cb97f41828210289caafeabde1f3dfb9723bf43538ab18f3666783a).
Proof.
  exists (fun m => match hash 64 m with Some d => d | None => [] end). split.
  - intros m Hm. change (2 ^ 64) with 18446744073709551616 in Hm.
    destruct (stream_ok 64 ([m] : list bytes)) as (d & E & D).
    + cbn [concat]. rewrite app_nil_r. change (2 ^ 64) with 18446744073709551616. lia.
    + cbn [concat]. rewrite app_nil_r. exact Hm.
    + change (hash 64 m = Some d) in E. rewrite E. cbn [concat] in D. rewrite app_nil_r in D. exact D.
  - split; vm_compute; reflexivity.
Qed.
