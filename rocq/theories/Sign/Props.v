(** C59: ECDSA on P-256 follows its standard.  C60: so does key agreement.  C61: the nonces of RFC 6979. *)
From Verif Require Import Base Facts Int.Model Point.Model Sign.Model.
From Verif Require Int.Spec Int.Props Hash.Model Hash.Spec Hash.Props Curve.Spec Curve.Fp Point.Spec Point.Order Point.Props Sign.Spec Sign.Proofs Sign.Rfc Sign.Refuted.
From Coq Require Import Lia Znumtheory.
Open Scope Z_scope.
Ltac Zify.zify_post_hook ::= idtac.
Notation value := Int.Spec.value.
Notation is_int256 := Int.Spec.is_int256.
Notation big_endian := Int.Spec.big_endian.
Notation holds := Point.Spec.holds.
Notation valid := Point.Spec.valid.
Notation is_signature := Int.Props.is_signature.
Import Sign.Spec.
Notation p := Int.Spec.p.

(** The public key of d is the point d G, which is not at infinity. *)
Theorem C59_public_key d : is_int256 d -> 0 < value d < n ->
  exists Q, genpk d = Some Q /\ holds Q (mult (value d) G) /\ valid (mult (value d) G) /\ mult (value d) G <> Infinity.
Proof. exact (Proofs.genpk_spec d). Qed.

(** try_sign gives the signature of SEC 1 for the given ephemeral key, and none if and only if there is none. *)
Theorem C59_sign d k m : is_int256 d -> is_int256 k -> is_int256 m -> 0 < value d < n -> 0 < value k < n ->
  exists o, try_sign d k m = Some o /\
    match o with
    | Some g => is_signature g /\ signature_of (value d) (value k) (value m) (value (sig_r g)) (value (sig_s g))
    | None => unsuitable (value d) (value k) (value m) /\ ~ exists r s, signature_of (value d) (value k) (value m) r s
    end.
Proof.
  intros Id Ik Im Bd Bk. destruct (Proofs.try_sign_spec d k m Id Ik Im Bd Bk) as (o & E & H). exists o. split; [exact E|].
  destruct o as [g|].
  - destruct H as (Ir & Is & Br & S). split; [|exact S]. repeat split; try apply Ir; try apply Is; try apply Br; destruct S as (? & ? & _ & _ & _ & B & _); apply B.
  - split; [exact H|]. intros (r & s & S). refine (Rfc.suitable 64 _ _ _ _ r s Bk S H); discriminate.
Qed.

(** In the standard itself: what is signed with d verifies with d G. *)
Theorem C59_standard d k e r s : 0 < d < n -> 0 < k < n -> signature_of d k e r s -> verifies (mult d G) e r s.
Proof. exact (Proofs.signature_verifies d k e r s). Qed.

(** Verification decides what the standard says, if the hash is not a multiple of n. *)
Theorem C59_verify_hash_partial Q A (hash : bytes) g : holds Q A -> valid A -> A <> Infinity ->
  length hash = 32%nat -> bytes_ok hash = true -> is_signature g -> big_endian hash mod n <> 0 ->
  exists b, verify_hash Q hash g = Some b /\ (b = true <-> verifies A (big_endian hash) (value (sig_r g)) (value (sig_s g))).
Proof. intros HQ VA NA L O (Ir & Is & Br & Bs) Nz. exact (Proofs.verify_hash_spec Q A hash g HQ VA NA L O Ir Is Br Bs Nz). Qed.

Definition sha256_law (sha256 : bytes -> bytes) : Prop := forall m, (8 * Nlen m < 2 ^ 64)%N -> Hash.Spec.is_sha256 m (sha256 m).

Section Messages.
Variables (width : N) (sha256 : bytes -> bytes).
Hypothesis width_ok : (32 <= width)%N.
Hypothesis sha256_ok : sha256_law sha256.
Let message_ok (msg : bytes) : Prop := (Nlen msg < 2 ^ width)%N /\ (8 * Nlen msg < 2 ^ 64)%N.

(** The same for messages, which are hashed with SHA-256. *)
Theorem C59_verify_partial Q A (msg : bytes) g : holds Q A -> valid A -> A <> Infinity -> message_ok msg -> is_signature g ->
  big_endian (sha256 msg) mod n <> 0 ->
  exists b, verify width Q msg g = Some b /\ (b = true <-> verifies A (big_endian (sha256 msg)) (value (sig_r g)) (value (sig_s g))).
Proof.
  intros HQ VA NA (H1 & H2) Sg Nz. unfold verify. rewrite (Rfc.hash_ok width sha256 sha256_ok msg H1 H2).
  destruct (Rfc.sha_ok msg (sha256 msg) (sha256_ok msg H2)) as (L & O). apply C59_verify_hash_partial; assumption.
Qed.

Lemma signature_facts d k e g : is_int256 (sig_r g) -> is_int256 (sig_s g) -> 0 < k < n ->
  signature_of d k e (value (sig_r g)) (value (sig_s g)) -> is_signature g.
Proof.
  intros Ir Is Bk (x & y & _ & Er & Nr & Bs & _). repeat split; try apply Ir; try apply Is; try apply Bs.
  - pose proof (Z.mod_pos_bound x n Proofs.n_pos) as B. rewrite <- Er in B. clear - B Nr. lia.
  - pose proof (Z.mod_pos_bound x n Proofs.n_pos) as B. rewrite <- Er in B. apply B.
Qed.

(** Neither way to sign panics, for whatever random numbers and however often a candidate has to be replaced,
    and what is returned is accepted by every verifier that follows the standard, and by verify. *)
Lemma accepted d (msg : bytes) g Q : is_int256 d -> 0 < value d < n -> message_ok msg -> 
  is_int256 (sig_r g) -> is_int256 (sig_s g) ->
  (exists k, 0 < k < n /\ signature_of (value d) k (big_endian (sha256 msg)) (value (sig_r g)) (value (sig_s g))) ->
  genpk d = Some Q ->
  is_signature g /\ verifies (mult (value d) G) (big_endian (sha256 msg)) (value (sig_r g)) (value (sig_s g)) /\
  (big_endian (sha256 msg) mod n <> 0 -> verify width Q msg g = Some true).
Proof.
  intros Id Bd M Ir Is (k & Bk & S) EQ. pose proof (signature_facts _ _ _ g Ir Is Bk S) as Sg.
  pose proof (C59_standard _ _ _ _ _ Bd Bk S) as V. split; [exact Sg|]. split; [exact V|]. intros Nz.
  destruct (C59_public_key d Id Bd) as (Q' & EQ' & HQ & VQ & NQ). assert (Q' = Q) as -> by congruence.
  destruct (C59_verify_partial Q _ msg g HQ VQ NQ M Sg Nz) as (b & E & I). rewrite E. f_equal. apply I. exact V.
Qed.
Lemma first_valid d (msg : bytes) Q ks o : is_int256 d -> 0 < value d < n -> message_ok msg -> genpk d = Some Q -> Rfc.ints o ->
  first_signature (value d) (big_endian (sha256 msg)) ks (Rfc.pair_of o) ->
  forall g, o = Some g ->
    is_signature g /\ verifies (mult (value d) G) (big_endian (sha256 msg)) (value (sig_r g)) (value (sig_s g)) /\
    (big_endian (sha256 msg) mod n <> 0 -> verify width Q msg g = Some true).
Proof.
  intros Id Bd M EQ Io F g ->. destruct (Io g eq_refl) as (Ir & Is). destruct F as (_ & k & _ & _ & _ & Bk & S).
  exact (accepted d msg g Q Id Bd M Ir Is (ex_intro _ k (conj Bk S)) EQ).
Qed.
Theorem C59_sign_rfc6979 fuel d (msg : bytes) Q : is_int256 d -> 0 < value d < n -> message_ok msg -> genpk d = Some Q ->
  exists o, sign_rfc6979 width fuel d msg = Some o /\
    forall g, o = Some g ->
      is_signature g /\ verifies (mult (value d) G) (big_endian (sha256 msg)) (value (sig_r g)) (value (sig_s g)) /\
      (big_endian (sha256 msg) mod n <> 0 -> verify width Q msg g = Some true).
Proof.
  intros Id Bd M EQ. destruct (Rfc.sign_rfc6979_spec width sha256 width_ok sha256_ok fuel d msg Id Bd (proj1 M) (proj2 M)) as (o & E & Io & H).
  exists o. split; [exact E|]. exact (first_valid d msg Q _ o Id Bd M EQ Io H).
Qed.
(** With random draws x, the ephemeral keys are x + 1, and the first in range that gives a signature is used. *)
Theorem C59_sign_rng draws d (msg : bytes) Q : Forall is_int256 draws -> is_int256 d -> 0 < value d < n -> message_ok msg -> genpk d = Some Q ->
  exists o, sign_rng width d msg draws = Some o /\
    first_signature (value d) (big_endian (sha256 msg)) (map (fun x => value x + 1) draws) (Rfc.pair_of o) /\
    forall g, o = Some g ->
      is_signature g /\ verifies (mult (value d) G) (big_endian (sha256 msg)) (value (sig_r g)) (value (sig_s g)) /\
      (big_endian (sha256 msg) mod n <> 0 -> verify width Q msg g = Some true).
Proof.
  intros Fd Id Bd M EQ. destruct (Rfc.sign_rng_spec width sha256 sha256_ok d msg draws Id Bd Fd (proj1 M) (proj2 M)) as (o & E & Io & H).
  exists o. split; [exact E|]. split; [exact H|]. exact (first_valid d msg Q _ o Id Bd M EQ Io H).
Qed.
(** sign_rfc6979 uses the first candidate in range that gives a signature, where the first candidate is that of RFC 6979,
    and the following ones are those of a variant. *)
Theorem C61_candidates fuel d (msg : bytes) : is_int256 d -> 0 < value d < n -> message_ok msg ->
  exists o, sign_rfc6979 width fuel d msg = Some o /\
    first_signature (value d) (big_endian (sha256 msg))
      (map big_endian (variant_candidates (Hash.Spec.HMAC sha256) fuel (rfc_start (Hash.Spec.HMAC sha256) (value d) (big_endian (sha256 msg)))))
      (Rfc.pair_of o).
Proof.
  intros Id Bd M. destruct (Rfc.sign_rfc6979_spec width sha256 width_ok sha256_ok fuel d msg Id Bd (proj1 M) (proj2 M)) as (o & E & _ & H).
  exists o. split; [exact E|exact H].
Qed.

(** sign_rfc6979 gives the signature of RFC 6979 when the first candidate of RFC 6979 gives one. *)
Theorem C61_rfc6979_partial fuel d (msg : bytes) r s : is_int256 d -> 0 < value d < n -> message_ok msg ->
  let e := big_endian (sha256 msg) in
  let T := nth 0 (rfc_candidates (Hash.Spec.HMAC sha256) 1 (rfc_start (Hash.Spec.HMAC sha256) (value d) e)) [] in
  0 < big_endian T < n -> signature_of (value d) (big_endian T) e r s ->
  exists g, sign_rfc6979 width (S fuel) d msg = Some (Some g) /\ value (sig_r g) = r /\ value (sig_s g) = s.
Proof.
  intros Id Bd M. cbv zeta. cbn [rfc_candidates nth]. destruct (rfc_candidate _ _) as (T & KV) eqn:ET. cbn [nth].
  intros B S. pose proof (Rfc.sign_first width sha256 width_ok sha256_ok fuel d msg Id Bd (proj1 M) (proj2 M)) as F. cbv zeta in F.
  rewrite ET in F. exact (F B r s S).
Qed.
End Messages.

(** Whatever the first candidates are, the second of the code is not the second of RFC 6979: the code derives the next
    key from the old V instead of the candidate. *)
Theorem C61_rfc6979_refuted :
  ~ forall sha256 d msg s0 x1 s1 x2 s2, sha256_law sha256 -> is_int256 d -> 0 < value d < n ->
    rfc_new 64 d msg = Some s0 -> rfc_next 64 s0 = Some (x1, s1) -> rfc_next 64 s1 = Some (x2, s2) ->
    [value x1; value x2] =
    map big_endian (rfc_candidates (Hash.Spec.HMAC sha256) 2 (rfc_start (Hash.Spec.HMAC sha256) (value d) (big_endian (sha256 msg)))).
Proof.
  intros H. destruct Refuted.value_one as (I1 & V1). assert (B1 : 0 < value c_ONE < n) by (rewrite V1; split; reflexivity).
  destruct (Rfc.rfc_new_spec 64 Refuted.sha ltac:(discriminate) Refuted.sha_256 c_ONE [] I1 eq_refl eq_refl) as (s0 & E0 & G0 & S0).
  destruct (Rfc.rfc_next_spec 64 Refuted.sha ltac:(discriminate) Refuted.sha_256 s0 G0) as (s1 & E1 & G1 & _).
  destruct (Rfc.rfc_next_spec 64 Refuted.sha ltac:(discriminate) Refuted.sha_256 s1 G1) as (s2 & E2 & _ & _).
  pose proof (H Refuted.sha c_ONE [] s0 _ s1 _ s2 Refuted.sha_256 I1 B1 E0 E1 E2) as F. rewrite <- S0 in F.
  pose proof (Refuted.seconds s0 _ s1 _ s2 E1 E2 F) as D. pose proof Refuted.start_is as E0'. rewrite E0 in E0'.
  assert (Es : forall a b : rfc6979, Some a = Some b -> a = b) by (clear; intros; congruence). apply Es in E0'.
  rewrite E0', Refuted.seconds_differ in D. discriminate D.
Qed.

(** A hash of zeros: the signature is valid, and verification refuses it. *)
Theorem C59_verify_hash_refuted :
  exists d k Q g, is_int256 d /\ 0 < value d < n /\ is_int256 k /\ 0 < value k < n /\
    genpk d = Some Q /\ try_sign d k (from_bin (repeat 0%N 32)) = Some (Some g) /\
    verifies (mult (value d) G) (big_endian (repeat 0%N 32)) (value (sig_r g)) (value (sig_s g)) /\
    verify_hash Q (repeat 0%N 32) g = Some false.
Proof.
  destruct Refuted.value_one as (I1 & V1). assert (B1 : 0 < value c_ONE < n) by (rewrite V1; split; reflexivity).
  destruct Refuted.sign_zero as (g & Eg & Ir & Is & Vr & Vs). destruct (C59_public_key c_ONE I1 B1) as (Q & EQ & HQ & _).
  destruct Refuted.value_zero as (I0 & V0). assert (EZ : from_bin (repeat 0%N 32) = c_ZERO) by reflexivity.
  exists c_ONE, c_ONE, Q, g. do 2 (split; [exact I1|split; [exact B1|]]). split; [exact EQ|]. rewrite EZ. split; [exact Eg|]. split.
  - destruct (C59_sign c_ONE c_ONE c_ZERO I1 I1 I0 B1 B1) as (o & Eo & H). rewrite Eg in Eo. injection Eo as <-. destruct H as (_ & S).
    rewrite V0 in S. exact (C59_standard _ _ _ _ _ B1 B1 S).
  - rewrite V1, Order.multiple_1 in HQ. exact (Refuted.verify_zero Q g HQ Ir Is Vr Vs).
Qed.

(** ** Coordinates *)

(** No point of the curve has y = 0. *)
Lemma y_not_zero x y : valid (Affine x y) -> y <> 0.
Proof.
  intros (_ & _ & O) ->. unfold Int.Spec.on_curve in O. change (0 * 0) with 0 in O. rewrite Zmod_0_l in O.
  apply (Curve.Fp.no_root (Curve.Fp.of_Z x)). unfold Curve.Fp.fa, Curve.Fp.fb.
  rewrite <- !Curve.Fp.of_mul, <- !Curve.Fp.of_add. unfold Curve.Fp.f0. apply Curve.Fp.of_mod. rewrite Zmod_0_l.
  replace (x * x * x + -3 * x + Int.Spec.b) with (x * x * x - 3 * x + Int.Spec.b) by ring. symmetry. exact O.
Qed.

(** Coordinates are accepted as a key if and only if they are those of a point of the curve with an x other than
    zero, and are then kept unchanged. *)
Theorem C60_from_coordinates (bx by_ : bytes) : length bx = 32%nat -> bytes_ok bx = true -> length by_ = 32%nat -> bytes_ok by_ = true ->
  exists o, from_coordinates bx by_ = Some o /\
    match o with
    | Some Q => holds Q (Affine (big_endian bx) (big_endian by_)) /\ valid (Affine (big_endian bx) (big_endian by_)) /\ to_coordinates Q = (bx, by_)
    | None => ~ valid (Affine (big_endian bx) (big_endian by_)) \/ big_endian bx = 0
    end.
Proof.
  intros Lx Ox Ly Oy. destruct (Int.Props.C46_bytes_in bx Lx Ox) as (Ix & Vx & Tx). destruct (Int.Props.C46_bytes_in by_ Ly Oy) as (Iy & Vy & Ty).
  unfold from_coordinates. destruct (Int.Props.C46_curve _ _ Ix Iy) as (v & -> & H). rewrite Vx, Vy in H. eexists. split; [reflexivity|].
  destruct v.
  - destruct (proj1 H eq_refl) as (Bx & By & C). split; [|split].
    + split; [exact Ix|]. split; [exact Iy|]. cbn [px py]. rewrite Vx, Vy. reflexivity.
    + split; [clear - Bx; lia|]. split; [clear - By; lia|exact C].
    + unfold to_coordinates. cbn [px py]. rewrite Tx, Ty. reflexivity.
  - destruct (Z.eq_dec (big_endian bx) 0) as [X|X]; [right; exact X|].
    left. intros V. pose proof (y_not_zero _ _ V) as Y. destruct V as (Bx & By & C). apply (Bool.diff_true_false). symmetry. apply H. split; [clear - Bx X; lia|]. split; [clear - By Y; lia|exact C].
Qed.
(** The key of another party is read back as it was written, unless its x is zero. *)
Theorem C60_public_key_travels_partial d Q : is_int256 d -> 0 < value d < n -> genpk d = Some Q -> value (px Q) <> 0 ->
  from_coordinates (fst (to_coordinates Q)) (snd (to_coordinates Q)) = Some (Some Q).
Proof.
  intros Id Bd EQ Nx. destruct (C59_public_key d Id Bd) as (Q' & EQ' & HQ & VQ & NQ). assert (Q' = Q) as -> by congruence.
  destruct HQ as (Ix & Iy & C). unfold to_coordinates, fst, snd.
  destruct (Int.Props.C46_bytes_out _ Ix) as (_ & _ & _ & Fx). destruct (Int.Props.C46_bytes_out _ Iy) as (_ & _ & _ & Fy).
  unfold from_coordinates. rewrite Fx, Fy. destruct (Int.Props.C46_curve _ _ Ix Iy) as (v & -> & H). 
  destruct (mult (value d) G) as [|x y] eqn:E; [contradiction|]. cbn [Point.Spec.coordinates] in C. injection C as Cx Cy. rewrite Cx, Cy in *.
  pose proof (y_not_zero x y VQ) as Ny. destruct VQ as (Bx & By & O). assert (v = true) as ->.
  { apply H. split; [clear - Bx Nx; lia|]. split; [clear - By Ny; lia|exact O]. }
  destruct Q. reflexivity.
Qed.
(** The two points with x = 0 are on the curve, and refused. *)
Theorem C60_from_coordinates_refuted : exists bx by_,
  length bx = 32%nat /\ bytes_ok bx = true /\ length by_ = 32%nat /\ bytes_ok by_ = true /\
  valid (Affine (big_endian bx) (big_endian by_)) /\ from_coordinates bx by_ = Some None.
Proof.
  exists (repeat 0%N 32), (be_bytes 32 0x66485c780e2f83d72433bd5d84a06bb6541c2af31dae871728bf856a174f93f4).
  split; [reflexivity|]. split; [reflexivity|]. split; [reflexivity|]. split; [reflexivity|]. split.
  - split; [split; [discriminate|reflexivity]|]. split; [split; [vm_compute; discriminate|vm_compute; reflexivity]|]. vm_compute. reflexivity.
  - vm_compute. reflexivity.
Qed.

(** ** Key agreement *)

(** The shared secret is the x of a Q, as the standard says, for every point of the curve. *)
Theorem C60_exchange a Q A : holds Q A -> valid A -> A <> Infinity -> is_int256 a ->
  exists b, exchange_x a Q = Some b /\ length b = 32%nat /\ bytes_ok b = true /\
    big_endian b = fst (Point.Spec.coordinates (mult (value a) A)).
Proof. exact (Proofs.exchange_spec a Q A). Qed.
(** Both parties compute the same, the x of the point a b G, which is not at infinity. *)
Theorem C60_agreement a b A B : is_int256 a -> 0 < value a < n -> is_int256 b -> 0 < value b < n ->
  genpk a = Some A -> genpk b = Some B ->
  exists z x y, exchange_x a B = Some z /\ exchange_x b A = Some z /\ length z = 32%nat /\
    mult (value a * value b) G = Affine x y /\ big_endian z = x.
Proof.
  intros Ia Ba Ib Bb EA EB. destruct (C59_public_key a Ia Ba) as (A' & EA' & HA & VA & NA). assert (A' = A) as -> by congruence.
  destruct (C59_public_key b Ib Bb) as (B' & EB' & HB & VB & NB). assert (B' = B) as -> by congruence.
  destruct (C60_exchange a B _ HB VB NB Ia) as (z & Ez & Lz & Oz & Vz). destruct (C60_exchange b A _ HA VA NA Ib) as (z' & Ez' & Lz' & Oz' & Vz').
  assert (P1 : mult (value a) (mult (value b) G) = mult (value a * value b) G).
  { symmetry. apply Order.multiple_mul; [clear - Ba; lia|clear - Bb; lia|exact Order.base_valid]. }
  assert (P2 : mult (value b) (mult (value a) G) = mult (value a * value b) G).
  { rewrite (Z.mul_comm (value a)). symmetry. apply Order.multiple_mul; [clear - Bb; lia|clear - Ba; lia|exact Order.base_valid]. }
  rewrite P1 in Vz. rewrite P2 in Vz'. assert (z' = z) as ->.
  { rewrite <- Vz in Vz'. rewrite !Rfc.big_endian_be in Vz'. apply N2Z.inj in Vz'. 
    rewrite <- (be_bytes_of_be z' Oz'), <- (be_bytes_of_be z Oz), Lz, Lz', Vz'. reflexivity. }
  pose proof (Order.multiple_mod (value a * value b) ltac:(clear - Ba Bb; nia)) as Em.
  pose proof (Rfc.product_mod_nonzero 64 ltac:(discriminate) (value a) (value b) Ba Bb) as Nz.
  pose proof (Z.mod_pos_bound (value a * value b) n Proofs.n_pos) as Bm.
  assert (Bm' : 0 < (value a * value b) mod n < n) by (generalize dependent ((value a * value b) mod n); clear; intros; lia).
  pose proof (Order.order_least _ Bm') as NI. rewrite Em in NI.
  destruct (mult (value a * value b) G) as [|x y]; [contradiction|]. exists z, x, y. repeat split; assumption.
Qed.

(** ** The hypotheses are met *)
Example C59_nonvacuous :
  (* A key, an ephemeral key and a hash with a signature that is accepted. *)
  (exists g, try_sign c_ONE c_ONE c_ONE = Some (Some g) /\ is_signature g /\
     exists Q, genpk c_ONE = Some Q /\ verify_hash Q (to_bin c_ONE) g = Some true) /\
  (* SHA-256. *)
  sha256_law Refuted.sha /\ big_endian (Refuted.sha []) mod n <> 0 /\
  (* Two keys that agree. *)
  (exists A B z, genpk (Point.Props.digits_of 2) = Some A /\ genpk (Point.Props.digits_of 3) = Some B /\
     exchange_x (Point.Props.digits_of 2) B = Some z /\ exchange_x (Point.Props.digits_of 3) A = Some z).
Proof.
  destruct Refuted.value_one as (I1 & V1). assert (B1 : 0 < value c_ONE < n) by (rewrite V1; split; reflexivity). split; [|split; [|split]].
  - destruct (C59_sign c_ONE c_ONE c_ONE I1 I1 I1 B1 B1) as (o & E & H). destruct o as [g|].
    + destruct H as (Sg & S). exists g. split; [exact E|]. split; [exact Sg|]. destruct (C59_public_key c_ONE I1 B1) as (Q & EQ & HQ & VQ & NQ).
      exists Q. split; [exact EQ|]. destruct (Int.Props.C46_bytes_out c_ONE I1) as (L & O & V & _).
      destruct (C59_verify_hash_partial Q _ (to_bin c_ONE) g HQ VQ NQ L O Sg) as (b & -> & I); [rewrite V, V1; discriminate|]. f_equal. apply I. rewrite V.
      exact (C59_standard _ _ _ _ _ B1 B1 S).
    + exfalso. destruct H as ((x & y & EG & U) & _). rewrite V1, Refuted.G_coordinates in EG. assert (x = Point.Zero.Gx) as -> by congruence.
      rewrite V1 in U. destruct U as [U|U]; vm_compute in U; discriminate U.
  - exact Refuted.sha_256.
  - vm_compute. discriminate.
  - assert (I2 : is_int256 (Point.Props.digits_of 2)) by (apply Point.Props.is256_ok; vm_compute; reflexivity).
    assert (I3 : is_int256 (Point.Props.digits_of 3)) by (apply Point.Props.is256_ok; vm_compute; reflexivity).
    assert (V2 : value (Point.Props.digits_of 2) = 2) by (vm_compute; reflexivity).
    assert (V3 : value (Point.Props.digits_of 3) = 3) by (vm_compute; reflexivity).
    assert (B2 : 0 < value (Point.Props.digits_of 2) < n) by (rewrite V2; split; reflexivity).
    assert (B3 : 0 < value (Point.Props.digits_of 3) < n) by (rewrite V3; split; reflexivity).
    destruct (C59_public_key _ I2 B2) as (A & EA & _). destruct (C59_public_key _ I3 B3) as (B & EB & _).
    destruct (C60_agreement _ _ A B I2 B2 I3 B3 EA EB) as (z & _ & _ & E & E' & _).
    exists A, B, z. exact (conj EA (conj EB (conj E E'))).
Qed.

Print Assumptions C59_public_key.
Print Assumptions C59_sign.
Print Assumptions C59_standard.
Print Assumptions C59_verify_hash_partial.
Print Assumptions C59_verify_partial.
Print Assumptions C59_sign_rfc6979.
Print Assumptions C59_sign_rng.
Print Assumptions C61_candidates.
Print Assumptions C61_rfc6979_partial.
Print Assumptions C61_rfc6979_refuted.
Print Assumptions C59_verify_hash_refuted.
Print Assumptions C60_from_coordinates.
Print Assumptions C60_public_key_travels_partial.
Print Assumptions C60_from_coordinates_refuted.
Print Assumptions C60_exchange.
Print Assumptions C60_agreement.
