(** Property theorems C30, C31, C43 and C47: encryption, the PIN protocols, stored credentials and
    credentials sealed into their IDs. *)
From Verif Require Import Base Facts Hid.Model U2f.Model Cbor.Model Cbor.Spec Ctap.Crypto Ctap.Types Ctap.Machine
  Ctap.Commands Ctap.Parse Ctap.System Ctap.Logic Ctap.History Ctap.Track Ctap.Pin Ctap.PinChange
  Ctap.MinPin Ctap.TokenSpec Ctap.Token Ctap.Success Ctap.Auth Ctap.Gate Ctap.Answers Ctap.TokenUse
  Ctap.Creds Ctap.Enum Ctap.NoPanic Ctap.Enumerate Ctap.Reset Ctap.Keys Ctap.Protect Ctap.Seal Ctap.Stored Ctap.Sealed
  Ctap.Toy Ctap.ToyMore Ctap.PropsToken Ctap.PropsEnumerate.
From Verif Require U2f.Proofs U2f.Spec.
From Coq Require Import String List Lia.
Import ListNotations.
Open Scope list_scope.

(** ** C43: AES-CBC *)

(** With or without the initialization vector in the output, decryption inverts encryption of every
    message of whole blocks. *)
Theorem C43_roundtrip : forall c key iv embeds_iv plain,
  prims_ok c -> length iv = 16%nat -> bytes_ok iv = true -> bytes_ok plain = true ->
  (length plain mod 16 = 0)%nat ->
  exists cipher, cbc_encrypt c key iv embeds_iv plain = Some cipher /\
    length cipher = (length plain + if embeds_iv then 16 else 0)%nat /\
    cbc_decrypt c key embeds_iv cipher = Some plain.
Proof.
  intros c key iv emb p K Li Oi Op Lp. destruct (cbc_roundtrip c key iv emb p K Li Oi Op Lp) as (ct & E & L & _ & D). eauto.
Qed.
Print Assumptions C43_roundtrip.

(** Exactly the messages of whole blocks are accepted; with an embedded initialization vector, the
    ciphertext must contain it. *)
Theorem C43_lengths : forall c key iv embeds_iv m,
  (cbc_encrypt c key iv embeds_iv m = None <-> (length m mod 16 <> 0)%nat) /\
  (cbc_decrypt c key embeds_iv m = None <->
   (length m mod 16 <> 0)%nat \/ embeds_iv = true /\ (length m < 16)%nat).
Proof.
  intros c key iv emb m. split.
  - unfold cbc_encrypt. destruct (Nat.eqb_spec (length m mod 16) 0); cbn [negb]; [ | tauto].
    destruct emb; split; congruence.
  - unfold cbc_decrypt. destruct (Nat.eqb_spec (length m mod 16) 0) as [E | E]; cbn [negb orb]; [ | tauto].
    destruct emb; cbn [andb].
    + destruct (Nat.eqb_spec (length m) 0) as [E0 | E0].
      * rewrite E0. split; auto. intros _. right. split; [reflexivity | lia].
      * split; [discriminate | ]. intros [H | [_ H]]; [contradiction | ].
        rewrite Nat.mod_small in E by exact H. contradiction.
    + split; [discriminate | ]. intros [H | [H _]]; [contradiction | discriminate].
Qed.
Print Assumptions C43_lengths.

(** It is the CBC mode: the first bytes are the initialization vector if it is embedded, and each
    block of ciphertext encrypts the plaintext block added to the previous ciphertext block, the
    first to the initialization vector, which is zero if it is not embedded. *)
Theorem C43_is_cbc : forall c key iv embeds_iv plain cipher,
  prims_ok c -> length iv = 16%nat -> cbc_encrypt c key iv embeds_iv plain = Some cipher ->
  let start := if embeds_iv then iv else repeat 0%N 16 in
  let blk i l := firstn 16 (skipn (16 * i) l) in
  exists body, cipher = (if embeds_iv then iv else []) ++ body /\ length body = length plain /\
    forall i, (16 * i < length plain)%nat ->
      blk i body = aes_enc c key (map (fun p => N.lxor (fst p) (snd p))
        (combine (blk i plain) (match i with O => start | S j => blk j body end))).
Proof.
  intros c key iv emb p ct K Li E start blk.
  destruct (Nat.eq_dec (length p mod 16) 0) as [M | M].
  2: { apply (C43_lengths c key iv emb p) in M. congruence. }
  rewrite cbc_encrypt_some in E by exact M. injection E as <-. eexists. split; [reflexivity | ].
  pose proof (mul_blocks _ M) as Hq. set (n := (length p / 16)%nat) in *.
  assert (Ls : length start = 16%nat) by (unfold start; destruct emb; [exact Li | reflexivity]).
  change zero_iv with (repeat 0%N 16). fold start.
  split; [rewrite cbc_enc_len; auto | ].
  intros i Hi. apply (cbc_enc_block c K key n start p i); auto. lia.
Qed.
Print Assumptions C43_is_cbc.

Example C43_nonvacuous :
  let iv := map N.of_nat (seq 100 16) in let p := map N.of_nat (seq 0 48) in
  (length p mod 16 = 0)%nat /\ bytes_ok p = true /\ bytes_ok iv = true /\
  (exists ct, cbc_encrypt toy_prims [1%N] iv true p = Some ct /\ cbc_decrypt toy_prims [1%N] true ct = Some p /\
    cbc_decrypt toy_prims [1%N] true (removelast ct) = None /\ cbc_decrypt toy_prims [1%N] true [] = None) /\
  cbc_encrypt toy_prims [1%N] iv true (removelast p) = None.
Proof. cbv zeta. repeat (split; [reflexivity | ]). split; [eexists; vm_compute; auto | reflexivity]. Qed.

(** ** C47: the PIN/UV auth protocols *)

(** For both protocols and all keys: what one side encrypts the other decrypts. *)
Theorem C47_decrypt : forall c proto handshake iv plain,
  prims_ok c -> length iv = 16%nat -> bytes_ok iv = true -> bytes_ok plain = true ->
  (length plain mod 16 = 0)%nat ->
  exists cipher, shared_encrypt c (shared_new c proto handshake) iv plain = Some cipher /\
    shared_decrypt c (shared_new c proto handshake) cipher = Some plain.
Proof.
  intros c proto hs iv p K Li Oi Op Lp. unfold shared_encrypt, shared_decrypt.
  destruct (cbc_roundtrip c (sh_aes (shared_new c proto hs)) iv (embeds (sh_proto (shared_new c proto hs))) p K Li Oi Op Lp) as (ct & E & _ & _ & D).
  eauto.
Qed.
Print Assumptions C47_decrypt.

(** A MAC is accepted exactly if it is the one that the other side computes: for protocol one the
    first 16 bytes of the HMAC, for protocol two all 32.  Only the length decides between the two
    errors. *)
Theorem C47_verify : forall c proto key msg sg,
  prims_ok c ->
  (verify_token c proto key msg sg = MacOk <-> sg = authenticate c proto key msg) /\
  (verify_token c proto key msg sg = MacBadLength <->
   length sg <> match proto with V1 => 16 | V2 => 32 end)%nat.
Proof.
  intros c proto key msg sg K. pose proof (ok_hmac_len c K key msg) as L.
  destruct proto; cbn [verify_token authenticate]; unfold verify_v1, verify_v2.
  - destruct (Nat.eqb_spec (length sg) 16) as [E | E]; cbn [negb].
    + destruct (bytes_eqb _ sg) eqn:B; split; split; try discriminate; try contradiction; auto.
      * apply bytes_eqb_eq in B. congruence.
      * intros ->. assert (bytes_eqb (firstn 16 (hmac c key msg)) (firstn 16 (hmac c key msg)) = true) by now apply bytes_eqb_eq.
        congruence.
    + split; split; try discriminate; auto. intros ->. rewrite firstn_length, L in E. exfalso. apply E. reflexivity.
  - destruct (Nat.eqb_spec (length sg) 32) as [E | E]; cbn [negb].
    + destruct (bytes_eqb _ sg) eqn:B; split; split; try discriminate; try contradiction; auto.
      * apply bytes_eqb_eq in B. congruence.
      * intros ->. assert (bytes_eqb (hmac c key msg) (hmac c key msg) = true) by now apply bytes_eqb_eq.
        congruence.
    + split; split; try discriminate; auto. intros ->. contradiction.
Qed.
Print Assumptions C47_verify.
Theorem C47_shared_verify : forall c proto handshake msg sg,
  prims_ok c ->
  let s := shared_new c proto handshake in
  shared_verify c s msg sg = MacOk <-> sg = authenticate c proto (sh_hmac s) msg.
Proof.
  intros c proto hs msg sg K s. unfold shared_verify. replace (sh_proto s) with proto by (destruct proto; reflexivity).
  apply C47_verify, K.
Qed.
Print Assumptions C47_shared_verify.

(** Key agreement: if the Diffie-Hellman function is symmetric and public keys are valid points,
    both sides derive the same keys from their own secret and the public key of the other. *)
Theorem C47_agree : forall c proto a b,
  (forall x y, ecdh_shared c x (ecdh_pub c y) = ecdh_shared c y (ecdh_pub c x)) ->
  (forall x, ecdh_on_curve c (ecdh_pub c x) = true) ->
  exists s, decapsulate c a (cose_of_ecdh c b) proto = Ok s /\ decapsulate c b (cose_of_ecdh c a) proto = Ok s /\
    sh_proto s = proto.
Proof.
  intros c proto a b S V.
  assert (D : forall x y, decapsulate c x (cose_of_ecdh c y) proto = Ok (shared_new c proto (ecdh_shared c x (ecdh_pub c y)))).
  { intros x y. pose proof (V y) as Vy. unfold decapsulate, cose_of_ecdh. destruct (ecdh_pub c y) as [px py].
    change (ecdh_coordinates (mkCose px py (-25) 2 1)) with (@Ok decap_error (bytes * bytes) (px, py)). cbv beta iota delta [rbind].
    now rewrite Vy. }
  eexists. split; [apply D | ]. rewrite D, (S a b). split; [reflexivity | destruct proto; reflexivity].
Qed.
Print Assumptions C47_agree.

(** A toy Diffie-Hellman function with the laws. *)
Definition dh_prims : prims := mkPrims (sha256 toy_prims) (hmac toy_prims) (hkdf toy_prims) (hkdf_empty_salt toy_prims)
  (aes_enc toy_prims) (aes_dec toy_prims) (fun k => (k, k)) (fun _ => true)
  (fun k xy => be_bytes 32 (of_be k * of_be (fst xy))) (fun _ => true) (sign toy_prims) (pub_of toy_prims).
Example C47_nonvacuous :
  (forall x y, ecdh_shared dh_prims x (ecdh_pub dh_prims y) = ecdh_shared dh_prims y (ecdh_pub dh_prims x)) /\
  (forall x, ecdh_on_curve dh_prims (ecdh_pub dh_prims x) = true) /\
  (forall proto, exists s, decapsulate dh_prims [3%N] (cose_of_ecdh dh_prims [5%N]) proto = Ok s /\
    shared_verify dh_prims s [1%N] (authenticate dh_prims proto (sh_hmac s) [1%N]) = MacOk /\
    shared_verify dh_prims s [2%N] (authenticate dh_prims proto (sh_hmac s) [1%N]) = MacInvalid /\
    shared_verify dh_prims s [1%N] [] = MacBadLength).
Proof.
  split; [intros x y; cbn; now rewrite N.mul_comm | ]. split; [reflexivity | ].
  intros []; eexists; (split; [reflexivity | ]); vm_compute; auto.
Qed.

(** ** C31: stored credentials *)

(** For every combination of optional fields, what is stored for a credential reads back as the same
    credential, on targets with 32-bit and 64-bit addresses. *)
Theorem C31_roundtrip : forall c ed25519 W key iv r,
  prims_ok c -> W = 32%N \/ W = 64%N -> length iv = 16%nat -> bytes_ok iv = true -> cred_ok W ed25519 r ->
  exists b, serialize_credential c key iv r = Ok b /\ deserialize_credential c ed25519 W key b = Some r.
Proof.
  intros c ed W key iv r K HW Li Oi Hr. apply cred_roundtrip; auto. destruct HW as [-> | ->]; split; discriminate.
Qed.
Print Assumptions C31_roundtrip.

(** Everything that the device ever stores as a credential, in any history of byte messages, power
    losses and store failures, reads back unchanged under the same key. *)
Theorem C31_stored : forall e h k r key iv,
  cfg_ok (e_cfg e) -> prims_ok (e_prims e) -> rnd_ok e -> byte_ops h ->
  length iv = 16%nat -> bytes_ok iv = true ->
  In (k, r) (p_creds (w_p (run e h))) ->
  exists b, serialize_credential (e_prims e) key iv r = Ok b /\
    deserialize_credential (e_prims e) (c_ed25519 (e_cfg e)) (c_width (e_cfg e)) key b = Some r.
Proof.
  intros e h k r key iv C K R B Li Oi I. pose proof (stored_history e h C R B) as S. rewrite Forall_forall in S.
  destruct (S _ I) as [S1 _]. apply C31_roundtrip; auto. apply (ok_width _ C).
Qed.
Print Assumptions C31_stored.

Lemma toy_rnd_ok : rnd_ok toy.
Proof.
  intros i n. change (e_rnd toy i n) with (toy_rnd i n). unfold toy_rnd. split; [apply pad_length | ].
  unfold pad. apply bytes_ok_firstn. rewrite bytes_ok_app, be_bytes_ok. cbn [andb].
  induction n; [reflexivity | exact IHn].
Qed.
Definition byte_opsb (h : history) : bool :=
  forallb (fun y => match fst y with OpMessage b _ => bytes_ok b | _ => true end) h.
Lemma byte_opsb_ok h : byte_opsb h = true -> byte_ops h.
Proof.
  unfold byte_opsb, byte_ops. rewrite forallb_forall, Forall_forall. intros H x Hx. specialize (H x Hx).
  destruct (fst x); auto.
Qed.
Example C31_nonvacuous :
  byte_ops h_made /\ length (p_creds (w_p (run toy h_made))) = 1%nat /\
  cred_ok 32 true (mkCred [1%N] (mkPriv Eddsa (repeat 9%N 32)) (str "rp") [2%N] (Some (str "d")) (Some UvRequired) 7
    (Some (str "n")) (Some []) (Some [0%N]) (Some (repeat 1%N 32))).
Proof.
  split; [apply byte_opsb_ok; vm_compute; reflexivity | ]. split; [vm_compute; reflexivity | ].
  assert (T : forall b, bytes_ok b = true -> utf8_valid b = true -> (length b < 100)%nat -> text_ok 32 b).
  { intros b B U L. repeat split; auto. unfold Nlen. change (2 ^ 32)%N with 4294967296%N. lia. }
  assert (B : forall b, bytes_ok b = true -> (length b < 100)%nat -> blob_ok 32 b).
  { intros b O L. split; auto. unfold Nlen. change (2 ^ 32)%N with 4294967296%N. lia. }
  split; cbn [cr_id cr_key cr_rp cr_user cr_display cr_policy cr_order cr_name cr_icon cr_blob cr_lbkey];
    try (intros a E; injection E as <-); try apply T; try apply B; try reflexivity;
    try (vm_compute; lia); repeat split; discriminate.
Qed.

(** ** C30: credentials sealed into their IDs *)

(** Unsealing an ID that was sealed with the same keys returns the same key, policy and blob if the
    RP ID hash is that of the credential, and nothing otherwise. *)
Theorem C30_unwrap : forall c ed25519 W m iv1 iv2 s id rp_hash,
  prims_ok c -> W = 32%N \/ W = 64%N ->
  length iv1 = 16%nat -> bytes_ok iv1 = true -> length iv2 = 16%nat -> bytes_ok iv2 = true ->
  source_ok ed25519 W s -> wrap_pure c m iv1 iv2 s = Some id ->
  length id = 241%nat /\
  (rp_hash = so_rp_hash s -> unwrap_pure c ed25519 W m id rp_hash = Some (Some s)) /\
  (rp_hash <> so_rp_hash s -> unwrap_pure c ed25519 W m id rp_hash = Some None).
Proof.
  intros c ed W m iv1 iv2 s id h K HW L1 O1 L2 O2 Hs H.
  destruct (unwrap_wrapped c ed W K ltac:(destruct HW as [-> | ->]; split; discriminate) m iv1 iv2 s id h L1 O1 L2 O2 Hs H) as [L U].
  split; [exact L | ]. rewrite U. split.
  - intros ->. assert (B : bytes_eqb (so_rp_hash s) (so_rp_hash s) = true) by now apply bytes_eqb_eq. now rewrite B.
  - intro N. destruct (bytes_eqb h (so_rp_hash s)) eqn:B; [apply bytes_eqb_eq in B; contradiction | reflexivity].
Qed.
Print Assumptions C30_unwrap.

(** Sealing succeeds for every key and policy and every blob of at most 64 bytes. *)
Theorem C30_total : forall c ed25519 W m iv1 iv2 s,
  prims_ok c -> W = 32%N \/ W = 64%N ->
  length iv1 = 16%nat -> bytes_ok iv1 = true -> length iv2 = 16%nat -> bytes_ok iv2 = true ->
  source_ok ed25519 W s -> (forall b, so_blob s = Some b -> (length b <= 64)%nat) ->
  exists id, wrap_pure c m iv1 iv2 s = Some id.
Proof.
  intros c ed W m iv1 iv2 s K HW L1 O1 L2 O2 Hs Hb. apply (wrap_total c ed W K); auto.
  destruct HW as [-> | ->]; split; discriminate.
Qed.
Print Assumptions C30_total.

(** Only IDs of the right length and version, with a valid tag under the authentication key, are
    accepted, for the RP ID hash inside only. *)
Theorem C30_only_sealed : forall c ed25519 W m id rp_hash s,
  unwrap_pure c ed25519 W m id rp_hash = Some (Some s) ->
  length id = 241%nat /\ hd 0%N id = 1%N /\ so_rp_hash s = rp_hash /\
  skipn 209 id = hmac c (firstn 32 (skipn 32 m)) (firstn 209 id).
Proof. intros c ed W m id h s H. exact (unwrap_inv c ed W m id h s H). Qed.
Print Assumptions C30_only_sealed.

(** Through the API.  An assertion with an allow list that succeeds uses a resident credential of
    the RP, or an ID whose tag verifies under the current keys and whose content is for the RP; it
    signs with the key of that credential. *)
Theorem C30_accepted : forall e h b cid p g w' l,
  parse_command (e_cfg e) b = Ok (CGetAssertion p) -> ga_allow p = Some l ->
  run_op e (OpMessage b (MainHid cid)) (run e h) = (OutCtap (Ok (RGetAssertion g)), w') ->
  In (gr_id g) (map de_id l) /\
  ((exists k c, In (k, c) (p_creds (w_p (run e h))) /\ cr_id c = gr_id g /\ cr_rp c = ga_rp p /\
      gr_sig g = sign (e_prims e) (cr_key c) (gr_auth_data g ++ ga_cdh p)) \/
   (exists m s, p_master (w_p w') = Some m /\ length (gr_id g) = 241%nat /\
      skipn 209 (gr_id g) = hmac (e_prims e) (firstn 32 (skipn 32 m)) (firstn 209 (gr_id g)) /\
      unwrap_pure (e_prims e) (c_ed25519 (e_cfg e)) (c_width (e_cfg e)) m (gr_id g)
        (sha256 (e_prims e) (ga_rp p)) = Some (Some s) /\
      gr_sig g = sign (e_prims e) (so_key s) (gr_auth_data g ++ ga_cdh p))).
Proof.
  intros e h b cid p g w' l Hx Ha H. destruct (message_any e b cid _ _ _ _ Hx H) as (w1 & _ & P & F).
  cbn [process_fido_command] in F. destruct (ga_listed e p _ w1 g w' l Ha F) as (c & d & I & G1 & G2 & G3 & _ & _ & Q).
  split; [rewrite G1; now apply in_map | ]. rewrite P in Q. rewrite G1. destruct Q as [(k & Q1 & Q2 & Q3) | (s & (m & M & U) & ->)].
  - left. exists k, c. auto.
  - right. exists m, s. destruct (C30_only_sealed _ _ _ _ _ _ _ U) as (L & _ & _ & T). auto.
Qed.
Print Assumptions C30_accepted.

(** The ID and public key that a registration reports. *)
Definition registration_reports (e : env) (mr : mc_resp) (id pub : bytes) : Prop :=
  exists pre post, length pre = 37%nat /\
    mr_auth_data mr = pre ++ c_aaguid (e_cfg e) ++ [0%N; Nlen id] ++ id ++ pub ++ post.

(** Across any later history without reset, power losses and store failures included, the ID of a
    non-resident registration works for its RP: an assertion that lists it, with verification if its
    protection demands it, never finds no credential; one that lists only it and succeeds signs with
    the key whose public key was reported; and for an RP whose ID has another hash none succeeds. *)
Theorem C30_usable : forall e h1 b cid p mr w1,
  cfg_ok (e_cfg e) -> prims_ok (e_prims e) -> rnd_ok e ->
  bytes_ok b = true -> parse_command (e_cfg e) b = Ok (CMakeCredential p) -> mc_rk p = false ->
  run_op e (OpMessage b (MainHid cid)) (run e h1) = (OutCtap (Ok (RMakeCredential mr)), w1) ->
  exists id k pub, registration_reports e mr id pub /\ length id = 241%nat /\
    cbor_write (cose_to_cbor (pub_of (e_prims e) k)) = Some pub /\
    (exists q, find (supported e) (mc_algs p) = Some q /\ cp_alg q = Some (pk_alg k)) /\
    forall h2 b2 cid2 p2 l y w3,
      let h := h1 ++ (OpMessage b (MainHid cid), None) :: h2 in
      no_reset e h2 -> byte_ops h ->
      parse_command (e_cfg e) b2 = Ok (CGetAssertion p2) -> ga_allow p2 = Some l ->
      run_op e (OpMessage b2 (MainHid cid2)) (run e h) = (OutCtap y, w3) ->
      (In id (map de_id l) -> ga_rp p2 = rp_id (mc_rp p) ->
       effective_policy e (mx_protect (mc_ext_ p)) <> Some UvRequired \/ ga_auth p2 <> None ->
       y <> Err NO_CREDENTIALS) /\
      (map de_id l = [id] -> forall r, y = Ok r ->
       sha256 (e_prims e) (ga_rp p2) = sha256 (e_prims e) (rp_id (mc_rp p)) /\
       exists g, r = RGetAssertion g /\ gr_id g = id /\
         gr_sig g = sign (e_prims e) k (gr_auth_data g ++ ga_cdh p2)).
Proof.
  intros e h1 b cid p mr w1 C K R Ob Hx Hr H.
  destruct (message_any e b cid _ _ _ _ Hx H) as (w0 & _ & _ & F). cbn [process_fido_command] in F.
  destruct (parse_command_body _ _ _ C Ob Hx) as (v & Ov & Pv).
  destruct (parse_mc_ok _ _ _ _ Ov Pv) as (_ & _ & Hb).
  destruct (mc_sealed e C K R p w0 _ w1 Hr Hb F) as (mr' & id & s & pre & pub & post & E & S & (nk & q & Kq1 & Kq2 & _) & S1 & S2 & _ & L & Pb & A).
  injection E as <-. exists id, (so_key s), pub.
  split; [exists pre, post; split; [rewrite L, (ok_sha_len _ K); reflexivity | exact A] | ].
  split; [destruct S as (? & ? & SL & _); exact SL | ]. split; [exact Pb | ]. split; [exists q; auto | ].
  intros h2 b2 cid2 p2 l y w3 h N B Hx2 Ha H2.
  assert (S' : stands_for e (w_p (run e h)) id s).
  { destruct S as (m & M & U). exists m. split; [ | exact U]. unfold h. rewrite run_split.
    apply master_history; [ | exact N | ].
    - pose proof (run_wf e (h1 ++ [(OpMessage b (MainHid cid), None)])) as W. rewrite run_app in W. exact W.
    - unfold step. cbn [fst snd]. rewrite H. exact M. }
  assert (I : ids_short (w_p (run e h))).
  { unfold ids_short. eapply Forall_impl; [ | exact (stored_history e h C R B)]. intros x [_ Q]. exact Q. }
  destruct (message_any e b2 cid2 _ _ _ _ Hx2 H2) as (w2 & _ & P2 & F2). cbn [process_fido_command] in F2.
  rewrite <- P2 in S', I. split.
  - intros D Hrp Pol. apply in_map_iff in D as (d & D1 & D2).
    apply (ga_finds e id s p2 (MainHid cid2) l w2 y w3); auto.
    + now rewrite S1, Hrp.
    + rewrite S2. destruct Pol as [Pol | Pol].
      * unfold listed. destruct (effective_policy e _) as [[] | ]; rewrite ?Bool.orb_true_r; congruence.
      * destruct (ga_auth p2); [reflexivity | congruence].
    + exists d. auto.
  - intros D r ->. destruct l as [ | d [ | ? ?]]; try discriminate. injection D as D.
    destruct (ga_signs e id s p2 (MainHid cid2) d w2 r w3 S' I Ha D F2) as (G1 & _ & gr & G2 & G3 & G4).
    split; [now rewrite G1 | ]. exists gr. auto.
Qed.
Print Assumptions C30_usable.

Lemma u2f_register_bytes b c a :
  bytes_ok b = true -> u2f_parse b = Ok (U2fRegister c a) -> length a = 32%nat /\ bytes_ok a = true.
Proof.
  intros Ob Hx. destruct (U2f.Proofs.u2f_parse_sound b _ Ob Hx) as (ap & E & M).
  destruct (U2f.Proofs.parse_sound b ap Ob E) as [_ S]. inversion M as [? ? ? ? Lc La Hh Hd | | | | | ]; subst.
  split; [exact La | ]. rewrite <- Hd in S.
  assert (D : bytes_ok (c ++ a) = true).
  { destruct S as [S | S]; inversion S; subst b; try (exfalso; destruct c; discriminate); rewrite ?bytes_ok_app, ?Bool.andb_true_iff in Ob;
      match goal with D : _ = c ++ a |- _ => rewrite <- D end; tauto. }
  rewrite bytes_ok_app, Bool.andb_true_iff in D. apply D.
Qed.

(** The same for CTAP1: a key handle authenticates with the registered key, for its application. *)
Theorem C30_u2f : forall e h1 b c a r w1,
  cfg_ok (e_cfg e) -> prims_ok (e_prims e) -> rnd_ok e ->
  bytes_ok b = true -> u2f_parse b = Ok (U2fRegister c a) ->
  run_op e (OpU2f b) (run e h1) = (OutU2f (Ok r), w1) ->
  exists kh k rest, r = [5%N] ++ (4%N :: cx (pub_of (e_prims e) k) ++ cy (pub_of (e_prims e) k)) ++ [Nlen kh] ++ kh ++ rest /\
    length kh = 241%nat /\ pk_alg k = Es256 /\
    forall h2 b2 c2 a2 fl r2 w3,
      no_reset e h2 ->
      u2f_parse b2 = Ok (U2fAuthenticate c2 a2 kh fl) ->
      run_op e (OpU2f b2) (run e (h1 ++ (OpU2f b, None) :: h2)) = (OutU2f (Ok r2), w3) ->
      a2 = a /\ exists counter, length counter = 4%nat /\
        r2 = 1%N :: counter ++ sign (e_prims e) k (a ++ 1%N :: counter ++ c2).
Proof.
  intros e h1 b c a r w1 C K R Ob Hx H. destruct (u2f_register_bytes b c a Ob Hx) as [La Oa].
  assert (G : exists w0, u2f_register e c a w0 = (Ok r, w1)).
  { cbn [run_op] in H. destruct (u2f_process e b (run e h1)) as [r0 w0] eqn:E. injection H as -> ->.
    unfold u2f_process in E. apply bind_ok in E as (al & w2 & _ & E). apply bind_ok in E as (? & w3 & _ & E).
    apply bind_ok in E as (x' & w4 & E4 & E). unfold lift in E4. rewrite Hx in E4. injection E4 as <- <-.
    apply bind_ok in E as (? & w5 & _ & E). apply bind_ok in E as (? & w6 & _ & E). eauto. }
  destruct G as (w0 & G). destruct (u2f_sealed e C K R c a w0 r w1 La Oa G) as (kh & k & pre & cert & sg & AL & _ & S & -> & ->).
  exists kh, k, (cert ++ sg). split; [unfold uncompressed; rewrite <- !app_assoc; reflexivity | ].
  split; [destruct S as (? & ? & SL & _); exact SL | ]. split; [exact AL | ]. intros h2 b2 c2 a2 fl r2 w3 N Hx2 H2.
  assert (S' : stands_for e (w_p (run e (h1 ++ (OpU2f b, None) :: h2))) kh (mkSource k a None None)).
  { destruct S as (m & M & U). exists m. split; [ | exact U]. rewrite run_split. apply master_history; [ | exact N | ].
    - pose proof (run_wf e (h1 ++ [(OpU2f b, None)])) as W. rewrite run_app in W. exact W.
    - unfold step. cbn [fst snd]. rewrite H. exact M. }
  cbn [run_op] in H2. destruct (u2f_process e b2 _) as [r0 w4] eqn:E. injection H2 as -> ->.
  unfold u2f_process in E.
  apply bind_ok in E as (al & w5 & E5 & E). apply map_status_ok in E5. apply reads_ok in E5; [ | reads_walk].
  apply bind_ok in E as (? & w6 & E6 & E). apply guard_ok in E6 as [_ ->].
  apply bind_ok in E as (x' & w6 & E6 & E). unfold lift in E6. rewrite Hx2 in E6. injection E6 as <- <-.
  apply bind_ok in E as (? & w7 & E7 & E).
  destruct E5 as (P5 & _). rewrite <- P5 in S'.
  assert (S7 : stands_for e (w_p w7) kh (mkSource k a None None)).
  { assert (Q : rel Pmaster (match fl with EnforceUpAndSign => let* ok := consume in guard ok SW_COND_USE_NOT_SATISFIED | _ => ret tt end : M sw unit)).
    { destruct fl; rel_walk; try (intro v; cbn; auto). }
    specialize (Q w5). rewrite E7 in Q. exact (stands_frame _ _ _ _ _ Q S'). }
  destruct (u2f_signs e kh _ c2 a2 fl w7 r2 w3 S7 E) as (A1 & _ & ct & A2 & A3). cbn [so_rp_hash so_key] in *. subst a2.
  split; [reflexivity | ]. exists ct. auto.
Qed.
Print Assumptions C30_u2f.

(** Registration without a resident credential, then assertions that list the ID: they succeed, also
    after a power loss in the middle of a message, and for another RP they find nothing. *)
Definition ga_list_msg (rp : bytes) (ids : list bytes) (token : option bytes) : bytes :=
  message 2 ([(1%N, VText rp); (2%N, VBytes cdh0);
              (3%N, VArray (map (fun id => VMap [(text "id", VBytes id); (text "type", text "public-key")]) ids))] ++
             with_auth 6 7 token cdh0).
Definition toy_app : bytes := sha256 toy_prims toy_rp.
Definition u2f_reg_msg : bytes := [0; 1; 3; 0; 0; 0; 64]%N ++ cdh0 ++ toy_app ++ [0; 0]%N.
Example C30_nonvacuous :
  (exists p, parse_command toy_cfg (mc_msg toy_rp [1; 1]%N false None) = Ok (CMakeCredential p) /\ mc_rk p = false) /\
  is_ok (answer [] (mc_msg toy_rp [1; 1]%N false None)) = true /\
  length toy_kh = 241%nat /\
  let h := h_kh ++ [(OpMessage (mc_msg toy_rp [3%N] true None) ch0, Some 1%nat); (OpCompact 2, None)] in
  byte_opsb h = true /\
  (exists p d, parse_command toy_cfg (ga_list_msg toy_rp [toy_kh] None) = Ok (CGetAssertion p) /\
    ga_allow p = Some [d] /\ de_id d = toy_kh) /\
  is_ok (answer h (ga_list_msg toy_rp [toy_kh] None)) = true /\
  answer h (ga_list_msg (str "other.com") [toy_kh] None) = OutCtap (Err NO_CREDENTIALS) /\
  answer h (ga_list_msg toy_rp [removelast toy_kh ++ [77%N]] None) = OutCtap (Err NO_CREDENTIALS).
Proof.
  split; [vm_compute; eauto | ]. split; [vm_compute; reflexivity | ]. split; [reflexivity | ]. cbv zeta.
  split; [vm_compute; reflexivity | ]. split; [do 2 eexists; vm_compute; auto | ]. vm_compute. auto.
Qed.
Definition h_u2f : history :=
  [(OpVendor ch0 (Some (repeat 7%N 32, [9; 9]%N)) None, None); (OpU2f u2f_reg_msg, None); (OpTouch, None)].
Definition u2f_answer (h : history) (m : bytes) : outcome := fst (run_op toy (OpU2f m) (run toy h)).
Definition u2f_new_kh : bytes := Eval vm_compute in
  match u2f_answer h_u2f u2f_reg_msg with OutU2f (Ok r) => firstn 241 (skipn 67 r) | _ => [] end.
Example C30_u2f_nonvacuous :
  let h := h_u2f ++ [(OpU2f u2f_reg_msg, None)] in let m := u2f_auth_msg 3 u2f_new_kh in
  u2f_parse u2f_reg_msg = Ok (U2fRegister cdh0 toy_app) /\ bytes_ok u2f_reg_msg = true /\
  is_u2f_ok h_u2f u2f_reg_msg = true /\ length u2f_new_kh = 241%nat /\
  u2f_parse m = Ok (U2fAuthenticate cdh0 toy_app u2f_new_kh EnforceUpAndSign) /\
  is_u2f_ok (h ++ [(OpU2f m, None); (OpTouch, None)]) m = true /\
  is_u2f_ok (h ++ [(OpU2f (removelast m), Some 3%nat); (OpU2f m, None); (OpTouch, None)]) m = true.
Proof. vm_compute. repeat split; reflexivity. Qed.
