(** The input of a running getAssertion, and what the hmac-secret extension returns: lemmas for C54
    and C55. *)
From Verif Require Import Base Facts Hid.Model U2f.Model Cbor.Model Cbor.Spec Ctap.Crypto Ctap.Types Ctap.Machine
  Ctap.Commands Ctap.Parse Ctap.System Ctap.Logic Ctap.History Ctap.Track Ctap.Pin Ctap.PinChange
  Ctap.MinPin Ctap.TokenSpec Ctap.Token Ctap.Success Ctap.Auth Ctap.Gate Ctap.Answers Ctap.TokenUse
  Ctap.Creds Ctap.Enum Ctap.NoPanic Ctap.Enumerate Ctap.Reset Ctap.Keys Ctap.Protect Ctap.Seal Ctap.Stored.
From Coq Require Import String List Lia.
Import ListNotations.
Open Scope list_scope.

(** ** Specification *)

(** The secret that the platform and the authenticator share: from the key agreement key of the
    protocol and the public key of the platform. *)
Definition session (c : prims) (v : vol) (hi : hmac_input) : shared :=
  shared_new c (hi_proto hi)
    (ecdh_shared c (pp_key (proto_of (hi_proto hi) v)) (cx (hi_key hi), cy (hi_key hi))).
(** The secret of a credential: derived from its private key [k] and from 32 bytes of the master
    secret, other ones with user verification than without. *)
Definition credential_secret (c : prims) (m : bytes) (k : priv) (uv : bool) : bytes :=
  hkdf c (firstn 32 (skipn (if uv then 96 else 64) m)) (firstn 32 (pk_bytes k)) (str "credRandom").
(** The extension data of an assertion with the output of hmac-secret. *)
Definition extension_data (blob : option bytes) (out ext : bytes) : Prop :=
  cbor_write (VMap (match blob with Some b => [(VText (str "credBlob"), VBytes b)] | None => [] end ++
                    [(VText (str "hmac-secret"), VBytes out)])) = Some ext.
(** The answer [g], signed with [k]: the salts are those that the platform sealed with a valid MAC;
    the output decrypts to the HMAC of each salt under the secret of the credential. *)
Definition hmac_answer (c : prims) (m : bytes) (v : vol) (hi : hmac_input) (uv : bool) (cdh : bytes)
  (g : ga_resp) : Prop :=
  exists k salt1 salt2 blob out data ext,
    gr_sig g = sign c k (gr_auth_data g ++ cdh) /\
    gr_auth_data g = data ++ ext /\ length data = 37%nat /\ extension_data blob out ext /\
    let s := session c v hi in
    hi_auth hi = authenticate c (hi_proto hi) (sh_hmac s) (hi_salt hi) /\
    shared_decrypt c s (hi_salt hi) = Some (salt1 ++ salt2) /\
    length salt1 = 32%nat /\ (length salt2 = 0 \/ length salt2 = 32)%nat /\
    shared_decrypt c s out =
      Some (hmac c (credential_secret c m k uv) salt1 ++
            match salt2 with [] => [] | _ => hmac c (credential_secret c m k uv) salt2 end).

(** The bit of the authenticator data that says that the user was verified. *)
Definition uv_bit (data : bytes) : bool := N.testbit (nth 32 data 0%N) 2.

(** ** The input of the running assertion *)
Definition same_input (s s' : stateful) : Prop :=
  forall i ks, sf_cmd s' = Some (SGetAssertion i ks) -> exists ks', sf_cmd s = Some (SGetAssertion i ks').
Lemma same_refl s : same_input s s.
Proof. intros i ks H. eauto. Qed.
Lemma same_trans a b d : same_input a b -> same_input b d -> same_input a d.
Proof. intros H K i ks E. destruct (K i ks E) as (ks' & E'). eauto. Qed.
Definition Pin : params.
Proof.
  refine (mkPar (fun _ _ => True) (fun u v => same_input (v_st u) (v_st v)) anyE _ _ _ _); auto.
  - intro v. apply same_refl.
  - intros u v w. apply same_trans.
Defined.
Ltac in_side :=
  intros; cbn;
  first [ exact Logic.I
        | apply same_refl
        | intros ? ? ?; discriminate
        | match goal with |- same_input _ (match ?x with _ => _ end) => destruct x end; in_side ].
Ltac in_walk := repeat (first [solve [auto with rel_db] | rel_step ltac:(try solve [in_side])]);
  try (intro v; cbn; rewrite ?st_proto; apply same_refl).

Lemma in_next_assertion : rel Pin next_assertion_credential.
Proof.
  unfold next_assertion_credential. apply rel_bind; [in_walk | intros _].
  intro w. unfold bind, gets. destruct (sf_cmd (st w)) as [[ | i keys | | ] | ] eqn:E; try apply fr_refl.
  destruct (rev keys); [apply fr_refl | ]. split; cbn; auto; try lia.
  - exists []. split; [reflexivity | constructor].
  - intros j ks H. injection H as <- <-. eauto.
Qed.
Lemma in_next_rp : rel Pin next_enumerate_rp.
Proof. unfold next_enumerate_rp. in_walk. Qed.
Lemma in_next_credential : rel Pin next_enumerate_credential.
Proof. unfold next_enumerate_credential. in_walk. Qed.
Local Hint Resolve in_next_assertion in_next_rp in_next_credential : rel_db.

(** What a getAssertion leaves as input. *)
Definition made_for (e : env) (p : ga_params) (i : assertion_input) : Prop :=
  input_for p i /\ exists f n, ai_auth_data i = sha256 (e_prims e) (ga_rp p) ++ [f] ++ be_bytes 4 n /\
    N.testbit f 2 = is_some (ga_auth p).
Definition starts {A} (G : assertion_input -> Prop) (m : M status A) : Prop :=
  forall w, same_input (st w) (st (snd (m w))) \/
            (forall i ks, sf_cmd (st (snd (m w))) = Some (SGetAssertion i ks) -> G i).
Lemma starts_rel {A} G (m : M status A) : rel Pin m -> starts G m.
Proof. intros R w. left. apply (fr_v _ _ _ (R w)). Qed.
Lemma starts_bind {A B} G (Q : A -> Prop) (m : M status A) (f : A -> M status B) :
  starts G m -> (forall w a w', m w = (Ok a, w') -> Q a) -> (forall a, Q a -> starts G (f a)) ->
  starts G (bind m f).
Proof.
  intros H V K w. specialize (H w). unfold bind. destruct (m w) as [[a | s] w1] eqn:E; [ | exact H].
  cbn [snd] in H. specialize (K a (V _ _ _ E) w1). destruct (f a w1) as [r w2]. cbn [snd] in *.
  destruct K as [K | K]; [ | right; exact K].
  destruct H as [H | H]; [left; eapply same_trans; eassumption | right].
  intros i ks X. destruct (K i ks X) as (ks' & X'). eauto.
Qed.
Lemma starts_set (G : assertion_input -> Prop) i ks ch : G i -> starts G (set_command (SGetAssertion i ks) ch).
Proof. intros H w. right. cbn. intros j ks' E. injection E as <- <-. exact H. Qed.

Ltac in_plain := apply (starts_bind _ (fun _ => True)); [apply starts_rel; in_walk | auto | intros ? _].
Lemma starts_ga e p ch : starts (made_for e p) (process_get_assertion e p ch).
Proof.
  unfold process_get_assertion. cbv zeta. do 4 in_plain.
  match goal with a : _ * _ |- _ => destruct a as [[r | ] keys] end; [ | apply starts_rel; in_walk].
  do 2 in_plain.
  match goal with |- starts _ (bind (generate_auth_data _ _ ?f) _) => set (fl := f) end.
  apply (starts_bind _ (fun ad => exists n, ad = sha256 (e_prims e) (ga_rp p) ++ [fl] ++ be_bytes 4 n)).
  - apply starts_rel. in_walk.
  - intros w ad w' H. apply generate_auth_data_ok in H as [-> _]. eauto.
  - intros ad (n & ->). set (i := mkAI _ _ _ _).
    assert (G : made_for e p i).
    { split; [repeat split | ]. exists fl, n. split; [reflexivity | ]. unfold fl.
      destruct (ga_auth p); [apply (ga_flags true) | apply (ga_flags false)]. }
    apply (starts_bind _ (fun _ => True)); [ | auto | intros ? _; apply starts_rel; in_walk].
    destruct keys; [apply starts_rel; in_walk | ].
    apply (starts_bind _ (fun _ => True)); [now apply starts_set | auto | intros ? _; apply starts_rel; in_walk].
Qed.

Lemma in_preamble x ch : rel Pin (preamble x ch).
Proof. unfold preamble. in_walk. Qed.
Lemma in_message e x ch w :
  same_input (st w) (st (snd (process_parsed_command e x ch w))) \/
  exists cid p, ch = MainHid cid /\ x = CGetAssertion p /\
    forall i ks, sf_cmd (st (snd (process_parsed_command e x ch w))) = Some (SGetAssertion i ks) -> made_for e p i.
Proof.
  rewrite split_message. destruct (preamble_same x ch w) as (w1 & Q & _).
  pose proof (fr_v _ _ _ (in_preamble x ch w)) as D1. rewrite Q in D1. cbn in D1.
  unfold bind. rewrite Q.
  assert (REL : forall m : M status response, rel Pin m -> same_input (st w) (st (snd (m w1)))).
  { intros m R. eapply same_trans; [exact D1 | apply (fr_v _ _ _ (R w1))]. }
  destruct ch as [cid | cid].
  2: { left. apply REL. destruct x; cbn [process_vendor_command]; in_walk. }
  destruct x as [ | p | | | | | p | | | ]; cbn [process_fido_command];
    try (left; apply REL; in_walk; fail).
  destruct (starts_ga e p (MainHid cid) w1) as [K | K].
  - left. eapply same_trans; eassumption.
  - right. exists cid, p. auto.
Qed.
Lemma in_step e o w :
  same_input (st w) (st (snd (run_op e o w))) \/
  exists b cid p, o = OpMessage b (MainHid cid) /\ parse_command (e_cfg e) b = Ok (CGetAssertion p) /\
    forall i ks, sf_cmd (st (snd (run_op e o w))) = Some (SGetAssertion i ks) -> made_for e p i.
Proof.
  destruct o as [b ch | b | ch b en | | d | n].
  - cbn [run_op]. unfold process_command, bind, lift. destruct (parse_command (e_cfg e) b) as [x | s] eqn:Ex.
    + pose proof (in_message e x ch w) as H. destruct (process_parsed_command e x ch w) as [r w'].
      cbn [snd] in *. destruct H as [H | (cid & p & -> & -> & H)]; [left; exact H | right]. eauto 6.
    + left. apply same_refl.
  - left. assert (R : rel Pst_same (u2f_process e b)) by rel_walk. specialize (R w).
    cbn [run_op]. destruct (u2f_process e b w) as [r w']. pose proof (fr_v _ _ _ R) as F. cbn in F.
    cbn [snd]. rewrite F. apply same_refl.
  - left. cbn. intros ? ? ?. discriminate.
  - left. apply same_refl.
  - left. apply same_refl.
  - left. apply same_refl.
Qed.
(** The input of a running assertion comes from an earlier getAssertion, without a restart since. *)
Lemma input_history e h : forall i ks, sf_cmd (st (run e h)) = Some (SGetAssertion i ks) ->
  exists h1 b cid p h2, h = h1 ++ (OpMessage b (MainHid cid), None) :: h2 /\
    parse_command (e_cfg e) b = Ok (CGetAssertion p) /\ made_for e p i.
Proof.
  induction h as [ | y h IH] using rev_ind; intros i ks Hs; [discriminate | ].
  rewrite run_app in Hs. unfold step in Hs. destruct y as [o [n | ]]; cbn [fst snd] in Hs; [discriminate | ].
  destruct (in_step e o (run e h)) as [K | (b & cid & p & -> & Hx & K)].
  - destruct (K i ks Hs) as (ks' & E). destruct (IH i ks' E) as (h1 & b & cid & p & h2 & -> & Hx & G).
    exists h1, b, cid, p, (h2 ++ [(o, None)]). rewrite <- app_assoc. auto.
  - exists h, b, cid, p, []. eauto.
Qed.

(** ** The extension *)
Definition Pkeys : params := keep anyp (fun v => (pp_key (proto_of V1 v), pp_key (proto_of V2 v))) anyE.
Lemma keys_frame w w' p : fr Pkeys w w' -> pp_key (proto_of p (w_v w')) = pp_key (proto_of p (w_v w)).
Proof. intro F. apply fr_v in F. cbn [Pkeys keep Rv] in F. apply pair_equal_spec in F as [F1 F2]. destruct p; assumption. Qed.

Lemma hmac_secret_ok e hi cr w out w' :
  prims_ok (e_prims e) -> rnd_ok e ->
  process_hmac_secret e hi cr w = (Ok out, w') ->
  let c := e_prims e in let s := session c (w_v w) hi in
  w_p w' = w_p w /\
  hi_auth hi = authenticate c (hi_proto hi) (sh_hmac s) (hi_salt hi) /\
  exists salt1 salt2, shared_decrypt c s (hi_salt hi) = Some (salt1 ++ salt2) /\
    length salt1 = 32%nat /\ (length salt2 = 0 \/ length salt2 = 32)%nat /\
    shared_decrypt c s out = Some (hmac c cr salt1 ++ match salt2 with [] => [] | _ => hmac c cr salt2 end).
Proof.
  intros K R H. unfold process_hmac_secret in H. cbv zeta.
  apply bind_ok in H as (s & w1 & H1 & H). unfold get_shared_secret in H1.
  apply bind_ok in H1 as (pp & w2 & H2 & H1). apply gets_ok in H2 as [-> ->].
  unfold decapsulate, ecdh_coordinates in H1.
  destruct (_ && _)%bool; [discriminate | ]. destruct (_ || _)%bool; [discriminate | ]. cbn [rbind] in H1.
  destruct (ecdh_on_curve _ _); [ | discriminate]. apply ret_ok in H1 as [Es ->].
  change (s = session (e_prims e) (w_v w) hi) in Es. rewrite <- Es.
  assert (Ep : sh_proto s = hi_proto hi) by (rewrite Es; unfold session, shared_new; destruct (hi_proto hi); reflexivity).
  clear Es.
  apply bind_ok in H as (u1 & w1 & H1 & H).
  assert (V : shared_verify (e_prims e) s (hi_salt hi) (hi_auth hi) = MacOk /\ w1 = w).
  { destruct (shared_verify _ _ _ _); cbn [mac_status] in H1; try (apply fail_ok in H1; contradiction).
    apply ret_ok in H1 as [_ ->]. auto. }
  destruct V as [V ->]. clear H1.
  apply bind_ok in H as (d & w1 & H1 & H). unfold shared_decrypt_m in H1.
  destruct (shared_decrypt _ s (hi_salt hi)) as [x | ] eqn:D; [ | apply fail_ok in H1; contradiction].
  apply ret_ok in H1 as [-> ->].
  apply bind_ok in H as (u2 & w1 & H1 & H). apply guard_ok in H1 as [L ->].
  unfold shared_encrypt_m in H. apply bind_ok in H as (iv & w1 & H1 & H).
  assert (IV : w_p w1 = w_p w /\ (embeds (sh_proto s) = true -> length iv = 16%nat /\ bytes_ok iv = true)).
  { destruct (embeds _); [apply draw_ok in H1 as (-> & P & _); split; [exact P | intros _; apply R] |
                          apply ret_ok in H1 as [_ ->]; split; [reflexivity | discriminate]]. }
  destruct IV as [P1 IV].
  destruct (shared_encrypt _ s iv _) as [y | ] eqn:Ey; [ | apply fail_ok in H; contradiction].
  apply ret_ok in H as [-> ->]. split; [exact P1 | ]. split.
  { unfold shared_verify in V. rewrite Ep in V. destruct (hi_proto hi); cbn [verify_token authenticate] in *;
      unfold verify_v1, verify_v2 in V; (destruct (Nat.eqb (List.length (hi_auth hi)) _); cbn [negb] in V; [ | discriminate]);
      (destruct (bytes_eqb _ _) eqn:B; [ | discriminate]); apply bytes_eqb_eq in B; auto. }
  exists (firstn 32 x), (skipn 32 x). rewrite firstn_skipn. split; [reflexivity | ].
  assert (Lx : (length x = 32 \/ length x = 64)%nat).
  { apply orb_true_iff in L as [L | L]; apply Nat.eqb_eq in L; auto. }
  split; [rewrite firstn_length; lia | ]. split; [rewrite skipn_length; lia | ].
  set (plain := hmac _ _ _ ++ _) in Ey.
  assert (E : plain = hmac (e_prims e) cr (firstn 32 x) ++
                      match skipn 32 x with [] => [] | _ => hmac (e_prims e) cr (skipn 32 x) end).
  { unfold plain. f_equal. destruct (Nat.eqb_spec (length x) 64) as [E64 | E64].
    - destruct (skipn 32 x) eqn:Sx; [apply (f_equal (@length N)) in Sx; rewrite skipn_length in Sx; cbn in Sx; lia | reflexivity].
    - destruct (skipn 32 x) eqn:Sx; [reflexivity | apply (f_equal (@length N)) in Sx; rewrite skipn_length in Sx; cbn in Sx; lia]. }
  rewrite <- E. clear E.
  assert (Bp : bytes_ok plain = true).
  { unfold plain, bytes_ok. rewrite forallb_app. rewrite andb_true_iff. split; [apply (ok_hmac_bytes _ K) | ].
    destruct (Nat.eqb (List.length x) 64); [apply (ok_hmac_bytes _ K) | reflexivity]. }
  assert (Lp : (length plain mod 16 = 0)%nat).
  { unfold plain. rewrite app_length, (ok_hmac_len _ K). destruct (Nat.eqb (List.length x) 64); [rewrite (ok_hmac_len _ K) | ]; reflexivity. }
  unfold shared_encrypt, shared_decrypt in *. clearbody plain. destruct (embeds (sh_proto s)) eqn:Em; rewrite ?Em in Ey.
  - destruct (IV eq_refl) as [I1 I2].
    destruct (cbc_roundtrip (e_prims e) (sh_aes s) iv true plain K I1 I2 Bp Lp) as (ct & E1 & _ & _ & E2). rewrite E1 in Ey. injection Ey as <-. exact E2.
  - destruct (cbc_roundtrip (e_prims e) (sh_aes s) zero_iv false plain K eq_refl eq_refl Bp Lp) as (ct & E1 & _ & _ & E2).
    assert (E3 : cbc_encrypt (e_prims e) (sh_aes s) iv false plain = Some ct) by exact E1.
    rewrite E3 in Ey. injection Ey as <-. exact E2.
Qed.

Lemma response_hmac e r i n w g w' hi :
  prims_ok (e_prims e) -> rnd_ok e -> gx_hmac (ai_ext i) = Some hi -> length (ai_auth_data i) = 37%nat ->
  assertion_response e r i n w = (Ok g, w') ->
  exists m, p_master (w_p w') = Some m /\ hmac_answer (e_prims e) m (w_v w) hi (ai_uv i) (ai_cdh i) g.
Proof.
  intros K R Hh La H. unfold assertion_response in H. cbv zeta in H. rewrite Hh in H. cbn [orb] in H.
  apply bind_ok in H as (ext & w1 & H1 & H).
  apply bind_ok in H1 as (o & w2 & H2 & H1). apply bind_ok in H2 as (cr & w3 & H3 & H2).
  unfold generate_cred_random in H3. apply bind_ok in H3 as (key & w4 & H4 & H3). unfold cred_random in H4.
  apply bind_ok in H4 as (m & w5 & H5 & H4).
  assert (FK : fr Pkeys w w5).
  { assert (Q : rel Pkeys (master_keys e)) by rel_walk. specialize (Q w). now rewrite H5 in Q. }
  apply master_keys_ok in H5.
  apply ret_ok in H4 as [-> ->]. apply ret_ok in H3 as [-> ->].
  apply bind_ok in H2 as (out & w6 & H6 & H2). apply ret_ok in H2 as [-> ->].
  destruct (hmac_secret_ok e hi _ _ _ _ K R H6) as (P6 & Ha & s1 & s2 & D1 & L1 & L2 & D2).
  assert (P1 : w_p w1 = w_p w6 /\ extension_data (if gx_blob (ai_ext i) then Some (match cr_blob r with Some b => b | None => [] end) else None) out ext).
  { unfold write_cbor in H1. destruct (cbor_write _) as [x | ] eqn:E; [ | apply fail_ok in H1; contradiction].
    apply ret_ok in H1 as [-> ->]. split; [reflexivity | ]. unfold extension_data. rewrite <- E.
    destruct (gx_blob (ai_ext i)); reflexivity. }
  destruct P1 as [P1 X].
  apply bind_ok in H as (sg & w7 & H7 & H). apply ret_ok in H as [-> ->].
  unfold sign_and_encode in H7. destruct (key_valid _ _); [ | discriminate]. apply ret_ok in H7 as [-> ->].
  exists m. split; [rewrite P1, P6; exact H5 | ].
  eexists (cr_key r), s1, s2, _, out, (ai_auth_data i), ext.
  split; [reflexivity | ]. split; [reflexivity | ]. split; [exact La | ]. split; [exact X | ].
  unfold session in *. rewrite (keys_frame w w5 (hi_proto hi) FK) in *. cbv zeta. auto.
Qed.

(** ** The commands *)
Lemma made_length e p i : prims_ok (e_prims e) -> made_for e p i -> length (ai_auth_data i) = 37%nat.
Proof. intros K (_ & f & n & -> & _). rewrite app_length, (ok_sha_len _ K). reflexivity. Qed.
Lemma made_uv e p i ext : prims_ok (e_prims e) -> made_for e p i -> uv_bit (ai_auth_data i ++ ext) = ai_uv i.
Proof.
  intros K ((_ & U & _) & f & n & E & B). rewrite U, <- B. unfold uv_bit. rewrite E, <- app_assoc.
  rewrite app_nth2 by (rewrite (ok_sha_len _ K); lia). rewrite (ok_sha_len _ K). reflexivity.
Qed.

Lemma ga_inner e p ch w r w' : process_get_assertion e p ch w = (Ok r, w') ->
  exists c i n g w1, r = RGetAssertion g /\ made_for e p i /\ fr Pkeys w w1 /\
    (is_some (gx_hmac (ga_ext_ p)) = true -> ga_up p = true) /\
    assertion_response e c i n w1 = (Ok g, w').
Proof.
  unfold process_get_assertion. cbv zeta. intro H.
  apply bind_ok in H as (? & w1 & H1 & H).
  apply bind_ok in H as (? & w2 & H2 & H).
  assert (UP : is_some (gx_hmac (ga_ext_ p)) = true -> ga_up p = true).
  { apply guard_ok in H2 as [H2 _]. unfold is_some. destruct (gx_hmac (ga_ext_ p)), (ga_up p); auto; discriminate. }
  apply bind_ok in H as (? & w3 & H3 & H). apply bind_ok in H as (sel & w4 & H4 & H).
  destruct sel as [[c | ] keys]; [ | discriminate].
  apply bind_ok in H as (? & w5 & H5 & H). apply bind_ok in H as (? & w6 & H6 & H).
  apply bind_ok in H as (ad & w7 & H7 & H). apply bind_ok in H as (n & w8 & H8 & H).
  apply bind_ok in H as (g & w9 & H9 & H). apply ret_ok in H as [-> ->].
  assert (F : fr Pkeys w w8).
  { Ltac keyf H := match type of H with ?m ?w = (_, ?w') =>
      assert (fr Pkeys w w') by (let Q := fresh in assert (Q : rel Pkeys m) by rel_walk; specialize (Q w); now rewrite H in Q) end.
    keyf H1. keyf H2. keyf H3. keyf H4. keyf H5. keyf H6. keyf H7. keyf H8.
    repeat (eapply fr_trans; [eassumption | ]). apply fr_refl. }
  exists c, (mkAI (ga_cdh p) ad (ga_ext_ p) match ga_auth p with Some _ => true | None => false end), n, g, w8.
  split; [reflexivity | ]. split; [ | split; [exact F | split; [exact UP | exact H9]]].
  apply generate_auth_data_ok in H7 as [-> _]. split; [repeat split | ]. eexists _, _. split; [reflexivity | ].
  destruct (ga_auth p); [apply (ga_flags true) | apply (ga_flags false)].
Qed.
Lemma next_inner e ch w r w' : process_fido_command e CGetNextAssertion ch w = (Ok r, w') ->
  exists c i ks g w1, r = RGetNextAssertion g /\ sf_cmd (st w) = Some (SGetAssertion i ks) /\ fr Pkeys w w1 /\
    assertion_response e c i None w1 = (Ok g, w').
Proof.
  cbn [process_fido_command]. unfold process_get_next_assertion. intro H.
  apply bind_ok in H as ([i k] & w1 & H1 & H). apply bind_ok in H as (c & w2 & H2 & H).
  apply bind_ok in H as (g & w3 & H3 & H). apply ret_ok in H as [-> ->].
  keyf H1. keyf H2.
  assert (S : exists ks, sf_cmd (st w) = Some (SGetAssertion i ks)).
  { unfold next_assertion_credential in H1. apply bind_ok in H1 as (? & w4 & H4 & H1).
    assert (S4 : same_input (st w) (st w4)).
    { assert (Q : rel Pin clear_timer) by in_walk. specialize (Q w). rewrite H4 in Q. apply (fr_v _ _ _ Q). }
    apply bind_ok in H1 as (s & w5 & H5 & H1). apply gets_ok in H5 as [-> ->].
    destruct (sf_cmd (st w4)) as [[ | j keys | | ] | ] eqn:E; try discriminate.
    destruct (rev keys); [discriminate | ]. apply bind_ok in H1 as (? & w6 & _ & H1).
    apply ret_ok in H1 as [E1 _]. injection E1 as -> ->. apply (S4 j keys E). }
  destruct S as (ks & S). exists c, i, ks, g, w2. split; [reflexivity | ]. split; [exact S | ].
  split; [eapply fr_trans; eassumption | exact H3].
Qed.
