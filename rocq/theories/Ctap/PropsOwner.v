(** Property theorems C78: whoever knows the PIN gets a token. *)
From Verif Require Import Base Facts Hid.Model U2f.Model Cbor.Model Ctap.Crypto Ctap.Types Ctap.Machine
  Ctap.Commands Ctap.Parse Ctap.System Ctap.Logic Ctap.History Ctap.Track Ctap.Pin Ctap.PinChange Ctap.Stored Ctap.Seal
  Ctap.Answers Ctap.Toy Ctap.ToyMore Ctap.Attest Ctap.Owner.
From Coq Require Import String List Lia.
Import ListNotations.
Open Scope list_scope.

(** The stored hash of a PIN: the first 16 bytes of its SHA-256. *)
Definition hash_of (pr : prims) (pin : bytes) : bytes := firstn 16 (sha256 pr pin).
(** The secret that the device now shares with a platform of this public key (see C47_agree). *)
Definition shares (e : env) (w : world) (pp : pin_proto) (platform : cose) (s : shared) : Prop :=
  decapsulate (e_prims e) (pp_key (match pp with V1 => v_proto1 (w_v w) | V2 => v_proto2 (w_v w) end)) platform pp = Ok s.

(** On a device without a PIN, after any history, setPIN is accepted for every PIN of at least the
    minimum length and at most 63 bytes without a zero byte.  The hash of exactly this PIN is stored,
    and all attempts are left. *)
Theorem C78_set_pin : forall e h b cid p platform auth new s pin,
  let w := run e h in
  nofault e ->
  parse_command (e_cfg e) b = Ok (CClientPin p) -> pi_sub p = PsSetPin ->
  (pi_proto p = V1 -> c_allow_v1 (e_cfg e) = true) ->
  pi_key p = Some platform -> pi_auth p = Some auth -> pi_new p = Some new ->
  shares e w (pi_proto p) platform s ->
  auth = authenticate (e_prims e) (pi_proto p) (sh_hmac s) new -> prims_ok (e_prims e) ->
  shared_decrypt (e_prims e) s new = Some (pin ++ repeat 0%N (64 - length pin)) ->
  ~ In 0%N pin -> (length pin <= 63)%nat -> (minlen_of e (w_p w) <= code_points pin)%N ->
  p_pin (w_p w) = None ->
  exists w', run_op e (OpMessage b (MainHid cid)) w = (OutCtap (Ok (RClientPin None)), w') /\
    p_pin (w_p w') = Some (hash_of (e_prims e) pin, code_points pin) /\
    retries_of e (w_p w') = c_max_retries (e_cfg e) /\ p_force (w_p w') = false.
Proof.
  intros e h b cid p ka auth new s pin w NF Hx Hs Hv Hk Ha Hn Sh Au K Dec Z L Mi P.
  destruct (pin_message e b cid p w (fun r w' => r = None /\ pin_stored e pin w w') Hx Hv) as (r & w' & E & -> & S).
  { intros w1 P1 N1 M1 A1 A2. rewrite Hs.
    assert (Q : proto_of (pi_proto p) (w_v w1) = proto_of (pi_proto p) (w_v w)) by (destruct (pi_proto p); assumption).
    destruct (e_set_pin e NF p ka auth new s pin w1 Hk Ha Hn) as (r & w2 & E & -> & S); auto; try (rewrite P1; assumption).
    - rewrite Q. exact Sh.
    - unfold shared_verify. rewrite (decap_proto e _ _ _ _ Sh). subst auth.
      pose proof (ok_hmac_len _ K (sh_hmac s) new) as LH.
      destruct (pi_proto p); cbn [verify_token authenticate]; unfold verify_v1, verify_v2; rewrite ?firstn_length, LH; cbn;
        now rewrite bytes_eqb_refl.
    - exists None, w2. split; [exact E | ]. split; [reflexivity | ]. unfold pin_stored in *. rewrite M1, A1, A2 in S. exact S. }
  exists w'. split; [exact E | ]. destruct S as (S1 & S2 & S3 & _). split; [exact S1 | ]. split; [ | exact S3].
  unfold retries_of. now rewrite S2.
Qed.
Print Assumptions C78_set_pin.

(** After any history, a getPinToken that carries the hash of the stored PIN is answered with a token,
    provided attempts are left, fewer than three wrong PINs were tried since power-up or the last
    correct one, and no change of the PIN is due.  The platform can decrypt the token, which is fresh,
    is in force for its full time with the default permissions, and all attempts are back. *)
Theorem C78_token : forall e h b cid p platform enc s pin len,
  let w := run e h in
  nofault e -> prims_ok (e_prims e) -> rnd_ok e ->
  parse_command (e_cfg e) b = Ok (CClientPin p) -> pi_sub p = PsGetToken -> pi_perms p = None -> pi_rp p = None ->
  (pi_proto p = V1 -> c_allow_v1 (e_cfg e) = true) ->
  pi_key p = Some platform -> pi_hash p = Some enc -> shares e w (pi_proto p) platform s ->
  shared_decrypt (e_prims e) s enc = Some (hash_of (e_prims e) pin) ->
  p_pin (w_p w) = Some (hash_of (e_prims e) pin, len) ->
  (0 < retries_of e (w_p w))%N -> (v_mism (w_v w) < 3)%N -> p_force (w_p w) = false ->
  exists ct i w', run_op e (OpMessage b (MainHid cid)) w =
      (OutCtap (Ok (RClientPin (Some (mkPinResp None (Some ct) None None)))), w') /\
    let token := pp_token (match pi_proto p with V1 => v_proto1 (w_v w') | V2 => v_proto2 (w_v w') end) in
    shared_decrypt (e_prims e) s ct = Some token /\ token = e_rnd e i 32 /\
    v_token (w_v w') = mkToken 3 None (make_timer (w_now w) TOKEN_TIMEOUT_MS) true true /\
    p_pin (w_p w') = p_pin (w_p w) /\ retries_of e (w_p w') = c_max_retries (e_cfg e) /\ v_mism (w_v w') = 0%N.
Proof.
  intros e h b cid p ka enc s pin len w NF K R Hx Hs Hpe Hrp Hv Hk Hh Sh Dec P Re Mm Fo.
  destruct (pin_message e b cid p w (token_given e (pi_proto p) s 3 None w) Hx Hv) as (r & w' & E & T).
  { intros w1 P1 N1 M1 A1 A2. rewrite Hs.
    assert (Q : proto_of (pi_proto p) (w_v w1) = proto_of (pi_proto p) (w_v w)) by (destruct (pi_proto p); assumption).
    destruct (e_token e NF K R p ka enc s (hash_of (e_prims e) pin) len w1) as (r & w2 & E & [T1 T2 T3 T4 T5 T6]); auto;
      try (rewrite P1; assumption); try (rewrite M1; assumption).
    - rewrite Q. exact Sh.
    - exists r, w2. split; [exact E | ]. split; auto; [now rewrite T2, N1 | now rewrite T3, P1]. }
  destruct T as [(ct & -> & T1) T2 T3 T4 T5 (i & T6)]. exists ct, i, w'. split; [exact E | ].
  change (match pi_proto p with V1 => v_proto1 (w_v w') | V2 => v_proto2 (w_v w') end) with (proto_of (pi_proto p) (w_v w')).
  cbv zeta. split; [exact T1 | ]. split; [exact T6 | ]. split; [exact T2 | ]. split; [exact T3 | ]. split; [ | exact T5].
  unfold retries_of. now rewrite T4.
Qed.
Print Assumptions C78_token.

(** The same with permissions: any of them, for an RP ID where the permissions need one. *)
Theorem C78_token_permissions : forall e h b cid p platform enc s pin len perms,
  let w := run e h in
  nofault e -> prims_ok (e_prims e) -> rnd_ok e ->
  parse_command (e_cfg e) b = Ok (CClientPin p) -> pi_sub p = PsTokenWithPermissions ->
  pi_perms p = Some perms -> perms <> 0%N -> (N.land perms 3 <> 0%N -> pi_rp p <> None) ->
  (pi_proto p = V1 -> c_allow_v1 (e_cfg e) = true) ->
  pi_key p = Some platform -> pi_hash p = Some enc -> shares e w (pi_proto p) platform s ->
  shared_decrypt (e_prims e) s enc = Some (hash_of (e_prims e) pin) ->
  p_pin (w_p w) = Some (hash_of (e_prims e) pin, len) ->
  (0 < retries_of e (w_p w))%N -> (v_mism (w_v w) < 3)%N -> p_force (w_p w) = false ->
  exists ct i w', run_op e (OpMessage b (MainHid cid)) w =
      (OutCtap (Ok (RClientPin (Some (mkPinResp None (Some ct) None None)))), w') /\
    let token := pp_token (match pi_proto p with V1 => v_proto1 (w_v w') | V2 => v_proto2 (w_v w') end) in
    shared_decrypt (e_prims e) s ct = Some token /\ token = e_rnd e i 32 /\
    v_token (w_v w') = mkToken perms (pi_rp p) (make_timer (w_now w) TOKEN_TIMEOUT_MS) true true /\
    p_pin (w_p w') = p_pin (w_p w) /\ retries_of e (w_p w') = c_max_retries (e_cfg e) /\ v_mism (w_v w') = 0%N.
Proof.
  intros e h b cid p ka enc s pin len perms w NF K R Hx Hs Hpe Hn Hrp Hv Hk Hh Sh Dec P Re Mm Fo.
  destruct (pin_message e b cid p w (token_given e (pi_proto p) s perms (pi_rp p) w) Hx Hv) as (r & w' & E & T).
  { intros w1 P1 N1 M1 A1 A2. rewrite Hs.
    assert (Q : proto_of (pi_proto p) (w_v w1) = proto_of (pi_proto p) (w_v w)) by (destruct (pi_proto p); assumption).
    destruct (e_token_permissions e NF K R p perms ka enc s (hash_of (e_prims e) pin) len w1) as (r & w2 & E & [T1 T2 T3 T4 T5 T6]); auto;
      try (rewrite P1; assumption); try (rewrite M1; assumption).
    - rewrite Q. exact Sh.
    - exists r, w2. split; [exact E | ]. split; auto; [now rewrite T2, N1 | now rewrite T3, P1]. }
  destruct T as [(ct & -> & T1) T2 T3 T4 T5 (i & T6)]. exists ct, i, w'. split; [exact E | ].
  change (match pi_proto p with V1 => v_proto1 (w_v w') | V2 => v_proto2 (w_v w') end) with (proto_of (pi_proto p) (w_v w')).
  cbv zeta. split; [exact T1 | ]. split; [exact T6 | ]. split; [exact T2 | ]. split; [exact T3 | ]. split; [ | exact T5].
  unfold retries_of. now rewrite T4.
Qed.
Print Assumptions C78_token_permissions.

(** A device that has been powered up, has a PIN, attempts left and no change due gives a token for
    the PIN, whatever happened before: a restart clears the block after three wrong PINs. *)
Theorem C78_after_restart : forall e h o k b cid p platform enc s pin len,
  let w := run e (h ++ [(o, Some k)]) in
  nofault e -> prims_ok (e_prims e) -> rnd_ok e ->
  parse_command (e_cfg e) b = Ok (CClientPin p) -> pi_sub p = PsGetToken -> pi_perms p = None -> pi_rp p = None ->
  (pi_proto p = V1 -> c_allow_v1 (e_cfg e) = true) ->
  pi_key p = Some platform -> pi_hash p = Some enc -> shares e w (pi_proto p) platform s ->
  shared_decrypt (e_prims e) s enc = Some (hash_of (e_prims e) pin) ->
  p_pin (w_p w) = Some (hash_of (e_prims e) pin, len) ->
  (0 < retries_of e (w_p w))%N -> p_force (w_p w) = false ->
  exists ct w', run_op e (OpMessage b (MainHid cid)) w =
      (OutCtap (Ok (RClientPin (Some (mkPinResp None (Some ct) None None)))), w').
Proof.
  intros e h o k b cid p ka enc s pin len w NF K R Hx Hs Hpe Hrp Hv Hk Hh Sh Dec P Re Fo.
  destruct (C78_token e (h ++ [(o, Some k)]) b cid p ka enc s pin len NF K R Hx Hs Hpe Hrp Hv Hk Hh Sh Dec P Re) as (ct & i & w' & E & _); eauto.
  unfold run. rewrite fold_left_app. reflexivity.
Qed.
Print Assumptions C78_after_restart.

(** On a device whose customization passes the repository's check and allows at least one attempt,
    a PIN that was just set is accepted (without that: C77_pin_usable_refuted). *)
Theorem C77_pin_usable_partial : forall e h b cid p platform auth new s pin b2 cid2 p2 enc len,
  let w := run e h in
  let w1 := run e (h ++ [(OpMessage b (MainHid cid), None)]) in
  nofault e -> prims_ok (e_prims e) -> rnd_ok e -> is_valid (e_cfg e) = true -> (1 <= c_max_retries (e_cfg e))%N ->
  parse_command (e_cfg e) b = Ok (CClientPin p) -> pi_sub p = PsSetPin ->
  (pi_proto p = V1 -> c_allow_v1 (e_cfg e) = true) ->
  pi_key p = Some platform -> pi_auth p = Some auth -> pi_new p = Some new ->
  shares e w (pi_proto p) platform s ->
  auth = authenticate (e_prims e) (pi_proto p) (sh_hmac s) new ->
  len = (64 - length pin)%nat ->
  shared_decrypt (e_prims e) s new = Some (pin ++ repeat 0%N len) ->
  ~ In 0%N pin -> (length pin <= 63)%nat -> (minlen_of e (w_p w) <= code_points pin)%N ->
  p_pin (w_p w) = None -> (v_mism (w_v w1) < 3)%N ->
  parse_command (e_cfg e) b2 = Ok (CClientPin p2) -> pi_sub p2 = PsGetToken -> pi_perms p2 = None -> pi_rp p2 = None ->
  pi_proto p2 = pi_proto p -> pi_key p2 = Some platform -> pi_hash p2 = Some enc -> shares e w1 (pi_proto p) platform s ->
  shared_decrypt (e_prims e) s enc = Some (hash_of (e_prims e) pin) ->
  exists ct w', run_op e (OpMessage b2 (MainHid cid2)) w1 =
      (OutCtap (Ok (RClientPin (Some (mkPinResp None (Some ct) None None)))), w').
Proof.
  intros e h b cid p ka auth new s pin b2 cid2 p2 enc len w w1 NF K R V M Hx Hs Hv Hk Ha Hn Sh Au -> Dec Z L Mi P Mm
    Hx2 Hs2 Hpe Hrp Hp2 Hk2 Hh2 Sh2 Dec2.
  destruct (C78_set_pin e h b cid p ka auth new s pin NF Hx Hs Hv Hk Ha Hn Sh Au K Dec Z L Mi P) as (w' & E & S1 & S2 & S3).
  assert (W : w1 = w').
  { unfold w1. rewrite run_app. unfold step. cbn [fst snd]. now rewrite E. }
  rewrite W in *.
  destruct (C78_token e (h ++ [(OpMessage b (MainHid cid), None)]) b2 cid2 p2 ka enc s pin (code_points pin) NF K R Hx2 Hs2 Hpe Hrp)
    as (ct & i & w2 & E2 & _); try (fold w1; rewrite W); rewrite ?Hp2; auto.
  - rewrite S2. lia.
  - fold w1 in E2. rewrite W in E2. eauto.
Qed.
Print Assumptions C77_pin_usable_partial.

Definition set_params : pin_params := mkPinParams V1 PsSetPin (Some toy_key) (Some (mac (enc (pad 64 toy_pin)))) (Some (enc (pad 64 toy_pin))) None None None.
Definition token_params : pin_params := mkPinParams V1 PsGetToken (Some toy_key) None None (Some (enc (pin_hash16 toy_pin))) None None.
Example C78_nonvacuous :
  let w0 := run toy [] in
  let w1 := run toy [on (set_pin_msg toy_pin)] in
  let wrong := on (get_token_msg (str "9999")) in
  parse_command toy_cfg (set_pin_msg toy_pin) = Ok (CClientPin set_params) /\
  parse_command toy_cfg (get_token_msg toy_pin) = Ok (CClientPin token_params) /\
  decapsulate toy_prims (pp_key (v_proto1 (w_v w0))) toy_key V1 = Ok toy_shared /\
  decapsulate toy_prims (pp_key (v_proto1 (w_v w1))) toy_key V1 = Ok toy_shared /\
  mac (enc (pad 64 toy_pin)) = authenticate toy_prims V1 (sh_hmac toy_shared) (enc (pad 64 toy_pin)) /\
  shared_decrypt toy_prims toy_shared (enc (pad 64 toy_pin)) = Some (toy_pin ++ repeat 0%N (64 - length toy_pin)) /\
  shared_decrypt toy_prims toy_shared (enc (pin_hash16 toy_pin)) = Some (hash_of toy_prims toy_pin) /\
  p_pin (w_p w0) = None /\ p_pin (w_p w1) = Some (hash_of toy_prims toy_pin, 4%N) /\
  minlen_of toy (w_p w0) = 4%N /\ code_points toy_pin = 4%N /\ retries_of toy (w_p w1) = 8%N /\ p_force (w_p w1) = false /\
  (* three wrong PINs block the correct one until a restart *)
  fst (run_op toy (OpMessage (get_token_msg toy_pin) ch0) (run toy [on (set_pin_msg toy_pin); wrong; wrong; wrong])) =
    OutCtap (Err PIN_AUTH_BLOCKED) /\
  v_mism (w_v (run toy [on (set_pin_msg toy_pin); wrong; wrong])) = 2%N.
Proof. vm_compute. repeat split; reflexivity. Qed.
