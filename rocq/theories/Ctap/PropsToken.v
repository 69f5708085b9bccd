(** Property theorems C25, C27, C33, C34 and C38 about authorisation, presence and verification. *)
From Verif Require Import Base Facts Hid.Model U2f.Model Cbor.Model Ctap.Crypto Ctap.Types Ctap.Machine
  Ctap.Commands Ctap.Parse Ctap.System Ctap.Logic Ctap.History Ctap.Track Ctap.Pin Ctap.PinChange Ctap.TokenSpec
  Ctap.Token Ctap.Success Ctap.Auth Ctap.Gate Ctap.Answers Ctap.TokenUse Ctap.Toy Ctap.ToyMore.
From Coq Require Import String List Lia.
Import ListNotations.
Open Scope list_scope.

(** User verification is required even where the protocol would not require it. *)
Definition always_uv (e : env) (p : pers) : bool := c_enforce_uv (e_cfg e) || p_uv p.

(** ** C25 *)

(** After any history, authenticatorMakeCredential succeeds only if it carries the MAC of its client
    data hash by the token in force, which has the permission and the RP ID; or carries none, where
    the device does not insist on user verification. *)
Theorem C25_make_credential : forall e h b ch r w',
  let w := run e h in
  run_op e (OpMessage b ch) w = (OutCtap (Ok (RMakeCredential r)), w') ->
  exists p, parse_command (e_cfg e) b = Ok (CMakeCredential p) /\
    match mc_auth p with
    | Some sg => exists pp, mc_proto p = Some pp /\
        authorised (e_prims e) (w_log w) (w_now w) pp (mc_cdh p) sg 1
          (fun g => g = None \/ g = Some (rp_id (mc_rp p)))
    | None => always_uv e (w_p w) = false /\ (mc_rk p = true -> p_pin (w_p w) = None)
    end.
Proof.
  intros e h b ch r w' w H. apply mc_answer in H as (p & w1 & Hx & Hp & D). exists p. split; [exact Hx | ].
  destruct (preamble_p _ _ _ _ Hp) as (P1 & _).
  destruct (mc_auth p) as [sg | ] eqn:E.
  - destruct (mcd_auth _ _ _ _ _ D sg E) as (pp & Hpp & U & _). exists pp. split; [exact Hpp | ].
    eapply uv_authorised; [apply reachable_tok | exact Hp | exact U].
  - pose proof (mcd_noauth _ _ _ _ _ D E) as Q. rewrite P1 in Q. exact Q.
Qed.
Print Assumptions C25_make_credential.

Theorem C25_get_assertion : forall e h b ch r w',
  let w := run e h in
  run_op e (OpMessage b ch) w = (OutCtap (Ok (RGetAssertion r)), w') ->
  exists p, parse_command (e_cfg e) b = Ok (CGetAssertion p) /\
    match ga_auth p with
    | Some sg => exists pp, ga_proto p = Some pp /\
        authorised (e_prims e) (w_log w) (w_now w) pp (ga_cdh p) sg 2
          (fun g => g = None \/ g = Some (ga_rp p))
    | None => ga_up p = true -> always_uv e (w_p w) = false
    end.
Proof.
  intros e h b ch r w' w H. apply ga_answer in H as (p & w1 & Hx & Hp & D). exists p. split; [exact Hx | ].
  destruct (preamble_p _ _ _ _ Hp) as (P1 & _).
  destruct (ga_auth p) as [sg | ] eqn:E.
  - destruct (gad_auth _ _ _ _ _ D sg E) as (pp & Hpp & U & _). exists pp. split; [exact Hpp | ].
    eapply uv_authorised; [apply reachable_tok | exact Hp | exact U].
  - pose proof (gad_noauth _ _ _ _ _ D E) as Q. rewrite P1 in Q. exact Q.
Qed.
Print Assumptions C25_get_assertion.

(** A fragment of a large blob array is accepted only with a MAC over its offset and content. *)
Theorem C25_large_blob_write : forall e h b ch r w' p s,
  let w := run e h in
  parse_command (e_cfg e) b = Ok (CLargeBlobs p) -> lb_get p = None -> lb_set p = Some s ->
  run_op e (OpMessage b ch) w = (OutCtap (Ok r), w') ->
  (p_pin (w_p w) = None /\ always_uv e (w_p w) = false) \/
  exists sg pp, lb_auth p = Some sg /\ lb_proto p = Some pp /\
    authorised (e_prims e) (w_log w) (w_now w) pp
      (repeat 255%N 32 ++ [0x0C%N; 0%N] ++ rev (be_bytes 4 (lb_offset p)) ++ sha256 (e_prims e) s)
      sg 16 (fun _ => True).
Proof.
  intros e h b ch r w' p s w Hx Hg Hs H.
  destruct (fido_of _ _ _ _ _ _ H _ Hx ltac:(discriminate)) as (cid & w1 & -> & Hp & Hf).
  destruct (preamble_p _ _ _ _ Hp) as (P1 & _).
  cbn [process_fido_command] in Hf. unfold process_large_blobs in Hf. rewrite Hg, Hs in Hf.
  apply bind_ok in Hf as (? & w2 & Hf & _). unfold lb_write in Hf.
  apply bind_ok in Hf as (? & w3 & H1 & Hf). apply guard_ok in H1 as [_ ->].
  apply bind_ok in Hf as (? & w3 & H1 & Hf).
  assert (S : calm w1 w3).
  { unfold lb_start in H1. destruct (lb_offset p =? 0)%N; [ | apply ret_ok in H1 as [_ ->]; apply calm_refl].
    destruct (lb_length p); [ | discriminate].
    apply bind_ok in H1 as (? & w4 & H2 & H1). apply modify_ok in H2 as (V2 & P2 & N2 & L2 & _).
    apply bind_ok in H1 as (? & w5 & H3 & H1). apply guard_ok in H3 as [_ ->].
    apply modify_ok in H1 as (V3 & P3 & N3 & L3 & _). unfold calm.
    rewrite V3, V2, P3, P2, N3, N2, L3, L2. cbn. auto 10. }
  apply bind_ok in Hf as (b1 & w4 & H2 & Hf). apply gets_ok in H2 as [-> ->].
  apply bind_ok in Hf as (? & w4 & H2 & Hf). apply guard_ok in H2 as [_ ->].
  apply bind_ok in Hf as (? & w4 & H2 & Hf). apply lb_authorise_ok in H2.
  destruct S as (SP & _ & ST & S1 & S2 & _). rewrite SP, P1 in H2.
  destruct H2 as [H2 | (sg & pp & A1 & A2 & A3)]; [left; exact H2 | right].
  exists sg, pp. split; [exact A1 | ]. split; [exact A2 | ].
  eapply checked_authorised; [apply reachable_tok | exact Hp | | auto].
  unfold checked in *. rewrite ST in A3. destruct A3 as (B1 & B2 & B3). split; [exact B1 | ].
  split; [ | exact B3]. rewrite B2. unfold proto_of. rewrite S1, S2. reflexivity.
Qed.
Print Assumptions C25_large_blob_write.

(** Once a token was used for an RP ID, and until another token is issued, whatever happens, no
    command uses it for another RP ID: no registration, no assertion, no credential management. *)
Theorem C25_one_rp : forall e h b ch r w1 rp h2 b2 ch2 r2 w2,
  run_op e (OpMessage b ch) (run e h) = (OutCtap (Ok r), w1) -> used_for e b rp ->
  let w := fold_left (step e) h2 w1 in
  no_issue w1 w ->
  run_op e (OpMessage b2 ch2) w = (OutCtap (Ok r2), w2) ->
  stays_with e (p_creds (w_p w)) rp b2.
Proof. intros. cbv zeta in *. eapply one_rp; eassumption. Qed.
Print Assumptions C25_one_rp.

(** A token for registrations and assertions at example.com: the registration succeeds, and fails
    with a MAC by a wrong key, without the permission, for another RP, or after 30 seconds. *)
Definition is_ok (o : outcome) : bool := match o with OutCtap (Ok _) => true | _ => false end.
Definition mc_token (h : history) (rp : bytes) : bytes := mc_msg rp [1; 1]%N true (Some (client_token h)).
Example C25_make_credential_nonvacuous :
  is_ok (answer h_token (mc_token h_token toy_rp)) = true /\
  answer h_token (mc_msg toy_rp [1; 1]%N true (Some (repeat 0%N 32))) = OutCtap (Err PIN_AUTH_INVALID) /\
  answer h_token (mc_token h_token (str "example.org")) = OutCtap (Err PIN_AUTH_INVALID) /\
  (let h := token_history 2 (Some toy_rp) in answer h (mc_token h toy_rp)) = OutCtap (Err PIN_AUTH_INVALID) /\
  (let h := h_token ++ [(OpTick 29999, None)] in is_ok (answer h (mc_token h toy_rp))) = true /\
  (let h := h_token ++ [(OpTick 30000, None)] in answer h (mc_token h toy_rp)) = OutCtap (Err PIN_AUTH_INVALID).
Proof. vm_compute. repeat split; reflexivity. Qed.
(** An assertion without presence, twice; the token was granted without RP ID and is then bound to
    the first one it is used for. *)
Definition h_resident : history := h_made ++ [on (get_token_msg toy_pin)].
Example C25_one_rp_nonvacuous :
  let silent rp := ga_msg rp false (Some (client_token h_resident)) in
  let h := h_resident ++ [on (silent toy_rp)] in
  used_for toy (silent toy_rp) toy_rp /\
  is_ok (answer h_resident (silent toy_rp)) = true /\ is_ok (answer h (silent toy_rp)) = true /\
  (* the other RP has no credentials: before the token is bound this is what the device says *)
  answer h_resident (silent (str "other")) = OutCtap (Err NO_CREDENTIALS) /\
  answer h (silent (str "other")) = OutCtap (Err PIN_AUTH_INVALID).
Proof. vm_compute. repeat split; try reflexivity; discriminate. Qed.

(** ** C27 *)

(** An authenticatorConfig request fails without any write, or it is authorised, or the device has
    no PIN and does not insist on user verification (which toggleAlwaysUv itself may change). *)
Theorem C27_authorised : forall e h b cid p out w',
  let w := run e h in
  parse_command (e_cfg e) b = Ok (CConfig p) ->
  run_op e (OpMessage b (MainHid cid)) w = (out, w') ->
  (exists s, out = OutCtap (Err s) /\ w_p w' = w_p w /\ w_log w' = w_log w) \/
  (p_pin (w_p w) = None /\ (cf_sub_ p = CfToggleUv \/ always_uv e (w_p w) = false)) \/
  exists sg pp msg, cf_auth p = Some sg /\ cf_proto p = Some pp /\
    match cf_data p with
    | None => msg = repeat 255%N 32 ++ [0x0D%N; cf_code (cf_sub_ p)]
    | Some d => exists c, cbor_write (minpin_to_cbor d) = Some c /\
                  msg = repeat 255%N 32 ++ [0x0D%N; cf_code (cf_sub_ p)] ++ c
    end /\
    authorised (e_prims e) (w_log w) (w_now w) pp msg sg 32 (fun _ => True).
Proof.
  intros e h b cid p out w' w Hx H. cbn [run_op] in H. unfold process_command in H.
  unfold bind at 1, lift at 1 in H. rewrite Hx, split_message in H. unfold bind in H.
  destruct (preamble_same (CConfig p) (MainHid cid) w) as (w1 & Q & P1 & L1 & _). rewrite Q in H.
  cbn [process_fido_command] in H.
  destruct (config_gate e p w1) as [(s & E & S) | [C | (sg & pp & msg & A1 & A2 & A3 & A4)]].
  - left. destruct (process_config e p w1) as [r w2]. injection H as <- <-. cbn in *. subst r.
    exists s. destruct S as (SP & _ & _ & SL & _). rewrite SP, SL, P1, L1. auto.
  - right; left. rewrite P1 in C. exact C.
  - right; right. exists sg, pp, msg. split; [exact A1 | ]. split; [exact A2 | ]. split; [exact A3 | ].
    eapply checked_authorised; [apply reachable_tok | exact Q | exact A4 | auto].
Qed.
Print Assumptions C27_authorised.

(** A request that fails leaves the persistent state as it was, if the store does not fail and the
    list of RP IDs is not too long.  Missing from the full property: a list that is too long, for
    which the claim is false (below). *)
Theorem C27_failed_no_change_partial : forall e w b cid p s w',
  parse_command (e_cfg e) b = Ok (CConfig p) -> nofault e -> rps_fit e p ->
  run_op e (OpMessage b (MainHid cid)) w = (OutCtap (Err s), w') ->
  w_p w' = w_p w.
Proof.
  intros e w b cid p s w' Hx N F H. cbn [run_op] in H. unfold process_command in H.
  unfold bind at 1, lift at 1 in H. rewrite Hx, split_message in H. unfold bind in H.
  destruct (preamble_same (CConfig p) (MainHid cid) w) as (w1 & Q & P1 & L1 & _). rewrite Q in H.
  cbn [process_fido_command] in H. destruct (process_config e p w1) as [r w2] eqn:E.
  injection H as -> <-. rewrite <- P1. exact (config_clean e p N F _ _ _ E).
Qed.
Print Assumptions C27_failed_no_change_partial.

(** setMinPINLength with [rps]. *)
Definition min_rps_msg (n : N) (rps : list bytes) (token : bytes) : bytes :=
  let d := mkMinPin (Some n) (Some rps) None in
  let m := repeat 255%N 32 ++ [0x0D%N; 3%N] ++ or_nil (cbor_write (minpin_to_cbor d)) in
  message 13 [(1, VUnsigned 3); (2, minpin_to_cbor d); (3, VUnsigned 1);
              (4, VBytes (authenticate toy_prims V1 token m))]%N.
Definition h_config : history := token_history 32 None.
Definition many_rps : list bytes := map (fun i => [N.of_nat i]) (seq 97 9).
(** Finding: setMinPINLength with too many RP IDs answers with an error after it has raised the
    minimum and forced a PIN change. *)
Theorem C27_failed_no_change_refuted :
  exists e h b cid p s, cfg_ok (e_cfg e) /\ prims_ok (e_prims e) /\ nofault e /\
    parse_command (e_cfg e) b = Ok (CConfig p) /\
    fst (run_op e (OpMessage b (MainHid cid)) (run e h)) = OutCtap (Err s) /\
    minlen_of e (w_p (run e h)) = 4%N /\ p_force (w_p (run e h)) = false /\
    minlen_of e (w_p (snd (run_op e (OpMessage b (MainHid cid)) (run e h)))) = 6%N /\
    p_force (w_p (snd (run_op e (OpMessage b (MainHid cid)) (run e h)))) = true.
Proof.
  exists toy, h_config, (min_rps_msg 6 many_rps (client_token h_config)), [1; 2; 3; 4]%N.
  eexists _, _. split; [exact toy_cfg_ok | ]. split; [exact toy_prims_ok | ].
  split; [intro; reflexivity | ]. split; [vm_compute; reflexivity | ].
  vm_compute. repeat split; reflexivity.
Qed.
Print Assumptions C27_failed_no_change_refuted.
Example C27_nonvacuous :
  is_ok (answer h_config (min_rps_msg 6 [toy_rp] (client_token h_config))) = true /\
  answer h_config (min_rps_msg 6 [toy_rp] (repeat 0%N 32)) = OutCtap (Err PIN_AUTH_INVALID) /\
  answer h_config (min_rps_msg 3 [toy_rp] (client_token h_config)) = OutCtap (Err PIN_POLICY_VIOLATION).
Proof. vm_compute. repeat split; reflexivity. Qed.

(** ** C33 *)

(** A CTAP2 response whose authenticator data has the user presence bit set is sent only after the
    user's presence was confirmed during that very request. *)
Theorem C33_presence : forall e w b ch r w' ad,
  prims_ok (e_prims e) ->
  run_op e (OpMessage b ch) w = (OutCtap (Ok r), w') ->
  auth_data_of r = Some ad -> up_bit ad = true ->
  exists l1 l2, w_log w' = l1 ++ LEv EvPresence :: l2 ++ w_log w.
Proof.
  intros e w b ch r w' ad O H Ha Hu. destruct r as [m | g | | | | | | | | ]; try discriminate; injection Ha as <-.
  - apply mc_answer in H as (p & w1 & _ & Hp & D). destruct (preamble_p _ _ _ _ Hp) as (_ & <- & _).
    exact (mcd_up _ _ _ _ _ D).
  - apply ga_answer in H as (p & w1 & _ & Hp & D). destruct (preamble_p _ _ _ _ Hp) as (_ & <- & _).
    apply (gad_up _ _ _ _ _ D). destruct (ga_bits _ _ _ _ _ O D) as [<- _]. exact Hu.
Qed.
Print Assumptions C33_presence.

(** A U2F registration, or an authentication that enforces presence, succeeds only after a touch
    less than 30 seconds ago in the same power cycle that no other such message has used. *)
Theorem C33_u2f_touch : forall e h b r w',
  run_op e (OpU2f b) (run e h) = (OutU2f (Ok r), w') -> wants_touch b ->
  exists t, (w_now (run e h) < t + 30000)%N /\ unused_touch e h t.
Proof.
  intros e h b r w' H W. cbn [run_op] in H.
  destruct (u2f_process e b (run e h)) as [r0 w0] eqn:E. injection H as -> <-.
  destruct (u2f_touch e b _ _ _ E) as [(_ & Hf & _) | (_ & K)].
  - apply N.leb_gt in Hf. destruct (touch_reachable e h ltac:(lia)) as (t & Et & U).
    exists t. split; [lia | exact U].
  - destruct (K W) as (s & K'). discriminate.
Qed.
Print Assumptions C33_u2f_touch.

(** Finding: the answer to a U2F authentication that does not enforce presence has the presence
    byte set, without any touch since power-up. *)
Theorem C33_u2f_dont_enforce_refuted :
  exists e h b r, cfg_ok (e_cfg e) /\ prims_ok (e_prims e) /\
    fst (run_op e (OpU2f b) (run e h)) = OutU2f (Ok r) /\
    Forall (fun x => fst x <> OpTouch) h /\ nth 0 r 0%N = 1%N.
Proof.
  exists toy, h_kh, (u2f_auth_msg 8 toy_kh). eexists. split; [exact toy_cfg_ok | ].
  split; [exact toy_prims_ok | ]. split; [vm_compute; reflexivity | ].
  split; [repeat constructor; discriminate | vm_compute; reflexivity].
Qed.
Print Assumptions C33_u2f_dont_enforce_refuted.

Definition is_u2f_ok (h : history) (b : bytes) : bool :=
  match fst (run_op toy (OpU2f b) (run toy h)) with OutU2f (Ok _) => true | _ => false end.
Example C33_nonvacuous :
  let m := u2f_auth_msg 3 toy_kh in let u := (OpU2f m, None) : op * option nat in
  wants_touch m /\ is_u2f_ok (h_kh ++ [u; (OpTouch, None)]) m = true /\
  is_u2f_ok (h_kh ++ [u; (OpTouch, None); u]) m = false /\ is_u2f_ok h_kh m = false /\
  is_u2f_ok (h_kh ++ [u; (OpTouch, None); (OpTick 30000, None)]) m = false /\
  option_map up_bit (match answer h_made (ga_msg toy_rp true None) with
                     | OutCtap (Ok r) => auth_data_of r | _ => None end) = Some true.
Proof. vm_compute. repeat split; reflexivity. Qed.

(** ** C34 *)

(** The user verification bit is set in a response only if the request carried the MAC of its client
    data hash by the token in force, with the permission, and an RP ID that matches. *)
Theorem C34_verification : forall e h b ch r w' ad,
  prims_ok (e_prims e) ->
  let w := run e h in
  run_op e (OpMessage b ch) w = (OutCtap (Ok r), w') ->
  auth_data_of r = Some ad -> uv_bit ad = true ->
  exists perm cdh sg pp rp,
    ((exists p, parse_command (e_cfg e) b = Ok (CMakeCredential p) /\ perm = 1%N /\
       cdh = mc_cdh p /\ mc_auth p = Some sg /\ mc_proto p = Some pp /\ rp = rp_id (mc_rp p)) \/
     exists p, parse_command (e_cfg e) b = Ok (CGetAssertion p) /\ perm = 2%N /\
       cdh = ga_cdh p /\ ga_auth p = Some sg /\ ga_proto p = Some pp /\ rp = ga_rp p) /\
    authorised (e_prims e) (w_log w) (w_now w) pp cdh sg perm (fun g => g = None \/ g = Some rp) /\
    t_uv (v_token (w_v w)) = true /\ p_pin (w_p w) <> None.
Proof.
  intros e h b ch r w' ad O w H Ha Hu.
  destruct r as [m | g | | | | | | | | ]; try discriminate; injection Ha as <-.
  - apply mc_answer in H as (p & w1 & Hx & Hp & D). destruct (mc_bits _ _ _ _ _ O D) as [_ Hb].
    rewrite Hb in Hu. destruct (mc_auth p) as [sg | ] eqn:E; [ | discriminate].
    destruct (mcd_auth _ _ _ _ _ D sg E) as (pp & Hpp & U & _).
    exists 1%N, (mc_cdh p), sg, pp, (rp_id (mc_rp p)). split; [left; exists p; auto 10 | ].
    split; [eapply uv_authorised; [apply reachable_tok | exact Hp | exact U] | ].
    destruct U as (U1 & U2 & _ & _ & U5 & _).
    destruct (preamble_token _ _ _ _ Hp U2) as ((T1 & _) & _ & T4 & _). rewrite T1 in U5. rewrite T4 in U1. auto.
  - apply ga_answer in H as (p & w1 & Hx & Hp & D). destruct (ga_bits _ _ _ _ _ O D) as [_ Hb].
    rewrite Hb in Hu. destruct (ga_auth p) as [sg | ] eqn:E; [ | discriminate].
    destruct (gad_auth _ _ _ _ _ D sg E) as (pp & Hpp & U & _).
    exists 2%N, (ga_cdh p), sg, pp, (ga_rp p). split; [right; exists p; auto 10 | ].
    split; [eapply uv_authorised; [apply reachable_tok | exact Hp | exact U] | ].
    destruct U as (U1 & U2 & _ & _ & U5 & _).
    destruct (preamble_token _ _ _ _ Hp U2) as ((T1 & _) & _ & T4 & _). rewrite T1 in U5. rewrite T4 in U1. auto.
Qed.
Print Assumptions C34_verification.

(** After a response with the presence bit, and until a new token is issued, whatever happens, no
    response has the verification bit: one PIN entry does not cover two operations. *)
Theorem C34_one_presence : forall e h b ch r w1 ad h2 b2 ch2 r2 w2 ad2,
  prims_ok (e_prims e) ->
  run_op e (OpMessage b ch) (run e h) = (OutCtap (Ok r), w1) ->
  auth_data_of r = Some ad -> up_bit ad = true ->
  let w := fold_left (step e) h2 w1 in
  no_issue w1 w ->
  run_op e (OpMessage b2 ch2) w = (OutCtap (Ok r2), w2) ->
  auth_data_of r2 = Some ad2 -> uv_bit ad2 = false.
Proof.
  intros e h b ch r w1 ad h2 b2 ch2 r2 w2 ad2 O H Ha Hu w N H2 Ha2.
  exact (one_presence e h2 b ch _ r w1 ad b2 ch2 r2 w2 ad2 O H Ha Hu N H2 Ha2).
Qed.
Print Assumptions C34_one_presence.

Definition bits (o : outcome) : option (bool * bool) :=
  match o with
  | OutCtap (Ok r) => option_map (fun ad => (up_bit ad, uv_bit ad)) (auth_data_of r)
  | _ => None
  end.
Example C34_nonvacuous :
  bits (answer h_token (mc_token h_token toy_rp)) = Some (true, true) /\
  bits (answer h_made (ga_msg toy_rp true None)) = Some (true, false) /\
  answer h_made (ga_msg toy_rp true (Some (client_token h_made))) = OutCtap (Err PIN_AUTH_INVALID) /\
  (let h := h_made ++ [on (token_perms_msg toy_pin 3 (Some toy_rp))] in
   bits (answer h (ga_msg toy_rp true (Some (client_token h))))) = Some (true, true).
Proof. vm_compute. repeat split; reflexivity. Qed.

(** ** C38 *)

(** A credential management request, other than the continuation of an enumeration, fails and
    changes nothing (but may create the device's wrapping keys), or carries the MAC of its subcommand
    and parameters by the token in force, which has the permission and is not bound to another RP. *)
Theorem C38_authorised : forall e h b cid p out w',
  let w := run e h in
  parse_command (e_cfg e) b = Ok (CCredMgmt p) ->
  cm_sub_ p <> CmRpsNext -> cm_sub_ p <> CmCredsNext ->
  run_op e (OpMessage b (MainHid cid)) w = (out, w') ->
  (exists s, out = OutCtap (Err s) /\ set_master None (w_p w') = set_master None (w_p w) /\
     exists l, w_log w' = l ++ w_log w /\
       forall q, In (LWrite q) l -> set_master None q = set_master None (w_p w)) \/
  exists sg pp msg, cm_auth p = Some sg /\ cm_proto p = Some pp /\
    match cm_data_ p with
    | None => msg = [cm_code (cm_sub_ p)]
    | Some d => exists c, cbor_write (cm_data_to_cbor d) = Some c /\ msg = cm_code (cm_sub_ p) :: c
    end /\
    authorised (e_prims e) (w_log w) (w_now w) pp msg sg 4
      (cm_rp_ok (e_prims e) p (p_creds (w_p w))).
Proof.
  intros e h b cid p out w' w Hx N1 N2 H. cbn [run_op] in H. unfold process_command in H.
  unfold bind at 1, lift at 1 in H. rewrite Hx, split_message in H. unfold bind in H.
  destruct (preamble_same (CCredMgmt p) (MainHid cid) w) as (w1 & Q & P1 & L1 & _). rewrite Q in H.
  cbn [process_fido_command] in H.
  assert (Hn : cm_next (cm_sub_ p) = false) by (destruct (cm_sub_ p); try reflexivity; congruence).
  destruct (cred_mgmt_gate e p (MainHid cid) w1 Hn) as [(s & E & S) | (sg & pp & msg & A1 & A2 & A3 & A4 & A5)].
  - left. destruct (process_cred_mgmt e p (MainHid cid) w1) as [r w2]. injection H as <- <-. cbn [fst snd] in *. subst r.
    exists s. destruct S as (SP & l & SL & SF). rewrite P1 in SP, SF. rewrite L1 in SL.
    split; [reflexivity | ]. split; [exact SP | ]. exists l. auto.
  - right. exists sg, pp, msg. split; [exact A1 | ]. split; [exact A2 | ]. split; [exact A3 | ].
    rewrite P1 in A5. eapply checked_authorised; [apply reachable_tok | exact Q | exact A4 | exact A5].
Qed.
Print Assumptions C38_authorised.

Definition delete_data (id : bytes) : value :=
  VMap [(VUnsigned 2, VMap [(text "id", VBytes id); (text "type", text "public-key")])].
Definition toy_id : bytes := new_id (answer h_token (mc_token h_token toy_rp)).
Definition creds_after (h : history) (m : bytes) : nat :=
  length (p_creds (w_p (snd (run_op toy (OpMessage m ch0) (run toy h))))).
Example C38_nonvacuous :
  (let h := h_made ++ [on (token_perms_msg toy_pin 4 (Some toy_rp))] in
   let m := cm_msg 6 (Some (delete_data toy_id)) (Some (client_token h)) in
   is_ok (answer h m) = true /\ creds_after h m = 0%nat) /\
  (let h := h_made ++ [on (token_perms_msg toy_pin 4 (Some (str "other")))] in
   let m := cm_msg 6 (Some (delete_data toy_id)) (Some (client_token h)) in
   answer h m = OutCtap (Err PIN_AUTH_INVALID) /\ creds_after h m = 1%nat).
Proof. vm_compute. repeat split; reflexivity. Qed.
