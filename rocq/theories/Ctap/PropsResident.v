(** Property theorems C80: registrations and logins with credentials on the device succeed. *)
From Verif Require Import Base Facts Hid.Model U2f.Model Cbor.Model Ctap.Crypto Ctap.Types Ctap.Machine
  Ctap.Commands Ctap.Parse Ctap.System Ctap.Logic Ctap.History Ctap.Track Ctap.Pin Ctap.PinChange Ctap.Success
  Ctap.Answers Ctap.Creds Ctap.Enumerate Ctap.Keys Ctap.Protect Ctap.Seal Ctap.Stored Ctap.Sealed Ctap.Toy Ctap.ToyMore Ctap.PropsCreds
  Ctap.PropsEnumerate Ctap.PropsSeal Ctap.Owner Ctap.Works Ctap.PropsWorks Ctap.Resident.
From Coq Require Import String List Lia.
Import ListNotations.
Open Scope list_scope.

(** After any history, a registration of a credential that the device is to store is answered if it
    is permitted, the user confirms, and there is a place: fewer credentials are stored than the
    device can hold, or there is one of the same account. The new credential is then stored, with
    the user ID of the request. *)
Theorem C80_register : forall e h b cid p q a,
  let w := run e h in
  nofault e -> prims_ok (e_prims e) -> rnd_ok e -> cfg_ok (e_cfg e) ->
  (forall i, ecdsa_valid (e_prims e) (e_rnd e i 32) = true) ->
  (c_batch (e_cfg e) = true -> exists ak cert, p_batch (w_p w) = Some (ak, cert) /\ ecdsa_valid (e_prims e) ak = true) ->
  bytes_ok b = true -> parse_command (e_cfg e) b = Ok (CMakeCredential p) ->
  In q (mc_algs p) -> cp_public q = true -> cp_alg q = Some a -> a = Es256 \/ c_ed25519 (e_cfg e) = true ->
  mc_rk p = true -> mc_ep p = None -> mc_exclude p = None ->
  mc_auth p <> None \/ p_pin (w_p w) = None ->
  permitted e w 1 (mc_cdh p) (mc_auth p) (mc_proto p) (rp_id (mc_rp p)) (mc_uv p) ->
  fst (e_up e (w_up w)) = UpConfirmed ->
  ((List.length (creds w) < c_max_rk (e_cfg e))%nat \/
   exists k c, In (k, c) (creds w) /\ cr_rp c = rp_id (mc_rp p) /\ cr_user c = us_id (mc_user p)) ->
  exists mr k c w', run_op e (OpMessage b (MainHid cid)) w = (OutCtap (Ok (RMakeCredential mr)), w') /\
    In (k, c) (creds w') /\ cr_rp c = rp_id (mc_rp p) /\ cr_user c = us_id (mc_user p).
Proof.
  intros e h b cid p q a w NF K R C Valid Ba Ob Hx Iq Pq Aq Sa Rk Ep Ex Pn Pm Up Ro.
  apply permitted_acts in Pm as [Ma El].
  destruct (preamble_allows e (CMakeCredential p) cid w _ _ _ _ _ _ Ma El) as (w1 & E1 & P1 & U1 & Ma1).
  assert (Al : find (supported e) (mc_algs p) <> None).
  { intro F. pose proof (find_none _ _ F _ Iq) as N. unfold supported in N. rewrite Pq, Aq in N. cbn in N.
    destruct a; [discriminate | ]. destruct Sa as [Sa | Sa]; [discriminate | congruence]. }
  destruct (x_register_stored e NF K R C Valid p w1 Al Ep Ex Rk) as (r & w2 & F & _).
  { intro X. rewrite P1. destruct Pn as [Pn | Pn]; [congruence | exact Pn]. }
  { rewrite P1. apply creds_now. }
  { rewrite P1. destruct Ro as [Ro | (k & c & X)]; [left; exact Ro | right; exists (k, c); exact X]. }
  { intros l r CF. eapply cred_for_ok; eauto. }
  { unfold batch. now rewrite P1. }
  { exact Ma1. }
  { now rewrite U1. }
  assert (H : run_op e (OpMessage b (MainHid cid)) w = (OutCtap (Ok r), w2)).
  { cbn [run_op]. unfold process_command. unfold bind at 1, lift at 1. rewrite Hx, split_message. unfold bind at 1.
    rewrite E1. cbn [process_fido_command]. now rewrite F. }
  destruct (C28_register e h b cid p r w2 Hx Rk H) as (c & k & mr & _ & _ & _ & CF & Cs & -> & _).
  exists mr, k, c, w2. split; [exact H | ]. rewrite Cs. split; [apply in_app_iff; right; now left | ].
  split; [apply (cf_rp _ _ _ _ CF) | apply (cf_user _ _ _ _ CF)].
Qed.
Print Assumptions C80_register.

(** The place is needed: without one no registration of a stored credential is answered. *)
Theorem C80_place : forall e h b cid p r w',
  let w := run e h in
  parse_command (e_cfg e) b = Ok (CMakeCredential p) -> mc_rk p = true ->
  run_op e (OpMessage b (MainHid cid)) w = (OutCtap (Ok r), w') ->
  (List.length (creds w) < c_max_rk (e_cfg e))%nat \/
  exists k c, In (k, c) (creds w) /\ cr_rp c = rp_id (mc_rp p) /\ cr_user c = us_id (mc_user p).
Proof.
  intros e h b cid p r w' w Hx Rk H.
  destruct (C28_register e h b cid p r w' Hx Rk H) as (c & k & mr & _ & _ & _ & _ & Cs & _).
  destruct (existsb (is_account (rp_id (mc_rp p)) (us_id (mc_user p))) (creds w)) eqn:X.
  - right. apply existsb_exists in X as ([k' c'] & Hin & X). exists k', c'. split; [exact Hin | ].
    apply is_account_iff in X. unfold account in X. cbn [snd] in X. split; congruence.
  - left. pose proof (creds_bound e _ (creds_now e (h ++ [(OpMessage b (MainHid cid), None)]))) as B.
    rewrite run_app in B. unfold step in B. cbn [fst snd fold_left] in B. fold w in B. rewrite H in B. cbn [snd] in B.
    rewrite Cs in B.
    rewrite app_length in B. cbn [List.length] in B.
    assert (Z : forall l, existsb (is_account (rp_id (mc_rp p)) (us_id (mc_user p))) l = false ->
      filter (fun x => negb (bytes_eqb (cr_rp (snd x)) (rp_id (mc_rp p)) && bytes_eqb (cr_user (snd x)) (us_id (mc_user p)))) l = l).
    { induction l as [ | x l IH]; [reflexivity | ]. cbn [existsb filter]. intro Y. apply Bool.orb_false_iff in Y as [Y1 Y2].
      unfold is_account in Y1. rewrite Y1. cbn [negb]. now rewrite IH. }
    fold w in B. rewrite (Z _ X) in B. lia.
Qed.
Print Assumptions C80_place.

(** After any history, a login without an allow list is answered if it is permitted, the user
    confirms where presence is asked, and a credential of the RP is stored whose protection the
    request meets. The answer is by one of these credentials, none of which is newer. *)
Theorem C80_login : forall e h b cid p k0 c0,
  let w := run e h in
  nofault e -> prims_ok (e_prims e) ->
  (forall i, ecdsa_valid (e_prims e) (e_rnd e i 32) = true) ->
  parse_command (e_cfg e) b = Ok (CGetAssertion p) -> ga_allow p = None -> gx_hmac (ga_ext_ p) = None ->
  permitted e w 2 (ga_cdh p) (ga_auth p) (ga_proto p) (ga_rp p) (ga_uv p) ->
  (ga_up p = true -> fst (e_up e (w_up w)) = UpConfirmed) ->
  let meets c := cr_rp c = ga_rp p /\ (ga_auth p <> None \/ cr_policy c = None \/ cr_policy c = Some UvOptional) in
  In (k0, c0) (creds w) -> meets c0 ->
  exists g k c w', run_op e (OpMessage b (MainHid cid)) w = (OutCtap (Ok (RGetAssertion g)), w') /\
    In (k, c) (creds w) /\ meets c /\
    (forall k' c', In (k', c') (creds w) -> meets c' -> (cr_order c' <= cr_order c)%N) /\
    gr_id g = cr_id c /\ gr_sig g = sign (e_prims e) (cr_key c) (gr_auth_data g ++ ga_cdh p).
Proof.
  intros e h b cid p k0 c0 w NF K Valid Hx Ha Hm Pm Up meets Hin Me.
  apply permitted_acts in Pm as [Ma El].
  destruct (preamble_allows e (CGetAssertion p) cid w _ _ _ _ _ _ Ma El) as (w1 & E1 & P1 & U1 & Ma1).
  assert (Us : forall k c, usable (ga_rp p) (is_some (ga_auth p)) (k, c) = true <-> meets c).
  { intros k c. unfold usable, meets. cbn [snd]. rewrite Bool.andb_true_iff, bytes_eqb_eq.
    destruct (ga_auth p), (cr_policy c) as [[] | ]; cbn; intuition congruence. }
  assert (Ir : forall k c, In (k, c) (ranked (ga_rp p) (is_some (ga_auth p)) (creds w)) <-> In (k, c) (creds w) /\ meets c).
  { intros k c. rewrite in_ranked, Us. reflexivity. }
  destruct (x_login_stored e NF K p (MainHid cid) w1) as (r & w2 & F & _).
  { rewrite P1. apply creds_now. }
  { rewrite P1. now apply keys_valid. }
  { exact Ha. }
  { rewrite P1. intro Z. assert (In (k0, c0) []) as [] . rewrite <- Z. apply Ir. auto. }
  { exact Hm. }
  { exact Ma1. }
  { now rewrite U1. }
  assert (H : run_op e (OpMessage b (MainHid cid)) w = (OutCtap (Ok r), w2)).
  { cbn [run_op]. unfold process_command. unfold bind at 1, lift at 1. rewrite Hx, split_message. unfold bind at 1.
    rewrite E1. cbn [process_fido_command]. now rewrite F. }
  destruct (C36_first e h b cid p r w2 Hx Ha H) as (k & c & rest & g & Er & -> & G1 & G2 & _). fold w in Er.
  exists g, k, c, w2. split; [exact H | ].
  assert (Ic : In (k, c) (creds w) /\ meets c) by (apply Ir; rewrite Er; now left). destruct Ic as [I1 I2].
  split; [exact I1 | ]. split; [exact I2 | ]. split; [ | auto].
  intros k' c' I' M'. assert (X : In (k', c') (ranked (ga_rp p) (is_some (ga_auth p)) (creds w))) by (apply Ir; auto).
  destruct (ranked_ok (ga_rp p) (is_some (ga_auth p)) (creds w)) as [_ S]. rewrite Er in X, S.
  destruct X as [X | X]; [injection X as -> ->; lia | ].
  apply Sorted.StronglySorted_inv in S as [_ S]. rewrite Forall_forall in S. exact (S _ X).
Qed.
Print Assumptions C80_login.

Definition h_stored : history :=
  h_made ++ [(OpMessage (mc_msg toy_rp [3%N] true None) ch0, Some 1%nat); (OpCompact 2, None)].
(** A first registration without a token on a new device; a second one with a token and its login,
    across a power loss; and a login without a token. *)
Example C80_nonvacuous :
  (exists p q, mc_of (mc_msg toy_rp [1; 1]%N true None) = Some p /\ In q (mc_algs p) /\ cp_public q = true /\
    cp_alg q = Some Es256 /\ mc_rk p = true /\ mc_ep p = None /\ mc_exclude p = None /\
    p_pin (w_p (run toy [])) = None /\ (List.length (creds (run toy [])) < c_max_rk toy_cfg)%nat /\
    permitted toy (run toy []) 1 (mc_cdh p) (mc_auth p) (mc_proto p) (rp_id (mc_rp p)) (mc_uv p)) /\
  (exists p, mc_of (mc_msg toy_rp [1; 1]%N true (Some (client_token h_token))) = Some p /\ mc_auth p <> None /\
    permitted toy (run toy h_token) 1 (mc_cdh p) (mc_auth p) (mc_proto p) (rp_id (mc_rp p)) (mc_uv p)) /\
  (exists p k c, ga_of (ga_msg toy_rp true None) = Some p /\ ga_allow p = None /\ gx_hmac (ga_ext_ p) = None /\
    ga_up p = true /\ permitted toy (run toy h_stored) 2 (ga_cdh p) (ga_auth p) (ga_proto p) (ga_rp p) (ga_uv p) /\
    In (k, c) (creds (run toy h_stored)) /\ cr_rp c = ga_rp p /\ cr_policy c = None).
Proof.
  split. { eexists _, _. split; [vm_compute; reflexivity | ]. split; [left; reflexivity | ].
    do 6 (split; [vm_compute; reflexivity | ]). split; [vm_compute; repeat constructor | ]. repeat split; vm_compute; reflexivity. }
  split. { eexists. split; [vm_compute; reflexivity | ]. split; [discriminate | ]. exists V1.
    split; [reflexivity | ]. split; [vm_compute; discriminate | ]. split; [vm_compute; reflexivity | ].
    do 3 (split; [vm_compute; reflexivity | ]). split; [vm_compute; discriminate | ]. right. vm_compute. reflexivity. }
  eexists _, _, _. split; [vm_compute; reflexivity | ]. do 3 (split; [vm_compute; reflexivity | ]).
  split; [repeat split; vm_compute; reflexivity | ].
  split; [vm_compute; left; reflexivity | ]. split; vm_compute; reflexivity.
Qed.
