(** Property theorems C79: registrations and logins succeed. *)
From Verif Require Import Base Facts Hid.Model U2f.Model Cbor.Model Ctap.Crypto Ctap.Types Ctap.Machine
  Ctap.Commands Ctap.Parse Ctap.System Ctap.Logic Ctap.History Ctap.Track Ctap.Pin Ctap.PinChange Ctap.Success
  Ctap.Answers Ctap.Creds Ctap.Enumerate Ctap.Keys Ctap.Protect Ctap.Seal Ctap.Stored Ctap.Sealed Ctap.Toy Ctap.ToyMore Ctap.PropsEnumerate Ctap.PropsSeal
  Ctap.PropsAttest Ctap.Owner Ctap.Works.
From Coq Require Import String List Lia.
Import ListNotations.
Open Scope list_scope.

(** What a request carries is enough: no token where none is demanded, or the correct MAC under a
    token in force, not timed out, with the permission and for the RP or for none yet. *)
Definition permitted (e : env) (w : world) (permission : N) (client_data_hash : bytes)
  (auth : option bytes) (proto : option pin_proto) (rp : bytes) (asks_uv : bool) : Prop :=
  match auth with
  | None => asks_uv = false /\ c_enforce_uv (e_cfg e) = false /\ p_uv (w_p w) = false
  | Some mac =>
      let t := v_token (w_v w) in
      exists pp, proto = Some pp /\ p_pin (w_p w) <> None /\
        mac = authenticate (e_prims e) pp (pp_token (match pp with V1 => v_proto1 (w_v w) | V2 => v_proto2 (w_v w) end))
                client_data_hash /\
        t_use t = true /\ t_uv t = true /\ is_elapsed (w_now w) (t_timer t) = false /\
        N.land permission (t_perms t) <> 0%N /\ (t_rp t = None \/ t_rp t = Some rp)
  end.

Lemma permitted_acts e w perm cdh auth proto rp b : permitted e w perm cdh auth proto rp b ->
  may_act e w perm cdh auth proto rp b /\ (auth <> None -> elapsed_not w).
Proof.
  unfold permitted, may_act. destruct auth as [a | ]; intro H.
  - destruct H as (pp & -> & P & M & T1 & T2 & T3 & T4 & T5). split; [ | auto]. exists pp. split; [reflexivity | ].
    split; [exact P | ]. split; [destruct pp; exact M | ]. cbv zeta. auto.
  - split; [exact H | congruence].
Qed.

(** After any history, a registration of a credential that the device does not store, for an
    algorithm the device has, is answered with a credential if the request is permitted and the
    user confirms. *)
Theorem C79_register : forall e h b cid p q a,
  let w := run e h in
  nofault e -> prims_ok (e_prims e) -> rnd_ok e -> cfg_ok (e_cfg e) ->
  (forall i, ecdsa_valid (e_prims e) (e_rnd e i 32) = true) ->
  (c_batch (e_cfg e) = true -> exists ak cert, p_batch (w_p w) = Some (ak, cert) /\ ecdsa_valid (e_prims e) ak = true) ->
  bytes_ok b = true -> parse_command (e_cfg e) b = Ok (CMakeCredential p) ->
  In q (mc_algs p) -> cp_public q = true -> cp_alg q = Some a -> a = Es256 \/ c_ed25519 (e_cfg e) = true ->
  mc_rk p = false -> mc_ep p = None -> mc_exclude p = None ->
  permitted e w 1 (mc_cdh p) (mc_auth p) (mc_proto p) (rp_id (mc_rp p)) (mc_uv p) ->
  fst (e_up e (w_up w)) = UpConfirmed ->
  exists mr w', run_op e (OpMessage b (MainHid cid)) w = (OutCtap (Ok (RMakeCredential mr)), w').
Proof.
  intros e h b cid p q a w NF K R C Valid Ba Ob Hx Iq Pq Aq Sa Rk Ep Ex Pm Up.
  apply permitted_acts in Pm as [Ma El].
  destruct (parse_command_body _ _ _ C Ob Hx) as (v & Ov & Pv).
  destruct (parse_mc_ok _ _ _ _ Ov Pv) as (_ & _ & Hb).
  destruct (preamble_allows e (CMakeCredential p) cid w _ _ _ _ _ _ Ma El) as (w1 & E1 & P1 & U1 & Ma1).
  assert (Al : find (supported e) (mc_algs p) <> None).
  { intro F. pose proof (find_none _ _ F _ Iq) as N. unfold supported in N. rewrite Pq, Aq in N. cbn in N.
    destruct a; [discriminate | ]. destruct Sa as [Sa | Sa]; [discriminate | congruence]. }
  destruct (x_register e NF K R C Valid p w1 Al Ep Ex Rk ltac:(unfold batch; now rewrite P1) Hb Ma1 ltac:(now rewrite U1)) as (r & w2 & F & _).
  destruct (mc_sealed e C K R p w1 r w2 Rk Hb F) as (mr & _ & _ & _ & _ & _ & -> & _).
  exists mr, w2. cbn [run_op]. unfold process_command. unfold bind at 1, lift at 1. rewrite Hx, split_message. unfold bind at 1.
  rewrite E1. cbn [process_fido_command]. now rewrite F.
Qed.
Print Assumptions C79_register.

(** A credential ID once issued, across any later history without reset, power losses included: a
    login that names it for its RP is answered, with this ID and a signature by the key whose public
    key was reported, if the request is permitted, carries verification where the protection demands
    it, and the user confirms where presence is asked. *)
Theorem C79_login : forall e h1 b cid p mr w1,
  nofault e -> prims_ok (e_prims e) -> rnd_ok e -> cfg_ok (e_cfg e) ->
  (forall i, ecdsa_valid (e_prims e) (e_rnd e i 32) = true) ->
  bytes_ok b = true -> parse_command (e_cfg e) b = Ok (CMakeCredential p) -> mc_rk p = false ->
  run_op e (OpMessage b (MainHid cid)) (run e h1) = (OutCtap (Ok (RMakeCredential mr)), w1) ->
  exists id k pub, registration_reports e mr id pub /\ length id = 241%nat /\
    cbor_write (cose_to_cbor (pub_of (e_prims e) k)) = Some pub /\
    forall h2 b2 cid2 p2 d,
      let h := h1 ++ (OpMessage b (MainHid cid), None) :: h2 in
      let w := run e h in
      no_reset e h2 -> byte_ops h ->
      parse_command (e_cfg e) b2 = Ok (CGetAssertion p2) -> ga_allow p2 = Some [d] -> de_id d = id ->
      ga_rp p2 = rp_id (mc_rp p) -> gx_hmac (ga_ext_ p2) = None ->
      effective_policy e (mx_protect (mc_ext_ p)) <> Some UvRequired \/ ga_auth p2 <> None ->
      permitted e w 2 (ga_cdh p2) (ga_auth p2) (ga_proto p2) (ga_rp p2) (ga_uv p2) ->
      (ga_up p2 = true -> fst (e_up e (w_up w)) = UpConfirmed) ->
      exists g w', run_op e (OpMessage b2 (MainHid cid2)) w = (OutCtap (Ok (RGetAssertion g)), w') /\
        gr_id g = id /\ gr_sig g = sign (e_prims e) k (gr_auth_data g ++ ga_cdh p2).
Proof.
  intros e h1 b cid p mr w1 NF K R C Valid Ob Hx Hr H.
  destruct (message_any e b cid _ _ _ _ Hx H) as (w0 & _ & _ & F). cbn [process_fido_command] in F.
  destruct (parse_command_body _ _ _ C Ob Hx) as (v & Ov & Pv).
  destruct (parse_mc_ok _ _ _ _ Ov Pv) as (_ & _ & Hb).
  destruct (mc_sealed e C K R p w0 _ w1 Hr Hb F) as (mr' & id & s & pre & pub & post & E & S & (nk & q & Kq1 & Kq2 & Kq3) & S1 & S2 & _ & L & Pb & A).
  injection E as <-. exists id, (so_key s), pub.
  split; [exists pre, post; split; [rewrite L, (ok_sha_len _ K); reflexivity | exact A] | ].
  split; [destruct S as (? & ? & SL & _); exact SL | ]. split; [exact Pb | ].
  intros h2 b2 cid2 p2 d h w N B Hx2 Ha Hd Hrp Hm Pol Pm Up.
  assert (S' : stands_for e (w_p w) id s).
  { destruct S as (m & M & U). exists m. split; [ | exact U]. unfold w, h. rewrite run_split.
    apply master_history; [ | exact N | ].
    - pose proof (run_wf e (h1 ++ [(OpMessage b (MainHid cid), None)])) as W. rewrite run_app in W. exact W.
    - unfold step. cbn [fst snd]. rewrite H. exact M. }
  assert (I : ids_short (w_p w)).
  { unfold ids_short. eapply Forall_impl; [ | exact (stored_history e h C R B)]. intros x [_ Q]. exact Q. }
  apply permitted_acts in Pm as [Ma El].
  destruct (preamble_allows e (CGetAssertion p2) cid2 w _ _ _ _ _ _ Ma El) as (w2 & E2 & P2 & U2 & Ma2).
  rewrite <- P2 in S', I.
  assert (KV : key_valid e (so_key s) = true).
  { unfold key_valid. rewrite Kq3. destruct (pk_alg (so_key s)); [apply Valid | reflexivity]. }
  assert (Li : listed (is_some (ga_auth p2)) (so_policy s) = true).
  { rewrite S2. destruct Pol as [Pol | Pol].
    - unfold listed. destruct (effective_policy e _) as [[] | ]; rewrite ?Bool.orb_true_r; congruence.
    - destruct (ga_auth p2); [reflexivity | congruence]. }
  destruct (x_login e NF K id s p2 (MainHid cid2) d w2 S' I KV Ha Hd ltac:(now rewrite S1, Hrp) Li Hm Ma2 ltac:(now rewrite U2))
    as (r & w3 & F2 & _).
  destruct (ga_signs e id s p2 (MainHid cid2) d w2 r w3 S' I Ha Hd F2) as (_ & _ & gr & -> & G3 & G4).
  exists gr, w3. split; [ | auto].
  cbn [run_op]. unfold process_command. unfold bind at 1, lift at 1. rewrite Hx2, split_message. unfold bind at 1.
  rewrite E2. cbn [process_fido_command]. now rewrite F2.
Qed.
Print Assumptions C79_login.

Definition mc_of (b : bytes) : option mc_params :=
  match parse_command toy_cfg b with Ok (CMakeCredential p) => Some p | _ => None end.
Definition ga_of (b : bytes) : option ga_params :=
  match parse_command toy_cfg b with Ok (CGetAssertion p) => Some p | _ => None end.
Definition h_login : history :=
  h_kh ++ [(OpMessage (mc_msg toy_rp [3%N] true None) ch0, Some 1%nat); (OpCompact 2, None)] ++ token_history 2 (Some toy_rp).
(** A registration without a token on a new device, one with a token, a login without and one with
    a token after a power loss. *)
Example C79_nonvacuous :
  nofault toy /\ prims_ok toy_prims /\ rnd_ok toy /\ cfg_ok toy_cfg /\
  (forall i, ecdsa_valid toy_prims (toy_rnd i 32) = true) /\ c_batch toy_cfg = false /\
  (exists p q, mc_of (mc_msg toy_rp [1; 1]%N false None) = Some p /\ In q (mc_algs p) /\ cp_public q = true /\
    cp_alg q = Some Es256 /\ mc_rk p = false /\ mc_ep p = None /\ mc_exclude p = None /\
    permitted toy (run toy []) 1 (mc_cdh p) (mc_auth p) (mc_proto p) (rp_id (mc_rp p)) (mc_uv p)) /\
  (exists p, mc_of (mc_msg toy_rp [1; 1]%N false (Some (client_token h_token))) = Some p /\ mc_auth p <> None /\
    permitted toy (run toy h_token) 1 (mc_cdh p) (mc_auth p) (mc_proto p) (rp_id (mc_rp p)) (mc_uv p)) /\
  byte_opsb h_login = true /\
  (exists p d, ga_of (ga_list_msg toy_rp [toy_kh] None) = Some p /\ ga_allow p = Some [d] /\ de_id d = toy_kh /\
    ga_rp p = toy_rp /\ gx_hmac (ga_ext_ p) = None /\ ga_up p = true /\
    permitted toy (run toy h_login) 2 (ga_cdh p) (ga_auth p) (ga_proto p) (ga_rp p) (ga_uv p)) /\
  (exists p, ga_of (ga_list_msg toy_rp [toy_kh] (Some (client_token h_login))) = Some p /\ ga_auth p <> None /\
    permitted toy (run toy h_login) 2 (ga_cdh p) (ga_auth p) (ga_proto p) (ga_rp p) (ga_uv p)).
Proof.
  split; [intro; reflexivity | ]. split; [exact toy_prims_ok | ]. split; [exact toy_rnd_ok | ]. split; [exact toy_cfg_ok | ].
  split; [reflexivity | ]. split; [reflexivity | ].
  split. { eexists _, _. split; [vm_compute; reflexivity | ]. split; [left; reflexivity | ]. repeat split; vm_compute; reflexivity. }
  split. { eexists. split; [vm_compute; reflexivity | ]. split; [discriminate | ]. exists V1.
    split; [reflexivity | ]. split; [vm_compute; discriminate | ]. split; [vm_compute; reflexivity | ].
    do 3 (split; [vm_compute; reflexivity | ]). split; [vm_compute; discriminate | ]. right. vm_compute. reflexivity. }
  split; [vm_compute; reflexivity | ].
  split. { eexists _, _. split; [vm_compute; reflexivity | ]. split; [reflexivity | ]. repeat split; vm_compute; reflexivity. }
  eexists. split; [vm_compute; reflexivity | ]. split; [discriminate | ]. exists V1.
  split; [reflexivity | ]. split; [vm_compute; discriminate | ]. split; [vm_compute; reflexivity | ].
  do 3 (split; [vm_compute; reflexivity | ]). split; [vm_compute; discriminate | ]. right. vm_compute. reflexivity.
Qed.
(** The same with batch attestation: the certificate is there, or the registration fails. *)
Example C79_batch_nonvacuous :
  let e := on_cfg batch_cfg in
  c_batch (e_cfg e) = true /\
  (exists ak cert, p_batch (w_p (run e certified)) = Some (ak, cert) /\ ecdsa_valid (e_prims e) ak = true) /\
  ask batch_cfg certified (mc_msg toy_rp [1; 1]%N false None) = Some (false, Some [8; 8]%N) /\
  ask batch_cfg [] (mc_msg toy_rp [1; 1]%N false None) = None.
Proof.
  split; [reflexivity | ]. split; [eexists _, _; split; vm_compute; reflexivity | ].
  split; vm_compute; reflexivity.
Qed.
