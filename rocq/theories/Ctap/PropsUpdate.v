(** Property theorems C80 and C81: the names of a stored credential can be changed, and the key for
    the exchange of PINs is always told. *)
From Verif Require Import Base Facts Hid.Model U2f.Model Cbor.Model Ctap.Crypto Ctap.Types Ctap.Machine
  Ctap.Commands Ctap.Parse Ctap.System Ctap.Logic Ctap.History Ctap.Track Ctap.Pin Ctap.PinChange Ctap.Success
  Ctap.Answers Ctap.Creds Ctap.Enumerate Ctap.Keys Ctap.Protect Ctap.Seal Ctap.Stored Ctap.Sealed Ctap.Toy Ctap.ToyMore Ctap.PropsEnum Ctap.PropsToken Ctap.PropsCreds
  Ctap.PropsSeal Ctap.Owner Ctap.Works Ctap.PropsWorks Ctap.DeleteWorks Ctap.PropsDelete Ctap.UpdateWorks.
From Coq Require Import String List Lia.
Import ListNotations.
Open Scope list_scope.

(** After any history, a change of the user's names in the one stored credential with an ID is
    answered if it carries the MAC of the subcommand and its parameters under a token in force with
    the permission for credential management, for the RP of the credential or for none. Then this
    credential has the names of the request, its ID, key, RP, user ID and protection are as before,
    and every other credential stays. *)
Theorem C80_update : forall e h b cid p d x u body mac k c,
  let w := run e h in
  nofault e -> prims_ok (e_prims e) -> rnd_ok e -> cfg_ok (e_cfg e) -> byte_ops h -> bytes_ok b = true ->
  parse_command (e_cfg e) b = Ok (CCredMgmt p) -> cm_sub_ p = CmUpdate ->
  cm_data_ p = Some d -> cd_cred d = Some x -> cd_user d = Some u -> cbor_write (cm_data_to_cbor d) = Some body ->
  filter (fun y => bytes_eqb (cr_id (snd y)) (de_id x)) (creds w) = [(k, c)] ->
  cm_auth p = Some mac -> permitted e w 4 (7%N :: body) (Some mac) (cm_proto p) (cr_rp c) false ->
  exists w', run_op e (OpMessage b (MainHid cid)) w = (OutCtap (Ok (RCredMgmt None)), w') /\
    creds w' = filter (fun y => negb (bytes_eqb (cr_id (snd y)) (de_id x))) (creds w) ++
      [(k, mkCred (cr_id c) (cr_key c) (cr_rp c) (cr_user c) (us_display u) (cr_policy c) (cr_order c)
                  (us_name u) (us_icon u) (cr_blob c) (cr_lbkey c))].
Proof.
  intros e h b cid p d x u body mac k c w NF K R C Bh Bb Hx Sb D X U Wr F Au Pm.
  apply permitted_acts in Pm as [Ma El].
  destruct (preamble_allows e (CCredMgmt p) cid w _ _ _ _ _ _ Ma El) as (w1 & E1 & P1 & _ & Ma1).
  assert (Co : cred_ok (c_width (e_cfg e)) (c_ed25519 (e_cfg e)) (with_user u c)).
  { assert (I : In (k, c) (creds w)).
    { assert (I0 : In (k, c) (filter (fun y => bytes_eqb (cr_id (snd y)) (de_id x)) (creds w))) by (rewrite F; now left).
      now apply filter_In in I0. }
    pose proof (stored_history e h C R Bh) as S. rewrite Forall_forall in S. destruct (S _ I) as [[K1 K2 K3 K4 K5 K6 K7 K8 K9 K10] _].
    destruct (parse_command_body _ _ _ C Bb Hx) as (v & Ov & P).
    destruct (parse_cm_ok _ _ _ Ov P d u D U) as (U1 & U2 & U3 & U4). split; cbn; auto. }
  destruct (x_update e NF K R C p (MainHid cid) d x u body k c w1 Sb D X U Wr ltac:(now rewrite P1) Co mac Au Ma1) as (r & w2 & E2 & ->).
  assert (H : run_op e (OpMessage b (MainHid cid)) w = (OutCtap (Ok (RCredMgmt None)), w2)).
  { cbn [run_op]. unfold process_command. unfold bind at 1, lift at 1. rewrite Hx, split_message. unfold bind at 1.
    rewrite E1. cbn [process_fido_command]. now rewrite E2. }
  exists w2. split; [exact H | ].
  destruct (C28_update e h b cid p _ w2 Hx Sb H) as (id & d' & u' & k' & c' & N & D' & U' & F' & Cs).
  rewrite D in D'. injection D' as <-. rewrite U in U'. injection U' as <-.
  unfold named_credential in N. rewrite D, X in N. injection N as <-. fold w in F'. rewrite F in F'. injection F' as <- <-. exact Cs.
Qed.
Print Assumptions C80_update.

(** Two credentials are stored; the first gets a new name. *)
Example C80_update_nonvacuous :
  let h := h_two ++ [on (token_perms_msg toy_pin 4 None)] in
  let id := match creds (run toy h) with x :: _ => cr_id (snd x) | [] => [] end in
  let b := cm_msg 7 (Some (update_data id [1; 1]%N (str "Ann"))) (Some (client_token h)) in
  nofault toy /\ prims_ok (e_prims toy) /\ rnd_ok toy /\ cfg_ok (e_cfg toy) /\ byte_ops h /\ bytes_ok b = true /\
  exists p d x u body mac k c, cm_of b = Some p /\ cm_sub_ p = CmUpdate /\
    cm_data_ p = Some d /\ cd_cred d = Some x /\ cd_user d = Some u /\ us_name u = Some (str "Ann") /\ cbor_write (cm_data_to_cbor d) = Some body /\
    filter (fun y => bytes_eqb (cr_id (snd y)) (de_id x)) (creds (run toy h)) = [(k, c)] /\ cr_name c = None /\
    List.length (creds (run toy h)) = 2%nat /\
    cm_auth p = Some mac /\ permitted toy (run toy h) 4 (7%N :: body) (Some mac) (cm_proto p) (cr_rp c) false.
Proof.
  cbv zeta. split; [intro; reflexivity | ]. split; [exact toy_prims_ok | ]. split; [exact toy_rnd_ok | ]. split; [exact toy_cfg_ok | ].
  split; [unfold byte_ops; repeat constructor; vm_compute; reflexivity | ]. split; [vm_compute; reflexivity | ].
  eexists _, _, _, _, _, _, _, _. split; [vm_compute; reflexivity | ].
  do 5 (split; [reflexivity | ]). split; [vm_compute; reflexivity | ]. split; [vm_compute; reflexivity | ].
  split; [reflexivity | ]. split; [vm_compute; reflexivity | ]. split; [reflexivity | ].
  exists V1. split; [reflexivity | ]. split; [vm_compute; discriminate | ]. split; [vm_compute; reflexivity | ].
  do 3 (split; [vm_compute; reflexivity | ]). split; [vm_compute; discriminate | ]. left. vm_compute. reflexivity.
Qed.

(** After any history the public key for the exchange of PINs is told, for each protocol its own: it
    is the one that belongs to the secret key the device uses for this protocol until it is restarted
    or renews it, and telling it changes nothing that is stored. *)
Theorem C81_key : forall e h b cid p,
  let w := run e h in
  parse_command (e_cfg e) b = Ok (CClientPin p) -> pi_sub p = PsKeyAgreement ->
  c_allow_v1 (e_cfg e) = true \/ pi_proto p = V2 ->
  exists r w', run_op e (OpMessage b (MainHid cid)) w = (OutCtap (Ok (RClientPin (Some r))), w') /\ w_p w' = w_p w /\
    v_proto1 (w_v w') = v_proto1 (w_v w) /\ v_proto2 (w_v w') = v_proto2 (w_v w) /\
    pr_key r = Some (cose_of_ecdh (e_prims e) (pp_key (match pi_proto p with V1 => v_proto1 (w_v w) | V2 => v_proto2 (w_v w) end))) /\
    pr_retries r = None /\ pr_token r = None.
Proof.
  intros e h b cid p w Hx Sb V.
  assert (G : exists w1, preamble (CClientPin p) (MainHid cid) w = (Ok tt, w1) /\ w_p w1 = w_p w /\
    v_proto1 (w_v w1) = v_proto1 (w_v w) /\ v_proto2 (w_v w1) = v_proto2 (w_v w)).
  { eexists. split; [cbn; reflexivity | cbn; auto]. }
  destruct G as (w1 & E1 & P1 & A1 & B1).
  assert (G : process_client_pin e p w1 = (Ok (RClientPin (Some (mkPinResp (Some (cose_of_ecdh (e_prims e) (pp_key (proto_of (pi_proto p) (w_v w1))))) None None None))), w1)).
  { unfold process_client_pin, get_key_agreement. rewrite Sb.
    destruct V as [-> | ->]; [reflexivity | ]. destruct (c_allow_v1 _); reflexivity. }
  eexists _, w1. split.
  { cbn [run_op]. unfold process_command. unfold bind at 1, lift at 1. rewrite Hx, split_message. unfold bind at 1.
    rewrite E1. cbn [process_fido_command]. rewrite G. reflexivity. }
  split; [exact P1 | ]. split; [exact A1 | ]. split; [exact B1 | ]. cbn [pr_key pr_retries pr_token].
  split; [ | split; reflexivity]. unfold proto_of. rewrite A1, B1. destruct (pi_proto p); reflexivity.
Qed.
Print Assumptions C81_key.

Definition key_request : bytes := message 6 [(1%N, VUnsigned 1); (2%N, VUnsigned 2)].
Example C81_key_nonvacuous :
  (exists p, parse_command toy_cfg key_request = Ok (CClientPin p) /\ pi_sub p = PsKeyAgreement /\ pi_proto p = V1) /\
  c_allow_v1 toy_cfg = true.
Proof. split; [eexists; split; [vm_compute; reflexivity | split; reflexivity] | reflexivity]. Qed.
