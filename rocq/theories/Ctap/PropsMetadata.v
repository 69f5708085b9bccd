(** Property theorem C81: the number of stored credentials is told to who may manage them. *)
From Verif Require Import Base Facts Hid.Model U2f.Model Cbor.Model Ctap.Crypto Ctap.Types Ctap.Machine
  Ctap.Commands Ctap.Parse Ctap.System Ctap.Logic Ctap.History Ctap.Track Ctap.Pin Ctap.PinChange Ctap.Success
  Ctap.Answers Ctap.Auth Ctap.Creds Ctap.Enumerate Ctap.Toy Ctap.ToyMore Ctap.PropsEnum Ctap.PropsToken Ctap.PropsCreds
  Ctap.Owner Ctap.Works Ctap.PropsWorks Ctap.Resident Ctap.ResetPossible Ctap.DeleteWorks Ctap.PropsDelete.
From Coq Require Import String List Lia.
Import ListNotations.
Open Scope list_scope.

(** After any history getCredsMetadata is answered if it carries the MAC of the subcommand under a
    token in force with the permission for credential management and for no RP. The answer counts
    the stored credentials and those that still fit. *)
Theorem C81_metadata : forall e h b cid p mac,
  let w := run e h in
  nofault e -> prims_ok (e_prims e) ->
  parse_command (e_cfg e) b = Ok (CCredMgmt p) -> cm_sub_ p = CmMetadata -> cm_data_ p = None ->
  cm_auth p = Some mac -> permitted e w 4 [1%N] (Some mac) (cm_proto p) [] false -> t_rp (v_token (w_v w)) = None ->
  exists r w', run_op e (OpMessage b (MainHid cid)) w = (OutCtap (Ok (RCredMgmt (Some r))), w') /\ w_p w' = w_p w /\
    exists n m, cmr_count r = Some n /\ cmr_remaining r = Some m /\
      N.to_nat n = List.length (creds w) /\ (N.to_nat n + N.to_nat m = c_max_rk (e_cfg e))%nat.
Proof.
  intros e h b cid p mac w NF K Hx Sb D Au Pm Rp.
  apply permitted_acts in Pm as [Ma El].
  pose proof (creds_bound e _ (creds_now e h)) as B. fold w in B.
  destruct (preamble_allows e (CCredMgmt p) cid w _ _ _ _ _ _ Ma El) as (w1 & E1 & P1 & _ & Ma1).
  assert (Ma2 : may_act e w 4 [1%N] (Some mac) (cm_proto p) [0%N] false).
  { destruct Ma as (pp & X1 & X2 & X3 & X4 & X5 & X6 & _). exists pp. repeat (split; [assumption | ]). left. exact Rp. }
  destruct (preamble_allows e (CCredMgmt p) cid w _ _ _ _ _ _ Ma2 El) as (w1' & E1' & _ & _ & Ma3).
  rewrite E1 in E1'. injection E1' as <-.
  assert (Rp1 : t_rp (v_token (w_v w1)) = None).
  { destruct Ma1 as (? & _ & _ & _ & _ & _ & _ & [X | X]); [exact X | ].
    destruct Ma3 as (? & _ & _ & _ & _ & _ & _ & [Y | Y]); [exact Y | ]. rewrite X in Y. discriminate Y. }
  destruct Ma1 as (pp & Pp & _ & Mac & T1 & _ & T3 & _).
  assert (G : ends (process_cred_mgmt e p (MainHid cid)) w1 (fun r w' => w_p w' = w_p w /\
    r = RCredMgmt (Some (mkCmResp (Some (Nlen (p_creds (w_p w)))) (Some (N.of_nat (c_max_rk (e_cfg e)) - Nlen (p_creds (w_p w)))%N)
      None None None None None None None None None)))).
  { unfold process_cred_mgmt. apply e_bind, x_command. intros s w2 (P2 & K2 & A2 & B2). rewrite Sb.
    apply e_bind. unfold st_clear, mod_st. apply y_modify. intros w3 V3 P3 _ _.
    assert (K3 : v_token (w_v w3) = v_token (w_v w1)) by (rewrite V3; exact K2).
    assert (A3 : proto_of pp (w_v w3) = proto_of pp (w_v w1)) by (rewrite V3; destruct pp; [exact A2 | exact B2]).
    apply e_bind. unfold cm_authorise. rewrite Sb, Au, Pp. apply e_bind. eapply e_lift; [reflexivity | ].
    apply e_bind. unfold cm_message. rewrite D, Sb. apply e_ret.
    apply e_bind. unfold verify_auth. apply e_bind, e_gets. rewrite K3. apply e_bind, e_guard; [exact T1 | ].
    apply e_bind, e_gets. rewrite A3, Mac. cbn [cm_code]. rewrite (authentic e K). cbn [mac_status]. apply e_ret.
    unfold has_permission. apply e_bind, e_gets. rewrite K3. apply e_guard; [apply Bool.negb_true_iff; now apply N.eqb_neq | ].
    apply e_bind, e_bind. unfold has_no_rp_id. apply e_bind, e_gets. rewrite K3, Rp1. apply e_guard; [reflexivity | ].
    unfold cm_metadata, remaining_credentials, count_credentials.
    apply e_bind, (x_load e NF). intros w4 (P4 & _). apply e_bind, e_bind, (x_load e NF). intros w5 (P5 & _).
    replace (w_p w4) with (w_p w) by congruence. replace (w_p w3) with (w_p w) by congruence.
    assert (L : (Nlen (p_creds (w_p w)) <=? N.of_nat (c_max_rk (e_cfg e)))%N = true) by (unfold Nlen; apply N.leb_le; lia).
    rewrite L. apply e_ret, e_ret, e_ret. split; [congruence | reflexivity]. }
  destruct G as (r & w2 & E2 & P2 & ->). eexists _, w2. split.
  { cbn [run_op]. unfold process_command. unfold bind at 1, lift at 1. rewrite Hx, split_message. unfold bind at 1.
    rewrite E1. cbn [process_fido_command]. rewrite E2. reflexivity. }
  split; [exact P2 | ]. cbn [cmr_count cmr_remaining]. eexists _, _. split; [reflexivity | ]. split; [reflexivity | ].
  unfold Nlen. split; lia.
Qed.
Print Assumptions C81_metadata.

Example C81_metadata_nonvacuous :
  let h := h_two ++ [on (token_perms_msg toy_pin 4 None)] in
  exists p mac, cm_of (cm_msg 1 None (Some (client_token h))) = Some p /\ cm_sub_ p = CmMetadata /\ cm_data_ p = None /\
    cm_auth p = Some mac /\ permitted toy (run toy h) 4 [1%N] (Some mac) (cm_proto p) [] false /\
    t_rp (v_token (w_v (run toy h))) = None /\ List.length (creds (run toy h)) = 2%nat.
Proof.
  cbv zeta. eexists _, _. split; [vm_compute; reflexivity | ]. do 3 (split; [reflexivity | ]). split.
  - exists V1. split; [reflexivity | ]. split; [vm_compute; discriminate | ]. split; [vm_compute; reflexivity | ].
    do 3 (split; [vm_compute; reflexivity | ]). split; [vm_compute; discriminate | ]. left. vm_compute. reflexivity.
  - split; vm_compute; reflexivity.
Qed.
