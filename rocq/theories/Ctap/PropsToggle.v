(** Property theorems C82: the demand for verification can be switched on and off. *)
From Verif Require Import Base Facts Hid.Model U2f.Model Cbor.Model Ctap.Crypto Ctap.Types Ctap.Machine
  Ctap.Commands Ctap.Parse Ctap.System Ctap.Logic Ctap.History Ctap.Track Ctap.Pin Ctap.PinChange Ctap.Success
  Ctap.Answers Ctap.Auth Ctap.Creds Ctap.Enumerate Ctap.Toy Ctap.ToyMore Ctap.PropsEnum Ctap.PropsToken Ctap.PropsCreds
  Ctap.Owner Ctap.Works Ctap.PropsWorks Ctap.Resident Ctap.ResetPossible Ctap.DeleteWorks.
From Coq Require Import String List Lia.
Import ListNotations.
Open Scope list_scope.

(** What the MAC of toggleAlwaysUv covers (CTAP 2.1, authenticatorConfig): 32 bytes 0xFF, the
    command and the subcommand. *)
Definition toggle_message : bytes := repeat 255%N 32 ++ [13; 2]%N.

(** After any history, toggleAlwaysUv is answered on a device whose configuration does not enforce
    the verification if no PIN is set, or if it carries the MAC under a token in force with the
    permission for the configuration. The demand for verification is then the opposite of what it
    was, and the PIN, the attempts and the credentials are as before. *)
Theorem C82_toggle : forall e h b cid p rp mac,
  let w := run e h in
  nofault e -> prims_ok (e_prims e) ->
  parse_command (e_cfg e) b = Ok (CConfig p) -> cf_sub_ p = CfToggleUv -> cf_data p = None ->
  c_enforce_uv (e_cfg e) = false ->
  (p_pin (w_p w) = None \/
   cf_auth p = Some mac /\ permitted e w 32 toggle_message (Some mac) (cf_proto p) rp false) ->
  exists w', run_op e (OpMessage b (MainHid cid)) w = (OutCtap (Ok RConfig), w') /\
    p_uv (w_p w') = negb (p_uv (w_p w)) /\ p_pin (w_p w') = p_pin (w_p w) /\ p_retries (w_p w') = p_retries (w_p w) /\
    creds w' = creds w.
Proof.
  intros e h b cid p rp mac w NF K Hx Sb D Ef Pm.
  assert (G : exists w1, preamble (CConfig p) (MainHid cid) w = (Ok tt, w1) /\ w_p w1 = w_p w /\
    (p_pin (w_p w) = None \/ cf_auth p = Some mac /\ may_act e w1 32 toggle_message (Some mac) (cf_proto p) rp false)).
  { destruct Pm as [Pm | [Au Pm]].
    - destruct (preamble_same (CConfig p) (MainHid cid) w) as (w1 & E1 & P1 & _). exists w1. auto.
    - apply permitted_acts in Pm as [Ma El].
      destruct (preamble_allows e (CConfig p) cid w _ _ _ _ _ _ Ma El) as (w1 & E1 & P1 & _ & Ma1). exists w1. auto. }
  destruct G as (w1 & E1 & P1 & Au).
  assert (TG : forall w3, w_p w3 = w_p w -> ends (do* toggle_always_uv e in ret RConfig) w3 (fun r w' => r = RConfig /\
    w_p w' = set_uv (negb (p_uv (w_p w))) (w_p w))).
  { intros w3 P3. apply e_bind. unfold toggle_always_uv, has_always_uv. rewrite Ef. apply e_bind, (x_load e NF).
    intros w4 (P4 & _). rewrite P3. apply e_store; [exact NF | ]. intros w5 P5 _ _. apply e_ret. split; [reflexivity | ].
    rewrite P5. f_equal. congruence. }
  assert (G : ends (process_config e p) w1 (fun r w' => r = RConfig /\ w_p w' = set_uv (negb (p_uv (w_p w))) (w_p w))).
  { unfold process_config. apply e_bind. unfold cf_authorise. rewrite Sb. apply e_bind, e_ret.
    apply e_bind. unfold pin_hash. apply (x_load e NF). intros w2 (P2 & V2 & _). rewrite P1.
    destruct Au as [Np | [Au (pp & Pp & Hp & Mac & T1 & _ & T3 & _)]].
    - rewrite Np. cbn [option_map orb]. apply e_ret, TG. congruence.
    - rewrite P1 in Hp. destruct (p_pin (w_p w)) as [ph | ]; [ | now elim Hp]. cbn [option_map orb]. rewrite Au, Pp.
      apply e_bind. eapply e_lift; [reflexivity | ].
      apply e_bind. unfold cf_message. rewrite D, Sb. apply e_ret.
      apply e_bind. unfold verify_auth. apply e_bind, e_gets. rewrite V2. apply e_bind, e_guard; [exact T1 | ].
      apply e_bind, e_gets. rewrite V2, Mac. change (repeat 255%N 32 ++ [13%N; cf_code CfToggleUv]) with toggle_message.
      rewrite (authentic e K). cbn [mac_status]. apply e_ret.
      unfold has_permission. apply e_bind, e_gets. rewrite V2. apply e_guard; [apply Bool.negb_true_iff; now apply N.eqb_neq | ].
      apply TG. congruence. }
  destruct G as (r & w2 & E2 & -> & P2). exists w2. split.
  { cbn [run_op]. unfold process_command. unfold bind at 1, lift at 1. rewrite Hx, split_message. unfold bind at 1.
    rewrite E1. cbn [process_fido_command]. rewrite E2. reflexivity. }
  rewrite P2. repeat split; reflexivity.
Qed.
Print Assumptions C82_toggle.

Definition toggle_request (token : option bytes) : bytes :=
  message 13 ((1%N, VUnsigned 2) :: match token with
    | Some t => [(3%N, VUnsigned 1); (4%N, VBytes (authenticate toy_prims V1 t toggle_message))]
    | None => []
    end).
(** A new device; and one with a PIN and a token for the configuration. *)
Example C82_nonvacuous :
  let h := h_two ++ [on (token_perms_msg toy_pin 32 None)] in
  nofault toy /\ c_enforce_uv toy_cfg = false /\
  (exists p, parse_command toy_cfg (toggle_request None) = Ok (CConfig p) /\ cf_sub_ p = CfToggleUv /\ cf_data p = None) /\
  p_pin (w_p (run toy [])) = None /\ p_pin (w_p (run toy h)) <> None /\
  exists p mac, parse_command toy_cfg (toggle_request (Some (client_token h))) = Ok (CConfig p) /\ cf_sub_ p = CfToggleUv /\ cf_data p = None /\
    cf_auth p = Some mac /\ permitted toy (run toy h) 32 toggle_message (Some mac) (cf_proto p) [] false.
Proof.
  cbv zeta. split; [intro; reflexivity | ]. split; [reflexivity | ].
  split; [eexists; split; [vm_compute; reflexivity | split; reflexivity] | ]. split; [vm_compute; reflexivity | ].
  split; [vm_compute; discriminate | ]. eexists _, _. split; [vm_compute; reflexivity | ]. do 3 (split; [reflexivity | ]).
  exists V1. split; [reflexivity | ]. split; [vm_compute; discriminate | ]. split; [vm_compute; reflexivity | ].
  do 3 (split; [vm_compute; reflexivity | ]). split; [vm_compute; discriminate | ]. left. vm_compute. reflexivity.
Qed.
