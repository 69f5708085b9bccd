(** Property theorem C82: the least length of a PIN can be raised. *)
From Verif Require Import Base Facts Hid.Model U2f.Model Cbor.Model Ctap.Crypto Ctap.Types Ctap.Machine
  Ctap.Commands Ctap.Parse Ctap.System Ctap.Logic Ctap.History Ctap.Track Ctap.Pin Ctap.PinChange Ctap.Success
  Ctap.Answers Ctap.Auth Ctap.Creds Ctap.Enumerate Ctap.Toy Ctap.ToyMore Ctap.PropsEnum Ctap.PropsToken Ctap.PropsCreds
  Ctap.Owner Ctap.Works Ctap.PropsWorks Ctap.Resident Ctap.ResetPossible Ctap.DeleteWorks.
From Coq Require Import String List Lia.
Import ListNotations.
Open Scope list_scope.

(** After any history, setMinPINLength with a length that is not below the one in force, and without
    a list of RPs, is answered if it carries the MAC of the subcommand and its parameters under a
    token in force with the permission for the configuration, or if there is neither a PIN nor a
    demand for verification; a change of the PIN can be demanded only where there is one. The length
    is then in force, and the PIN must be changed if the request says so, if it is shorter than the
    new length, or if it had to be changed before. *)
Theorem C82_min_pin : forall e h b cid p d n body rp mac,
  let w := run e h in
  let least := match p_minlen (w_p w) with Some m => m | None => c_min_pin (e_cfg e) end in
  let force := match mp_force d with Some true => true | _ => false end in
  nofault e -> prims_ok (e_prims e) ->
  parse_command (e_cfg e) b = Ok (CConfig p) -> cf_sub_ p = CfMinPin -> cf_data p = Some d ->
  mp_len d = Some n -> mp_rps d = None -> (least <= n)%N -> cbor_write (minpin_to_cbor d) = Some body ->
  (force = true -> p_pin (w_p w) <> None) ->
  (p_pin (w_p w) = None /\ c_enforce_uv (e_cfg e) = false /\ p_uv (w_p w) = false \/
   cf_auth p = Some mac /\ permitted e w 32 (repeat 255%N 32 ++ [13; 3]%N ++ body) (Some mac) (cf_proto p) rp false) ->
  exists w', run_op e (OpMessage b (MainHid cid)) w = (OutCtap (Ok RConfig), w') /\
    p_minlen (w_p w') = Some n /\ p_pin (w_p w') = p_pin (w_p w) /\ creds w' = creds w /\
    (p_force (w_p w') = true <->
     p_force (w_p w) = true \/ force = true \/ exists hash len, p_pin (w_p w) = Some (hash, len) /\ (len < n)%N).
Proof.
  intros e h b cid p d n body rp mac w least force NF K Hx Sb D Ln Rs Le Wr Fo Pm.
  assert (G : exists w1, preamble (CConfig p) (MainHid cid) w = (Ok tt, w1) /\ w_p w1 = w_p w /\
    (p_pin (w_p w) = None /\ c_enforce_uv (e_cfg e) = false /\ p_uv (w_p w) = false \/
     cf_auth p = Some mac /\ may_act e w1 32 (repeat 255%N 32 ++ [13; 3]%N ++ body) (Some mac) (cf_proto p) rp false)).
  { destruct Pm as [Pm | [Au Pm]].
    - destruct (preamble_same (CConfig p) (MainHid cid) w) as (w1 & E1 & P1 & _). exists w1. auto.
    - apply permitted_acts in Pm as [Ma El].
      destruct (preamble_allows e (CConfig p) cid w _ _ _ _ _ _ Ma El) as (w1 & E1 & P1 & _ & Ma1). exists w1. auto. }
  destruct G as (w1 & E1 & P1 & Au).
  set (fin := fun q : pers => p_minlen q = Some n /\ p_pin q = p_pin (w_p w) /\ p_creds q = p_creds (w_p w) /\
    (p_force q = true <->
     p_force (w_p w) = true \/ force = true \/ exists hash len, p_pin (w_p w) = Some (hash, len) /\ (len < n)%N)).
  assert (TG : forall w3, w_p w3 = w_p w -> ends (do* cf_set_min_pin_length e d in ret RConfig) w3 (fun r w' => r = RConfig /\ fin (w_p w'))).
  { intros w3 P3. apply e_bind. unfold cf_set_min_pin_length. rewrite Ln, Rs. apply e_bind. unfold min_pin_length. apply (x_load e NF).
    intros w4 (P4 & _). apply e_bind. apply e_guard.
    { rewrite P3. apply Bool.negb_true_iff, N.ltb_ge. exact Le. }
    assert (Ff : match mp_force d with Some b0 => b0 | None => false end = force).
    { unfold force. destruct (mp_force d) as [[] | ]; reflexivity. }
    cbv zeta. rewrite Ff. apply e_bind.
    assert (A : ends (if force then
           let* h := pin_hash e in
           guard (match h with None => false | Some _ => true end) PIN_NOT_SET
         else ret tt) w4 (fun _ w5 => w_p w5 = w_p w)).
    { destruct force; [ | apply e_ret; congruence]. apply e_bind. unfold pin_hash. apply (x_load e NF). intros w5 (P5 & _).
      apply e_guard; [ | congruence]. replace (w_p w4) with (w_p w) by congruence.
      destruct (p_pin (w_p w)); [reflexivity | now elim (Fo eq_refl)]. }
    eapply x_weak; [exact A | ]. cbv beta. intros _ w5 P5.
    apply e_bind. unfold pin_code_point_length. apply (x_load e NF). intros w6 (P6 & _). rewrite P5. apply e_bind.
    set (fc := (force || match option_map snd (p_pin (w_p w)) with Some n0 => n0 <? n | None => false end)%bool).
    assert (A2 : ends (if fc then force_pin_change e else ret tt) w6 (fun _ w7 =>
      w_p w7 = if fc then set_force true (w_p w) else w_p w)).
    { destruct fc; [ | apply e_ret; congruence]. unfold force_pin_change. apply e_store; [exact NF | ]. intros w7 P7 _ _. rewrite P7. congruence. }
    eapply x_weak; [exact A2 | ]. cbv beta. intros _ w7 P7. apply e_bind. unfold set_min_pin_length. apply e_store; [exact NF | ].
    intros w8 P8 _ _. apply e_ret, e_ret. split; [reflexivity | ]. rewrite P8, P7.
    assert (Fc : fc = true <-> force = true \/ exists hash len, p_pin (w_p w) = Some (hash, len) /\ (len < n)%N).
    { unfold fc. rewrite Bool.orb_true_iff. destruct (p_pin (w_p w)) as [[hash len] | ]; cbn [option_map snd].
      - rewrite N.ltb_lt. split; (intros [X | X]; [now left | right]); [eauto | ]. destruct X as (? & ? & X & L). injection X as <- <-. exact L.
      - split; (intros [X | X]; [now left | ]); [discriminate | ]. destruct X as (? & ? & X & _). discriminate X. }
    unfold fin. rewrite <- Fc. destruct fc; cbn; repeat split; auto. intros [X | X]; [exact X | discriminate X]. }
  assert (G : ends (process_config e p) w1 (fun r w' => r = RConfig /\ fin (w_p w'))).
  { unfold process_config. apply e_bind. unfold cf_authorise. rewrite Sb, D. apply e_bind.
    assert (A : ends (has_always_uv e) w1 (fun a w2 => a = (c_enforce_uv (e_cfg e) || p_uv (w_p w))%bool /\ w_p w2 = w_p w /\ w_v w2 = w_v w1)).
    { unfold has_always_uv. destruct (c_enforce_uv (e_cfg e)); [apply e_ret; auto | ].
      apply (x_load e NF). intros w2 (P2 & V2 & _). rewrite P1. split; [reflexivity | ]. split; congruence. }
    eapply x_weak; [exact A | ]. cbv beta. intros a w2 (Ea & P2 & V2).
    apply e_bind. unfold pin_hash. apply (x_load e NF). intros w3 (P3 & V3 & _). rewrite P2.
    destruct Au as [(Np & Ef & Uv) | [Au (pp & Pp & Hp & Mac & T1 & _ & T3 & _)]].
    - rewrite Np, Ea, Ef, Uv. cbn [option_map orb]. apply e_ret, TG. congruence.
    - rewrite P1 in Hp. destruct (p_pin (w_p w)) as [ph | ] eqn:Ep; [ | now elim Hp]. cbn [option_map orb]. rewrite Au, Pp.
      apply e_bind. eapply e_lift; [reflexivity | ].
      apply e_bind. unfold cf_message. rewrite D, Sb. cbv zeta. apply e_bind. unfold write_cbor. rewrite Wr. apply e_ret. apply e_ret.
      apply e_bind. unfold verify_auth. apply e_bind, e_gets. rewrite V3, V2. apply e_bind, e_guard; [exact T1 | ].
      apply e_bind, e_gets. rewrite V3, V2, Mac.
      replace ((repeat 255%N 32 ++ [13%N; cf_code CfMinPin]) ++ body) with (repeat 255%N 32 ++ [13; 3]%N ++ body)
        by (rewrite <- app_assoc; reflexivity).
      rewrite (authentic e K). cbn [mac_status]. apply e_ret.
      unfold has_permission. apply e_bind, e_gets. rewrite V3, V2. apply e_guard; [apply Bool.negb_true_iff; now apply N.eqb_neq | ].
      apply TG. congruence. }
  destruct G as (r & w2 & E2 & -> & F). exists w2. split; [ | exact F].
  cbn [run_op]. unfold process_command. unfold bind at 1, lift at 1. rewrite Hx, split_message. unfold bind at 1.
  rewrite E1. cbn [process_fido_command]. rewrite E2. reflexivity.
Qed.
Print Assumptions C82_min_pin.

Definition min_pin_data : value := VMap [(VUnsigned 1, VUnsigned 8); (VUnsigned 3, VSimple STrue)].
Definition min_pin_request (token : bytes) : bytes :=
  let body := match cbor_write min_pin_data with Some b => b | None => [] end in
  message 13 [(1%N, VUnsigned 3); (2%N, min_pin_data); (3%N, VUnsigned 1);
              (4%N, VBytes (authenticate toy_prims V1 token (repeat 255%N 32 ++ [13; 3]%N ++ body)))].
(** A device with a PIN and a token for the configuration: 8 code points and a change of the PIN. *)
Example C82_min_pin_nonvacuous :
  let h := h_two ++ [on (token_perms_msg toy_pin 32 None)] in
  p_force (w_p (run toy h)) = false /\ p_pin (w_p (run toy h)) <> None /\
  exists p d body mac, parse_command toy_cfg (min_pin_request (client_token h)) = Ok (CConfig p) /\ cf_sub_ p = CfMinPin /\ cf_data p = Some d /\
    mp_len d = Some 8%N /\ mp_rps d = None /\ mp_force d = Some true /\
    (match p_minlen (w_p (run toy h)) with Some m => m | None => c_min_pin toy_cfg end <= 8)%N /\
    cbor_write (minpin_to_cbor d) = Some body /\
    cf_auth p = Some mac /\ permitted toy (run toy h) 32 (repeat 255%N 32 ++ [13; 3]%N ++ body) (Some mac) (cf_proto p) [] false.
Proof.
  cbv zeta. split; [vm_compute; reflexivity | ]. split; [vm_compute; discriminate | ].
  eexists _, _, _, _. split; [vm_compute; reflexivity | ]. do 5 (split; [reflexivity | ]). split; [vm_compute; discriminate | ].
  split; [vm_compute; reflexivity | ]. split; [reflexivity | ].
  exists V1. split; [reflexivity | ]. split; [vm_compute; discriminate | ]. split; [vm_compute; reflexivity | ].
  do 3 (split; [vm_compute; reflexivity | ]). split; [vm_compute; discriminate | ]. left. vm_compute. reflexivity.
Qed.
