(** Property theorems C81: the device always says how it stands. *)
From Verif Require Import Base Facts Hid.Model U2f.Model Cbor.Model Ctap.Crypto Ctap.Types Ctap.Machine
  Ctap.Commands Ctap.Parse Ctap.System Ctap.Logic Ctap.History Ctap.Track Ctap.Pin Ctap.PinChange Ctap.Success
  Ctap.Answers Ctap.Creds Ctap.Enumerate Ctap.Toy Ctap.ToyMore Ctap.PropsEnum Ctap.Owner Ctap.Works Ctap.DeleteWorks.
From Coq Require Import String List Lia.
Import ListNotations.
Open Scope list_scope.

(** The value of an option in a getInfo response: the first entry with its name. *)
Definition option_value (name : string) (l : list (bytes * bool)) : option bool :=
  option_map snd (find (fun x => bytes_eqb (fst x) (str name)) l).

(** After any history getInfo is answered on both channels, and the answer is the truth: whether a
    PIN is set, whether verification is always demanded, whether the PIN must be changed, its least
    length, and how many credentials still fit; it changes nothing that is stored. *)
Theorem C81_info : forall e h b ch,
  let w := run e h in
  nofault e -> parse_command (e_cfg e) b = Ok CGetInfo ->
  exists i w', run_op e (OpMessage b ch) w = (OutCtap (Ok (RGetInfo i)), w') /\ w_p w' = w_p w /\
    option_value "clientPin" (in_options i) = Some (match p_pin (w_p w) with Some _ => true | None => false end) /\
    option_value "alwaysUv" (in_options i) = Some (c_enforce_uv (e_cfg e) || p_uv (w_p w))%bool /\
    option_value "makeCredUvNotRqd" (in_options i) = Some (negb (c_enforce_uv (e_cfg e) || p_uv (w_p w))) /\
    option_value "ep" (in_options i) = match c_ep (e_cfg e) with Some _ => Some (p_ep (w_p w)) | None => None end /\
    (In (str "U2F_V2") (in_versions i) <-> (c_enforce_uv (e_cfg e) || p_uv (w_p w))%bool = false) /\
    in_force i = p_force (w_p w) /\
    in_minlen i = match p_minlen (w_p w) with Some n => n | None => c_min_pin (e_cfg e) end /\
    (N.to_nat (in_remaining i) + List.length (p_creds (w_p w)) = c_max_rk (e_cfg e))%nat.
Proof.
  intros e h b ch w NF Hx.
  destruct (preamble_same CGetInfo ch w) as (w1 & E1 & P1 & _).
  pose proof (creds_bound e _ (creds_now e h)) as B. fold w in B.
  match goal with |- exists i w', _ /\ _ /\ @?Q i w' => set (T := fun i => Q i w1) end.
  assert (G : ends (process_get_info e) w1 (fun r w' => exists i, r = RGetInfo i /\ w_p w' = w_p w /\ T i)).
  { unfold process_get_info.
    apply e_bind.
    assert (A : ends (has_always_uv e) w1 (fun a w2 => a = (c_enforce_uv (e_cfg e) || p_uv (w_p w))%bool /\ w_p w2 = w_p w)).
    { unfold has_always_uv. destruct (c_enforce_uv (e_cfg e)); [apply e_ret; auto | ].
      apply (x_load e NF). intros w2 (P2 & _). rewrite P1. split; [reflexivity | congruence]. }
    eapply x_weak; [exact A | ]. intros always w2 [-> P2]. set (always := (c_enforce_uv (e_cfg e) || p_uv (w_p w))%bool) in *.
    apply e_bind.
    assert (A2 : ends (E := status) match c_ep (e_cfg e) with
                 | Some _ => let* b := enterprise_attestation e in ret [(str "ep", b)]
                 | None => ret []
                 end w2 (fun l w3 => l = match c_ep (e_cfg e) with Some _ => [(str "ep", p_ep (w_p w))] | None => [] end /\ w_p w3 = w_p w)).
    { destruct (c_ep (e_cfg e)); [ | apply e_ret; auto]. apply e_bind. unfold enterprise_attestation. apply (x_load e NF).
      intros w3 (P3 & _). apply e_ret. split; congruence. }
    eapply x_weak; [exact A2 | ]. intros ep w3 [-> P3].
    apply e_bind. unfold pin_hash. apply (x_load e NF). intros w4 (P4 & _). rewrite P3.
    apply e_bind. unfold has_force_pin_change. apply (x_load e NF). intros w5 (P5 & _).
    replace (w_p w4) with (w_p w) by congruence.
    apply e_bind. unfold min_pin_length. apply (x_load e NF). intros w6 (P6 & _).
    replace (w_p w5) with (w_p w) by congruence.
    apply e_bind. unfold remaining_credentials, count_credentials. apply e_bind, (x_load e NF). intros w7 (P7 & _).
    replace (w_p w6) with (w_p w) by congruence.
    assert (L : (Nlen (p_creds (w_p w)) <=? N.of_nat (c_max_rk (e_cfg e)))%N = true) by (unfold Nlen; apply N.leb_le; lia).
    rewrite L. apply e_ret, e_ret. eexists. split; [reflexivity | ]. split; [congruence | ].
    unfold T. cbn [in_options in_versions in_force in_minlen in_remaining].
    split; [destruct (c_ep (e_cfg e)); destruct (p_pin (w_p w)); reflexivity | ].
    split; [destruct (c_ep (e_cfg e)); reflexivity | ]. split; [destruct (c_ep (e_cfg e)); reflexivity | ].
    split; [destruct (c_ep (e_cfg e)); reflexivity | ].
    split. { destruct always; split; intro X; try discriminate; [ | reflexivity | now left].
      exfalso. destruct X as [X | [X | []]]; discriminate X. }
    split; [reflexivity | ]. split; [reflexivity | ]. unfold Nlen. lia. }
  destruct G as (r & w2 & E2 & i & -> & P2 & Ti). exists i, w2. split; [ | split; [exact P2 | exact Ti]].
  cbn [run_op]. unfold process_command. unfold bind at 1, lift at 1. rewrite Hx, split_message. unfold bind at 1.
  rewrite E1. destruct ch; cbn [process_fido_command process_vendor_command]; now rewrite E2.
Qed.
Print Assumptions C81_info.

(** After any history the number of remaining PIN attempts is told, and whether a restart is needed
    before the next one: after three wrong PINs. *)
Theorem C81_retries : forall e h b cid p,
  let w := run e h in
  nofault e -> parse_command (e_cfg e) b = Ok (CClientPin p) -> pi_sub p = PsRetries ->
  c_allow_v1 (e_cfg e) = true \/ pi_proto p = V2 ->
  exists r w', run_op e (OpMessage b (MainHid cid)) w = (OutCtap (Ok (RClientPin (Some r))), w') /\ w_p w' = w_p w /\
    pr_retries r = Some (match p_retries (w_p w) with Some n => n | None => c_max_retries (e_cfg e) end) /\
    pr_cycle r = Some (3 <=? v_mism (w_v w))%N /\ pr_key r = None /\ pr_token r = None.
Proof.
  intros e h b cid p w NF Hx Sb V.
  assert (G : exists w1, preamble (CClientPin p) (MainHid cid) w = (Ok tt, w1) /\ w_p w1 = w_p w /\ v_mism (w_v w1) = v_mism (w_v w)).
  { eexists. split; [cbn; reflexivity | cbn; auto]. }
  destruct G as (w1 & E1 & P1 & M1).
  assert (G : ends (process_client_pin e p) w1 (fun r w' => w_p w' = w_p w /\ r = RClientPin (Some (mkPinResp None None
    (Some (match p_retries (w_p w) with Some n => n | None => c_max_retries (e_cfg e) end)) (Some (3 <=? v_mism (w_v w))%N))))).
  { unfold process_client_pin. apply e_bind, e_guard.
    { destruct V as [-> | ->]; [reflexivity | now destruct (c_allow_v1 _)]. }
    apply e_bind. rewrite Sb. unfold get_pin_retries. apply e_bind. unfold pin_retries. apply (x_load e NF). intros w2 (P2 & V2 & _).
    apply e_bind, e_gets. rewrite V2, M1, P1. apply e_ret, e_ret. split; [congruence | ]. unfold retries_of. now destruct (p_retries (w_p w)). }
  destruct G as (r & w2 & E2 & P2 & ->). eexists _, w2. split.
  { cbn [run_op]. unfold process_command. unfold bind at 1, lift at 1. rewrite Hx, split_message. unfold bind at 1.
    rewrite E1. cbn [process_fido_command]. rewrite E2. reflexivity. }
  split; [exact P2 | ]. repeat split; reflexivity.
Qed.
Print Assumptions C81_retries.

Definition retries_request : bytes := message 6 [(1%N, VUnsigned 1); (2%N, VUnsigned 1)].
(** A new device, and one with a PIN and two credentials. *)
Example C81_nonvacuous :
  nofault toy /\ parse_command toy_cfg [4%N] = Ok CGetInfo /\
  (exists p, parse_command toy_cfg retries_request = Ok (CClientPin p) /\ pi_sub p = PsRetries /\ pi_proto p = V1) /\
  c_allow_v1 toy_cfg = true /\
  (let told h := match answer h [4%N] with
                 | OutCtap (Ok (RGetInfo i)) => (option_value "clientPin" (in_options i), option_value "ep" (in_options i), in_remaining i)
                 | _ => (None, None, 0%N)
                 end in
   told [] = (Some false, None, 8%N) /\ told h_two = (Some true, None, 6%N)).
Proof.
  split; [intro; reflexivity | ]. split; [vm_compute; reflexivity | ].
  split; [eexists; split; [vm_compute; reflexivity | split; reflexivity] | ]. split; [reflexivity | ]. vm_compute. split; reflexivity.
Qed.
