(** Property theorems C66 and C67 about the vendor commands, above all configure, which provisions the attestation. *)
From Verif Require Import Base Facts Hid.Model U2f.Model Cbor.Model Cbor.Spec Ctap.Crypto Ctap.Types Ctap.Machine
  Ctap.Commands Ctap.Parse Ctap.System Ctap.Logic Ctap.History Ctap.Toy Device.Vendor Device.VendorSpec Device.VendorProofs.
From Verif Require Upgrade.Model.
From Coq Require Import Lia.

(** The attestation that the firmware stores: key and certificate. *)
Definition attestation (t : tock) : option (bytes * bytes) := p_batch (w_p (t_world t)).

Lemma width_ok c : cfg_ok c -> (0 < c_width c <= 64)%N.
Proof. intro C. destruct (ok_width _ C) as [-> | ->]; lia. Qed.

(** Once provisioned, the attestation is never replaced nor removed: not by any message on any endpoint, not by a reset of the
    authenticator, and not by power loss at any point. *)
Theorem C66_permanent : forall bd m h h' a,
  attestation (tock_run bd m h) = Some a -> attestation (tock_run bd m (h ++ h')) = Some a.
Proof. intros bd m h h' a. apply batch_stays. Qed.
Print Assumptions C66_permanent.

(** It appears only by a configure message that carries it, on an endpoint that takes vendor commands, and the user confirmed their
    presence while the message was processed. *)
Theorem C66_provisioned : forall bd m h x a,
  cfg_ok (e_cfg (b_env bd)) ->
  (forall b ch, fst x = Message b ch -> bytes_ok b = true) ->
  attestation (tock_run bd m h) = None -> attestation (tock_run bd m (h ++ [x])) = Some a ->
  (exists b ch, fst x = Message b ch /\ takes_vendor bd ch /\ carries (c_width (e_cfg (b_env bd))) b (fst a) (snd a)) /\
  exists l, w_log (t_world (tock_run bd m (h ++ [x]))) = l ++ w_log (t_world (tock_run bd m h)) /\ In (LEv EvPresence) l.
Proof.
  intros bd m h x a C Hb H0 H1. rewrite tock_run_snoc in *. unfold attestation in *.
  destruct (step_atts bd (tock_run bd m h) x (proj1 (tock_wf bd m h))) as (_ & _ & [E | (a' & l & _ & G & _ & B & El & Il)]); [congruence | ].
  assert (a' = a) as -> by congruence. split; [ | eauto].
  destruct G as (b & ch & lockdown & Ex & T & H40 & P). exists b, ch. split; [exact Ex | ]. split; [exact T | ].
  destruct a as [key cert].
  apply (proj2 (parse_message_spec _ b lockdown _ (width_ok _ C) (Hb _ _ Ex) H40 P)). reflexivity.
Qed.
Print Assumptions C66_provisioned.

(** The command changes nothing else of what is stored, and there never is an enterprise attestation. *)
Theorem C66_rest : forall bd t b ch,
  takes_vendor bd ch -> hd 0%N b = 0x40%N -> t_live t = true ->
  let t' := fst (act bd t (Message b ch)) in
  set_atts None None (w_p (t_world t')) = set_atts None None (w_p (t_world t)) /\ t_mem t' = t_mem t.
Proof.
  intros bd t b ch T H0 L. cbv zeta.
  pose proof (configure_answers bd b ch t T H0 L) as A.
  destruct (act bd t (Message b ch)) as [t' o] eqn:E. cbn [fst]. destruct o as [r | ]; [ | destruct A].
  split; [ | apply A]. clear A. cbn [act] in E. unfold tock_message in E.
  destruct (vendor_command bd t b ch) as [t1 r1] eqn:Ev.
  assert (P : set_atts None None (w_p (t_world t1)) = set_atts None None (w_p (t_world t)) /\ r1 <> None).
  { destruct b as [ | c rest]; [discriminate | ]. cbn in H0. subst c. unfold vendor_command in Ev.
    assert (M : match parse_message (c_width (e_cfg (b_env bd))) (0x40%N :: rest) with
      | Err s => (t, Some (Some [status_code s]))
      | Ok (lockdown, material) =>
          let '(r, w) := (let* r := configure bd lockdown material in lock_down lockdown r) (t_world t) in
          (mkTock w (t_live t) (t_mem t) (t_n t),
           Some (Some (match r with Ok r => configure_response r | Err s => [status_code s] end)))
      end = (t1, r1)).
    { destruct (b_hid bd) eqn:Eh; [ | exact Ev]. destruct (T Eh) as [c ->]. exact Ev. }
    destruct (parse_message _ _) as [[lockdown material] | s]; [ | injection M as <- <-; split; [reflexivity | discriminate]].
    destruct (configure_world bd lockdown material (t_world t)) as (_ & _ & l & _ & D).
    destruct (bind _ _ _) as [x w']. injection M as <- <-. cbn [snd t_world] in *. split; [ | discriminate].
    destruct D as [[_ ->] | (a & _ & _ & -> & _)]; reflexivity. }
  destruct P as [P N]. destruct r1 as [[x | ] | ]; [ | | congruence]; injection E as <- _; exact P.
Qed.
Print Assumptions C66_rest.
Theorem C66_no_enterprise : forall bd m h, p_ent (w_p (t_world (tock_run bd m h))) = None.
Proof. intros bd m h. apply tock_wf. Qed.
Print Assumptions C66_no_enterprise.

(** A configure message is always answered, with an error code alone, or with success and the truth: two times true if an
    attestation is stored afterwards, else two times false.  A message that demands the lockdown is never answered with success:
    the firmware cannot lock itself. *)
Theorem C66_answer : forall bd t b ch,
  cfg_ok (e_cfg (b_env bd)) -> bytes_ok b = true ->
  takes_vendor bd ch -> hd 0%N b = 0x40%N -> t_live t = true ->
  exists t' r, act bd t (Message b ch) = (t', Some r) /\ t_live t' = true /\
    ((exists s, s <> 0%N /\ r = [s]) \/
     ~ demands_lock (c_width (e_cfg (b_env bd))) b /\
     ((exists a, attestation t' = Some a) /\ r = [0; 0xA2; 1; 0xF5; 2; 0xF5]%N \/
      attestation t' = None /\ r = [0; 0xA2; 1; 0xF4; 2; 0xF4]%N)).
Proof.
  intros bd t b ch C Hb T H0 L. pose proof (configure_answers bd b ch t T H0 L) as A.
  destruct (act bd t (Message b ch)) as [t' [r | ]]; [ | destruct A]. exists t', r. split; [reflexivity | ].
  destruct A as (L' & _ & A). split; [exact L' | ]. destruct A as [A | (lockdown & material & P & -> & ->)]; [auto | right]. split.
  - intro D. apply (proj1 (parse_message_spec _ b false material (width_ok _ C) Hb H0 P)) in D.
    discriminate.
  - unfold attestation. destruct (p_batch (w_p (t_world t'))) as [a | ]; [left | right]; eauto.
Qed.
Print Assumptions C66_answer.

(** If the store works and the user confirms, the first attestation that is sent is stored. *)
Theorem C66_installs : forall bd t rest key cert ch,
  takes_vendor bd ch -> t_live t = true ->
  cbor_read (c_width (e_cfg (b_env bd))) rest =
    Some (VMap [(VUnsigned 2, VMap [(VUnsigned 1, VBytes cert); (VUnsigned 2, VBytes key)])]) ->
  length key = 32%nat -> attestation t = None ->
  (forall i, e_fault (b_env bd) i = None) -> fst (e_up (b_env bd) (w_up (t_world t))) = UpConfirmed ->
  exists t', act bd t (Message (0x40%N :: rest) ch) = (t', Some [0; 0xA2; 1; 0xF5; 2; 0xF5]%N) /\
    attestation t' = Some (key, cert).
Proof.
  intros bd t rest key cert ch T L R Lk A NF UP. cbn [act]. unfold tock_message.
  assert (E : vendor_command bd t (0x40%N :: rest) ch =
    let '(r, w) := (let* r := configure bd false (Some (key, cert)) in lock_down false r) (t_world t) in
    (mkTock w (t_live t) (t_mem t) (t_n t),
     Some (Some (match r with Ok r => configure_response r | Err s => [status_code s] end)))).
  { assert (P : parse_configure (VMap [(VUnsigned 2, VMap [(VUnsigned 1, VBytes cert); (VUnsigned 2, VBytes key)])]) =
      Ok (false, Some (key, cert))).
    { assert (N : (Nlen key =? 32)%N = true) by (unfold Nlen; rewrite Lk; reflexivity).
      unfold parse_configure, parse_material. cbn [extract_map rbind]. cbv zeta.
      replace (fields _ _ 0) with (@None value) by reflexivity. cbn [map_or rbind].
      replace (fields _ _ 1) with (Some (VMap [(VUnsigned 1, VBytes cert); (VUnsigned 2, VBytes key)])) by reflexivity.
      cbn [map_opt extract_map rbind].
      replace (fields _ _ 0) with (Some (VBytes cert)) by reflexivity. cbn [ok_or_missing extract_byte_string rbind].
      replace (fields _ _ 1) with (Some (VBytes key)) by reflexivity. cbn [ok_or_missing extract_byte_string rbind].
      rewrite N. reflexivity. }
    unfold vendor_command. rewrite N.eqb_refl, R. cbn [rbind]. rewrite P.
    destruct (b_hid bd) eqn:Eh; [ | reflexivity]. destruct (T Eh) as [c ->]. reflexivity. }
  rewrite E. clear E. unfold configure, lock_down, set_attestation, get_attestation, bind, check_user_presence, map_status, load, store, ret, guard, fail, emit.
  cbn [orb]. destruct (e_up (b_env bd) (w_up (t_world t))) as [u d]. cbn [fst] in UP. subst u.
  cbn [up_status w_op w_p w_v w_now w_rng w_up w_log]. rewrite NF. unfold attestation in A. rewrite A.
  cbn [w_op]. rewrite NF. eexists. split; reflexivity.
Qed.
Print Assumptions C66_installs.

(** With a separate endpoint for vendor commands, the main endpoint does not take them: they are answered with INVALID_COMMAND and
    do nothing. *)
Theorem C66_main_endpoint : forall bd t b c,
  b_hid bd = true -> t_live t = true -> In (hd 0%N b) [0x40; 0x42; 0x43]%N ->
  exists t', act bd t (Message b (MainHid c)) = (t', Some [1%N]) /\ t_world t' = t_world t /\ t_mem t' = t_mem t /\ t_live t' = true.
Proof.
  intros bd t b c Hh L H. cbn [act]. unfold tock_message, vendor_command. rewrite Hh.
  destruct b as [ | x rest]; [cbn in H; intuition discriminate | ].
  assert (P : parse_command (e_cfg (b_env bd)) (x :: rest) = Err INVALID_COMMAND).
  { cbn in H. destruct H as [<- | [<- | [<- | []]]]; reflexivity. }
  cbn [run_op]. unfold process_command, bind, lift. rewrite P. cbn. eexists. split; [reflexivity | ].
  cbn. auto.
Qed.
Print Assumptions C66_main_endpoint.

(** Where vendor commands are taken, the upgrade commands are those of Upgrade/ (properties C52 to C55) and leave what the
    authenticator stores alone. *)
Theorem C66_upgrades : forall bd t b ch,
  takes_vendor bd ch -> t_live t = true -> hd 0%N b = 0x42%N \/ hd 0%N b = 0x43%N ->
  exists t' r m, act bd t (Message b ch) = (t', Some r) /\
    Upgrade.Model.vendor_message (b_prims bd) (b_flash bd (t_n t)) (t_mem t) (b_upgrade bd) b = (m, Some r) /\
    t_mem t' = m /\ w_p (t_world t') = w_p (t_world t) /\ t_live t' = true.
Proof.
  intros bd t b ch T L H. destruct b as [ | x rest]; [cbn in H; destruct H; discriminate | ]. cbn [hd] in H.
  destruct (Upgrade.Model.vendor_message (b_prims bd) (b_flash bd (t_n t)) (t_mem t) (b_upgrade bd) (x :: rest)) as [m r] eqn:E.
  assert (R : exists y, r = Some y).
  { unfold Upgrade.Model.vendor_message in E. destruct H as [-> | ->]; cbn [N.eqb Pos.eqb] in E.
    - destruct (v <- _ ;; _) as [[[o d] h] | s] in E; [ | injection E as _ <-; eauto].
      destruct (Upgrade.Model.vendor_upgrade _ _ _ _ _ _ _) in E. injection E as _ <-. eauto.
    - destruct (b_upgrade bd); injection E as _ <-; eauto. }
  destruct R as [y ->]. exists (mkTock (snd (after_vendor_response ch (t_world t))) (t_live t) m (S (t_n t))), y, m.
  split; [ | split; [reflexivity | cbn; auto]].
  cbn [act]. unfold tock_message, vendor_command.
  assert (N : (x =? 0x40)%N = false) by (destruct H as [-> | ->]; reflexivity). rewrite N, E.
  destruct (b_hid bd) eqn:Eh; [ | reflexivity]. destruct (T Eh) as [c ->]. reflexivity.
Qed.
Print Assumptions C66_upgrades.

(** As long as it gets what it copes with, the firmware answers every message. *)
Theorem C67_answered_partial : forall bd m h b ch,
  cfg_ok (e_cfg (b_env bd)) ->
  Forall (fun x => acceptable bd (fst x)) h -> acceptable bd (Message b ch) ->
  t_live (tock_run bd m h) = true /\ exists r, snd (act bd (tock_run bd m h) (Message b ch)) = Some r.
Proof.
  intros bd m h b ch C F A.
  assert (AF : forall d, acceptable bd d -> fit bd d).
  { intros [b' ch' | b' | | | ]; cbn; auto. intros [Hb H]. split.
    - intro T. apply (H T).
    - intros lockdown [key cert] T H40 P. apply (proj2 (H T) key cert).
      apply (proj2 (parse_message_spec _ b' lockdown _ (width_ok _ C) Hb H40 P)). reflexivity. }
  assert (G : good bd (tock_run bd m h)).
  { apply run_good. eapply Forall_impl; [ | exact F]. intros x. apply AF. }
  split; [apply G | ]. apply (proj2 (act_good bd _ _ G (AF _ A)) b ch eq_refl).
Qed.
Print Assumptions C67_answered_partial.

(** But an empty message stops it for good, on every endpoint that takes vendor commands: nothing is answered any more. *)
Theorem C67_answered_refuted : forall bd m h ch h',
  takes_vendor bd ch -> t_live (tock_run bd m h) = true -> Forall (fun x => snd x = None) h' ->
  t_live (tock_run bd m (h ++ (Message [] ch, None) :: h')) = false.
Proof.
  intros bd m h ch h' T L F. rewrite tock_run_app. cbn [fold_left].
  set (t1 := tock_step bd (tock_run bd m h) (Message [] ch, None)).
  assert (D : t_live t1 = false).
  { unfold t1, tock_step. rewrite L. cbn [fst snd act]. unfold tock_message, vendor_command.
    destruct (b_hid bd) eqn:Eh; [ | reflexivity]. destruct (T Eh) as [c ->]. reflexivity. }
  clearbody t1. revert t1 D. induction F as [ | x h' Hx F IH]; intros t1 D; [exact D | ]. cbn [fold_left]. apply IH.
  unfold tock_step. rewrite Hx, D. exact D.
Qed.
Print Assumptions C67_answered_refuted.

(** ** A board *)

(** Zero is no private key. *)
Definition strict_prims : prims :=
  mkPrims (sha256 toy_prims) (hmac toy_prims) (hkdf toy_prims) (hkdf_empty_salt toy_prims) (aes_enc toy_prims) (aes_dec toy_prims)
    (ecdh_pub toy_prims) (ecdh_on_curve toy_prims) (ecdh_shared toy_prims) (fun k => negb (bytes_eqb k (repeat 0%N 32)))
    (sign toy_prims) (pub_of toy_prims).
Definition strict : env := mkEnv strict_prims toy_cfg toy_rnd (fun _ => (UpConfirmed, 1000%N)) (fun _ => None).
Definition flash0 : Upgrade.Model.mem := fun _ => 0%N.
Definition uprims0 : Upgrade.Model.uprims := Upgrade.Model.mkUprims (fun _ => []) (fun _ => true) (fun _ _ => true) (fun _ _ _ _ => true) [].
Definition board0 (hid : bool) : board := mkBoard strict hid uprims0 (fun _ _ => None) None.
Definition vendor0 : channel := VendorHid [9; 9; 9; 9]%N.
Definition main0 : channel := MainHid [1; 2; 3; 4]%N.
Definition configure_msg (lock : bool) (key : N) : bytes :=
  0x40%N :: or_nil (cbor_write (VMap ((if lock then [(VUnsigned 1, VSimple STrue)] else []) ++
    [(VUnsigned 2, VMap [(VUnsigned 1, VBytes [0xCE; 0x27]%N); (VUnsigned 2, VBytes (repeat key 32))])]))).
Definition on_vendor (b : bytes) : deed * option (nat * Upgrade.Model.mem) := (Message b vendor0, None).
Definition reply (hid : bool) (h : list (deed * option (nat * Upgrade.Model.mem))) (b : bytes) (ch : channel) : option bytes :=
  snd (act (board0 hid) (tock_run (board0 hid) flash0 h) (Message b ch)).

(** Nothing is provisioned at first; then one attestation is, and it stays although another is sent and although the device is
    reset, and power is lost. *)
Example C66_nonvacuous :
  reply true [] [0x40; 0xA0]%N vendor0 = Some [0; 0xA2; 1; 0xF4; 2; 0xF4]%N /\
  reply true [] (configure_msg false 7) vendor0 = Some [0; 0xA2; 1; 0xF5; 2; 0xF5]%N /\
  attestation (tock_run (board0 true) flash0 [on_vendor (configure_msg false 7)]) = Some (repeat 7%N 32, [0xCE; 0x27]%N) /\
  attestation (tock_run (board0 true) flash0
    [on_vendor (configure_msg false 7); (Tick 5, Some (3%nat, flash0)); (Message [7%N] main0, None); on_vendor (configure_msg false 8)]) =
    Some (repeat 7%N 32, [0xCE; 0x27]%N) /\
  reply true [on_vendor (configure_msg false 7)] (configure_msg false 8) vendor0 = Some [0; 0xA2; 1; 0xF5; 2; 0xF5]%N /\
  reply true [] (configure_msg false 7) main0 = Some [1%N] /\
  reply false [] (configure_msg false 7) main0 = Some [0; 0xA2; 1; 0xF5; 2; 0xF5]%N /\
  attestation (tock_run (board0 true) flash0 [(Message (configure_msg false 7) vendor0, Some (1%nat, flash0))]) = None /\
  attestation (tock_run (board0 true) flash0 [(Message (configure_msg false 7) vendor0, Some (0%nat, flash0))]) =
    Some (repeat 7%N 32, [0xCE; 0x27]%N).
Proof. vm_compute. repeat split; reflexivity. Qed.
Example C66_provisioned_nonvacuous :
  takes_vendor (board0 true) vendor0 /\ carries 64 (configure_msg false 7) (repeat 7%N 32) [0xCE; 0x27]%N /\
  bytes_ok (configure_msg false 7) = true /\ attestation (tock_run (board0 true) flash0 []) = None.
Proof.
  split; [intros _; eexists; reflexivity | ]. split; [ | split; vm_compute; reflexivity].
  eexists _, _. split; [eexists; split; [reflexivity | vm_compute; reflexivity] | ].
  split; [left; reflexivity | ]. split; [left; reflexivity | ]. split; [right; left; reflexivity | reflexivity].
Qed.
Example C67_answered_nonvacuous :
  Forall (fun x => acceptable (board0 true) (fst x)) [on_vendor [4%N]; (Message [] main0, None); (U2f [0; 3; 0; 0]%N, None)] /\
  reply true [on_vendor [4%N]; (Message [] main0, None); (U2f [0; 3; 0; 0]%N, None)] [0x40; 0xA0]%N vendor0 =
    Some [0; 0xA2; 1; 0xF4; 2; 0xF4]%N /\
  reply true [] [] main0 = Some [status_code MISSING_PARAMETER].
Proof.
  split; [ | split; vm_compute; reflexivity].
  constructor; [ | constructor; [ | constructor; [reflexivity | constructor]]].
  - split; [reflexivity | ]. intros _. split; [discriminate | ]. intros key cert (m & a & (rest & E & _) & _). discriminate.
  - split; [reflexivity | ]. intro T. destruct (T eq_refl) as [c E]. discriminate.
Qed.

(** The lockdown fails, but the attestation that came with the request is stored. *)
Example C66_lockdown_nonvacuous :
  demands_lock 64 (configure_msg true 7) /\
  reply true [] (configure_msg true 7) vendor0 = Some [status_code VENDOR_INTERNAL_ERROR] /\
  attestation (tock_run (board0 true) flash0 [on_vendor (configure_msg true 7)]) = Some (repeat 7%N 32, [0xCE; 0x27]%N).
Proof.
  split; [ | split; vm_compute; reflexivity].
  eexists. split; [eexists; split; [reflexivity | vm_compute; reflexivity] | ]. left. reflexivity.
Qed.

(** A key that ECDSA refuses is accepted as attestation: success is reported, the key cannot be replaced any more, and each
    registration stops the firmware, again after every power cycle. *)
Definition u2f_register_msg : bytes := [0; 1; 3; 0; 0; 0; 64]%N ++ repeat 1%N 64 ++ [0; 0]%N.
Definition h_zero : list (deed * option (nat * Upgrade.Model.mem)) := [on_vendor (configure_msg false 0)].
Definition h_register : list (deed * option (nat * Upgrade.Model.mem)) := [(U2f u2f_register_msg, None); (Touch, None); (U2f u2f_register_msg, None)].
Definition h_cycle : list (deed * option (nat * Upgrade.Model.mem)) := [(Tick 0, Some (0%nat, flash0))].
Theorem C67_usable_key_refuted : exists bd m,
  snd (act bd (tock_run bd m []) (Message (configure_msg false 0) vendor0)) = Some [0; 0xA2; 1; 0xF5; 2; 0xF5]%N /\
  t_live (tock_run bd m (h_zero ++ h_register)) = false /\
  t_live (tock_run bd m (h_zero ++ h_register ++ h_cycle)) = true /\
  t_live (tock_run bd m (h_zero ++ h_register ++ h_cycle ++ [on_vendor (configure_msg false 7)])) = true /\
  t_live (tock_run bd m (h_zero ++ h_register ++ h_cycle ++ [on_vendor (configure_msg false 7)] ++ h_register)) = false /\
  t_live (tock_run bd m ([on_vendor (configure_msg false 7)] ++ h_register)) = true.
Proof. exists (board0 true), flash0. vm_compute. repeat split; reflexivity. Qed.
Print Assumptions C67_usable_key_refuted.
