From Verif Require Import Base Facts Hid.Model Hid.Spec Hid.Proofs Hid.Proofs2.

(** The reply messages that a transport may send for a packet. *)
Definition fits (m : message) : message :=
  if (Nlen (m_payload m) <=? 7609)%N then m
  else mkMsg (m_cid m) Cbor [VENDOR_INTERNAL_ERROR].

Lemma split_framing m : length (m_cid m) = 4%nat -> split_message m = framing (fits m).
Proof.
  intros Hc. unfold split_message, fits.
  destruct (N.leb_spec (Nlen (m_payload m)) 7609).
  - rewrite packets_framing by assumption. reflexivity.
  - unfold hid_packets at 1, splitter_new, MAX_PAYLOAD.
    destruct (N.ltb_spec 7609 (Nlen (m_payload m))); [|unfold Nlen in *; lia].
    rewrite packets_framing; [reflexivity|exact Hc|cbn; lia].
Qed.

Section T.
Variable S : Type.
Variable ctap2 : N -> S -> bytes -> channel -> S * bytes.
Variable ctap1 : N -> S -> bytes -> S * bytes.
Variable with_ctap1 : bool.

Lemma main_process_cid now w m w' r k :
  main_process S ctap2 ctap1 with_ctap1 now w m = (w', r, k) -> m_cid r = m_cid m.
Proof.
  unfold main_process. destruct (m_cmd m); try (intros E; injection E as _ <- _; reflexivity).
  - destruct with_ctap1; [destruct (ctap1 now w (m_payload m))|]; intros E; injection E as _ <- _; reflexivity.
  - destruct (m_payload m); intros E; injection E as _ <- _; reflexivity.
  - destruct (ctap2 now w (m_payload m) _); intros E; injection E as _ <- _; reflexivity.
Qed.

Lemma vendor_process_cid now w m w' r :
  vendor_process S ctap2 now w m = (w', r) -> m_cid r = m_cid m.
Proof.
  unfold vendor_process. destruct (m_cmd m); try (intros E; injection E as _ <-; reflexivity).
  destruct (ctap2 now w (m_payload m) _); intros E; injection E as _ <-; reflexivity.
Qed.

Lemma ctap_response max now c p t c' out : packet_ok p ->
  ctap_packet S ctap2 ctap1 with_ctap1 max now c p t = (c', out) ->
  out = [] \/ exists m, m_cid m = packet_chan p /\ (Nlen (m_payload m) <= 7609)%N /\ out = framing m.
Proof.
  intros Hp. pose proof (psp_chan_ok p Hp) as [Hc _].
  assert (Hfit : forall r, m_cid r = packet_chan p ->
    exists m, m_cid m = packet_chan p /\ (Nlen (m_payload m) <= 7609)%N /\ split_message r = framing m).
  { intros r Hr. exists (fits r). rewrite split_framing by congruence. unfold fits.
    destruct (N.leb_spec (Nlen (m_payload r)) 7609); cbn [m_cid m_payload]; repeat split; auto.
    unfold Nlen; cbn; lia. }
  unfold ctap_packet. destruct t.
  - destruct (has_channel_lock now (c_vendor S c)) as [v dis]. unfold main_packet.
    destruct (hid_parse max now _ p dis) as [h [m|]] eqn:E.
    + destruct (main_process _ _ _ _ _ _ _) as [[w r] k] eqn:E2. intros P. injection P as _ <-. right.
      apply Hfit. apply main_process_cid in E2. apply parse_cid in E. congruence.
    + intros P. injection P as _ <-. left. reflexivity.
  - destruct (has_channel_lock now (mh_hid (c_main S c))) as [v dis]. unfold vendor_packet.
    destruct (hid_parse max now _ p dis) as [h [m|]] eqn:E.
    + destruct (vendor_process _ _ _ _ _) as [w r] eqn:E2. intros P. injection P as _ <-. right.
      apply Hfit. apply vendor_process_cid in E2. apply parse_cid in E. congruence.
    + intros P. injection P as _ <-. left. reflexivity.
Qed.

(** The CTAP layer runs only for packets on a channel allocated on their transport. *)
Lemma ctap_invoked max now c p t c' out :
  ctap_packet S ctap2 ctap1 with_ctap1 max now c p t = (c', out) ->
  c_state S c' <> c_state S c ->
  is_allocated_channel (match t with MainHid => mh_hid (c_main S c) | VendorHid => c_vendor S c end)
    (packet_chan p) = true.
Proof.
  unfold ctap_packet. destruct t.
  - destruct (has_channel_lock now (c_vendor S c)) as [v dis]. unfold main_packet.
    destruct (hid_parse max now _ p dis) as [h [m|]] eqn:E.
    + destruct (main_process _ _ _ _ _ _ _) as [[w r] k] eqn:E2. intros P. injection P as <- _. cbn.
      intros Hw. pose proof (parse_cid _ _ _ _ _ _ _ E) as Hc. rewrite <- Hc.
      assert (Hm : m_cmd m = Msg \/ m_cmd m = Cbor).
      { unfold main_process in E2. destruct (m_cmd m); auto; try (injection E2 as <- _ _; congruence).
        destruct (m_payload m); injection E2 as <- _ _; congruence. }
      eapply parse_valid; [exact E|destruct Hm; congruence|]. intros Hb.
      (* a broadcast message is INIT *)
      revert E. unfold hid_parse. destruct (if dis then _ else _) as [h0 lk].
      destruct (asm_parse _ _ _ _ _) as [a [[m0|]|[ch e]]] eqn:Ea; [| discriminate |].
      * intros E. pose proof (preprocess_cid _ _ _ _ _ E) as Hcid.
        destruct (preprocess_valid _ _ _ _ _ E) as [Hv Hcm]; [destruct Hm; congruence|].
        unfold has_valid_channel in Hv. rewrite <- Hcid, Hb in Hv.
        change (bytes_eqb CHANNEL_BROADCAST CHANNEL_BROADCAST) with true in Hv. cbv iota in Hv.
        apply cmd_eqb_eq in Hv. destruct Hm; congruence.
      * destruct e; try discriminate; destruct (negb _); intros E; injection E as _ <-;
        cbn in Hm; destruct Hm; discriminate.
    + intros P. injection P as <- _. cbn. congruence.
  - destruct (has_channel_lock now (mh_hid (c_main S c))) as [v dis]. unfold vendor_packet.
    destruct (hid_parse max now _ p dis) as [h [m|]] eqn:E.
    + destruct (vendor_process _ _ _ _ _) as [w r] eqn:E2. intros P. injection P as <- _. cbn.
      intros Hw. pose proof (parse_cid _ _ _ _ _ _ _ E) as Hc. rewrite <- Hc.
      assert (Hm : m_cmd m = Cbor).
      { unfold vendor_process in E2. destruct (m_cmd m); auto; injection E2 as <- _; congruence. }
      eapply parse_valid; [exact E|congruence|]. intros Hb.
      revert E. unfold hid_parse. destruct (if dis then _ else _) as [h0 lk].
      destruct (asm_parse _ _ _ _ _) as [a [[m0|]|[ch e]]] eqn:Ea; [| discriminate |].
      * intros E. pose proof (preprocess_cid _ _ _ _ _ E) as Hcid.
        destruct (preprocess_valid _ _ _ _ _ E) as [Hv Hcm]; [congruence|].
        unfold has_valid_channel in Hv. rewrite <- Hcid, Hb in Hv.
        change (bytes_eqb CHANNEL_BROADCAST CHANNEL_BROADCAST) with true in Hv. cbv iota in Hv.
        apply cmd_eqb_eq in Hv. congruence.
      * destruct e; try discriminate; destruct (negb _); intros E; injection E as _ <-;
        cbn in Hm; discriminate.
    + intros P. injection P as <- _. cbn. congruence.
Qed.

(** A lock on one transport keeps the other transport from doing anything. *)
Lemma cross_lock max now c p t ch c' out :
  ctap_packet S ctap2 ctap1 with_ctap1 max now c p t = (c', out) ->
  lock_live now (match t with MainHid => c_vendor S c | VendorHid => mh_hid (c_main S c) end) ch ->
  c_state S c' = c_state S c /\
  (packet_chan p <> CHANNEL_RESERVED ->
   match t with
   | MainHid => mh_hid (c_main S c') = mh_hid (c_main S c)
   | VendorHid => c_vendor S c' = c_vendor S c
   end).
Proof.
  unfold ctap_packet. destruct t; intros E HL.
  - unfold has_channel_lock in E. unfold lock_live in HL.
    destruct (locked_channel now (c_vendor S c)) as [v l]. cbn [snd] in HL. subst l.
    unfold main_packet in E.
    destruct (bytes_eqb (packet_chan p) CHANNEL_RESERVED) eqn:Er.
    + apply bytes_eqb_spec in Er.
      destruct (hid_parse max now (mh_hid (c_main S c)) p true) as [h o] eqn:Eh.
      pose proof (reserved_inert _ _ _ _ _ _ _ Er Eh) as ([Ho|Ho] & _); subst o; cbn in E;
      injection E as <- _; cbn; split; congruence.
    + apply bytes_eqb_false in Er. rewrite disabled_exclusive in E by exact Er.
      unfold busy_response in E. cbn in E. injection E as <- _. cbn. split; congruence.
  - unfold has_channel_lock in E. unfold lock_live in HL.
    destruct (locked_channel now (mh_hid (c_main S c))) as [v l]. cbn [snd] in HL. subst l.
    unfold vendor_packet in E.
    destruct (bytes_eqb (packet_chan p) CHANNEL_RESERVED) eqn:Er.
    + apply bytes_eqb_spec in Er.
      destruct (hid_parse max now (c_vendor S c) p true) as [h o] eqn:Eh.
      pose proof (reserved_inert _ _ _ _ _ _ _ Er Eh) as ([Ho|Ho] & _); subst o; cbn in E;
      injection E as <- _; cbn; split; congruence.
    + apply bytes_eqb_false in Er. rewrite disabled_exclusive in E by exact Er.
      unfold busy_response in E. cbn in E. injection E as <- _. cbn. split; congruence.
Qed.

(** Winking: granted only by a WINK message on the main transport, for at most 5 seconds, and
    stopped by any other message. *)
Lemma wink_step max now c p t c' out t' : packet_ok p ->
  ctap_packet S ctap2 ctap1 with_ctap1 max now c p t = (c', out) ->
  should_wink t' (c_main S c') = true ->
  should_wink t' (c_main S c) = true \/
  (t = MainHid /\ (t' < now + 5000)%N /\ out = framing (mkMsg (packet_chan p) Wink [])).
Proof.
  intros Hp. pose proof (psp_chan_ok p Hp) as [Hc4 _].
  unfold ctap_packet. destruct t; intros E Hw.
  - destruct (has_channel_lock now (c_vendor S c)) as [v dis]. unfold main_packet in E.
    destruct (hid_parse max now (mh_hid (c_main S c)) p dis) as [h [m|]] eqn:Eh.
    2: { injection E as <- _. cbn in Hw. left. exact Hw. }
    pose proof (parse_cid _ _ _ _ _ _ _ Eh) as Hc.
    destruct (main_process _ _ _ _ now (c_state S c) m) as [[w r] k] eqn:Em.
    injection E as <- <-. unfold should_wink in Hw. cbn [mh_wink c_main] in Hw.
    assert (Hk : k = timer_default \/ (m_cmd m = Wink /\ m_payload m = [] /\ r = m /\ k = (now + 5000)%N)).
    { revert Em. unfold main_process. destruct (m_cmd m).
      all: try (destruct with_ctap1; [destruct (ctap1 now (c_state S c) (m_payload m))|]).
      all: try (destruct (ctap2 now (c_state S c) (m_payload m) _)).
      all: try (destruct (m_payload m) eqn:Ep).
      all: intros E; injection E as _ <- <-; auto. }
    destruct Hk as [-> | (Hk1 & Hk2 & -> & ->)].
    { unfold is_elapsed, timer_default in Hw. destruct (N.leb_spec 0 t'); [discriminate|lia]. }
    right. unfold is_elapsed in Hw. destruct (N.leb_spec (now + 5000) t'); [discriminate|].
    split; [reflexivity|]. split; [assumption|].
    assert (Hm : m = mkMsg (packet_chan p) Wink []) by (destruct m; cbn in *; subst; reflexivity).
    rewrite <- Hm. unfold split_message.
    rewrite packets_framing; [reflexivity|congruence|rewrite Hk2; cbn; lia].
  - destruct (has_channel_lock now (mh_hid (c_main S c))) as [h dis].
    destruct (vendor_packet _ _ max now _ _ p dis) as [[v w] o]. injection E as <- _.
    left. exact Hw.
Qed.
End T.
