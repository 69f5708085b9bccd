(** Property theorems C06-C11 about the HID transport. *)
From Verif Require Import Base Facts Hid.Model Hid.Spec Hid.Proofs Hid.Proofs2 Hid.Proofs3.

(** C06: the sender's packets for a message of at most 7609 bytes are exactly its CTAPHID
    framing (all 64 bytes long), and longer messages are refused. *)
Theorem C06_sender_framing : forall m,
  length (m_cid m) = 4%nat ->
  ((Nlen (m_payload m) <= 7609)%N ->
     hid_packets m = Some (framing m) /\ Forall (fun p => length p = 64%nat) (framing m)) /\
  ((7609 < Nlen (m_payload m))%N -> hid_packets m = None).
Proof.
  intros m Hc. split.
  - intros H. exact (conj (packets_framing m Hc H) (framing_packets m Hc)).
  - intros H. unfold hid_packets, splitter_new, MAX_PAYLOAD.
    destruct (N.ltb_spec 7609 (Nlen (m_payload m))); [reflexivity|unfold Nlen in *; lia].
Qed.
Print Assumptions C06_sender_framing.

(** C06 and C07: feeding the sender's packets of a message to an idle receiver, in order and in
    time, with any packets of other channels in between, delivers the message exactly once, unchanged, on the last
    packet; nothing else is delivered, and the other channels only get busy errors. *)
Theorem C06_roundtrip : forall max m p0 ps t0 evs a,
  length (m_cid m) = 4%nat -> (Nlen (m_payload m) <= max)%N -> (max <= 7609)%N ->
  hid_packets m = Some (p0 :: ps) ->
  woven (m_cid m) (t0 + 100) ps evs -> idle a ->
  exists a' outs,
    feed max a ((t0, None, p0) :: evs) = (a', outs) /\ idle a' /\
    own_outputs (m_cid m) ((t0, None, p0) :: evs) outs = repeat (Ok None) (length ps) ++ [Ok (Some m)] /\
    Forall (fun co => snd co = Err (fst co, ChannelBusy))
      (foreign_outputs (m_cid m) ((t0, None, p0) :: evs) outs).
Proof.
  intros max m p0 ps t0 evs a Hc Hl Hmax Hp. rewrite packets_framing in Hp by (auto; lia).
  apply (f_equal (fun o => match o with Some x => x | None => [] end)) in Hp. cbv beta iota in Hp.
  exact (receive_message max m t0 p0 ps evs a Hc Hl Hmax Hp).
Qed.
Print Assumptions C06_roundtrip.

(** A two-packet message with a foreign packet in between meets the hypotheses. *)
Definition sample_msg : message := mkMsg [0; 0; 0; 1]%N Cbor (repeat 7%N 60).
Definition sample_foreign : packet := [0; 0; 0; 2; 0x81]%N ++ repeat 0%N 59.
Example C06_nonvacuous : exists p0 p1,
  hid_packets sample_msg = Some [p0; p1] /\
  woven (m_cid sample_msg) (5 + 100) [p1] [(10, None, sample_foreign); (80, None, p1)]%N /\
  idle asm_default.
Proof.
  eexists _, _. split; [reflexivity|]. split; [|split; reflexivity].
  apply woven_foreign; [lia|discriminate|]. apply woven_own; [lia|]. apply woven_done.
Qed.

(** C07: a packet of another channel that arrives while a message is being received leaves the receiver's state
    as it is, and is answered with a busy error. *)
Theorem C07_foreign_inert : forall max t a p,
  a_idle a = false -> (t < a_timer a)%N -> packet_chan p <> a_cid a ->
  asm_parse max t a p None = (a, Err (packet_chan p, ChannelBusy)).
Proof.
  intros max t a p Hi Ht Hc. unfold asm_parse, packet_chan in *.
  destruct (process_single_packet p) as [c pp]. cbn [fst] in *. rewrite Hi. cbn [negb andb].
  unfold is_elapsed. destruct (N.leb_spec (a_timer a) t); [lia|]. cbn [andb]. rewrite Hi.
  apply bytes_eqb_false in Hc. rewrite Hc. reflexivity.
Qed.
Print Assumptions C07_foreign_inert.

Example C07_nonvacuous :
  let a := fst (feed 7609 asm_default [(5, None, hd [] (framing sample_msg))]%N) in
  a_idle a = false /\ a_timer a = 105%N /\ packet_chan sample_foreign <> a_cid a.
Proof. cbn. repeat split. discriminate. Qed.

(** C08: in every state reachable from power-up, an idle receiver buffers nothing; otherwise
    what it has plus what it waits for is at most the maximum message size, it waits for at
    least one byte, and the sequence number is below 128, so it never wraps. *)
Theorem C08_bounds : forall max evs a outs,
  (max <= 7609)%N -> Forall ev_ok evs -> feed max asm_default evs = (a, outs) ->
  (a_idle a = true -> a_payload a = []) /\
  (Nlen (a_payload a) <= max)%N /\
  (a_idle a = false ->
     (Nlen (a_payload a) + N.of_nat (a_remaining a) <= max)%N /\ (0 < a_remaining a)%nat /\
     (a_seq a < 128)%N).
Proof. exact reachable_bounds. Qed.
Print Assumptions C08_bounds.

(** C08 and C09: whatever the history of packets, times and locks, a delivered message comes from
    one session at the end of the history: an initialization packet announcing exactly its
    length, at most the maximum, followed by the continuation packets 0, 1, 2, ... of the
    same channel, each less than 100 ms after the previous one; its payload is the data of
    these packets cut to the announced length, and nothing else was delivered meanwhile.  In
    particular no byte received before a timeout is part of it. *)
Theorem C09_provenance : forall max evs t l p a outs a' m,
  (max <= 7609)%N -> Forall ev_ok evs -> ev_ok (t, l, p) ->
  feed max asm_default evs = (a, outs) ->
  asm_parse max t a p l = (a', Ok (Some m)) ->
  provenance max (evs ++ [(t, l, p)]) outs m.
Proof. exact delivered_provenance. Qed.
Print Assumptions C09_provenance.

(** C09: once 100 ms have passed since the last packet of a message, the receiver has
    forgotten it: the next packet is treated as by a fresh receiver, except that the stale
    channel is told about the timeout. *)
Theorem C09_timeout : forall max t a p l,
  a_idle a = false -> (a_timer a <= t)%N -> ~ shut_out l (packet_chan p) ->
  asm_parse max t a p l =
  if bytes_eqb (packet_chan p) (a_cid a) then (asm_default, Err (packet_chan p, MsgTimeout))
  else asm_parse max t asm_default p l.
Proof. exact timeout_fresh. Qed.
Print Assumptions C09_timeout.

Example C09_nonvacuous :
  let p := hd [] (framing sample_msg) in
  let q := nth 1 (framing sample_msg) [] in
  let a := fst (feed 7609 asm_default [(5, None, p)]%N) in
  snd (asm_parse 7609 104 a q None) = Ok (Some sample_msg) /\
  snd (asm_parse 7609 105 a q None) = Err ([0; 0; 0; 1]%N, MsgTimeout) /\
  ev_ok (5%N, None, p) /\ ev_ok (104%N, None, q).
Proof. cbn. repeat split; reflexivity. Qed.

(** C10: as long as fewer than 2^32 - 1 channels were allocated, the channel ids handed out are pairwise
    different, and neither the reserved nor the broadcast id. *)
Theorem C10_unique : forall caps max evs h outs,
  hrun max (hid_new caps) evs = (h, outs) -> (Nlen (handed_out outs) < 2 ^ 32 - 1)%N ->
  NoDup (handed_out outs) /\
  ~ In CHANNEL_RESERVED (handed_out outs) /\ ~ In CHANNEL_BROADCAST (handed_out outs).
Proof.
  intros caps max evs h outs H. rewrite (handed_out_count _ _ _ _ _ H).
  unfold Nlen, count_from at 1. rewrite map_length, seq_length. intros Hn.
  refine (conj (count_nodup _ _) (count_special _ Hn)). lia.
Qed.
Print Assumptions C10_unique.

(** C10: a message on any channel but broadcast is passed on, or answered by anything but an error,
    only if that channel was handed out before. *)
Theorem C10_only_handed_out : forall caps max evs h outs t p d h' r,
  hrun max (hid_new caps) evs = (h, outs) -> (Nlen (handed_out outs) < 2 ^ 32 - 1)%N ->
  packet_ok p -> hid_parse max t h p d = (h', Some r) ->
  m_cmd r <> Error -> m_cid r <> CHANNEL_BROADCAST ->
  In (m_cid r) (handed_out outs) /\ m_cid r = packet_chan p.
Proof.
  intros caps max evs h outs t p d h' r H Hn Hp E He Hb.
  rewrite (handed_out_count _ _ _ _ _ H) in Hn. unfold Nlen, count_from in Hn.
  rewrite map_length, seq_length in Hn.
  exact (conj (processed_handed_out caps max evs h outs t p d h' r H ltac:(lia) Hp E He Hb)
              (parse_cid _ _ _ _ _ _ _ E)).
Qed.
Print Assumptions C10_only_handed_out.

(** C10 for the whole device: the CTAP layer is reached only from a channel allocated on that
    transport, and every response goes to the channel of the packet just received, as one
    well-formed message. *)
Theorem C10_device : forall S ctap2 ctap1 with_ctap1 max now c p t c' out,
  packet_ok p -> ctap_packet S ctap2 ctap1 with_ctap1 max now c p t = (c', out) ->
  (c_state S c' <> c_state S c ->
     is_allocated_channel
       (match t with MainHid => mh_hid (c_main S c) | VendorHid => c_vendor S c end)
       (packet_chan p) = true) /\
  (out = [] \/
   exists m, m_cid m = packet_chan p /\ (Nlen (m_payload m) <= 7609)%N /\ out = framing m).
Proof.
  intros S ctap2 ctap1 w max now c p t c' out Hp E.
  exact (conj (ctap_invoked S ctap2 ctap1 w max now c p t c' out E)
              (ctap_response S ctap2 ctap1 w max now c p t c' out Hp E)).
Qed.
Print Assumptions C10_device.

Definition init_packet : packet := [255; 255; 255; 255; 0x86; 0; 8; 1; 2; 3; 4; 5; 6; 7; 8]%N ++ repeat 0%N 49.
Definition ping_packet (c : N) : packet := [0; 0; 0; c; 0x81; 0; 1; 9]%N ++ repeat 0%N 56.
Definition lock_packet (c s : N) : packet := [0; 0; 0; c; 0x84; 0; 1; s]%N ++ repeat 0%N 56.
Example C10_nonvacuous :
  handed_out (snd (hrun 7609 (hid_new 5) [(0, init_packet, false); (1, init_packet, false)]%N))
    = [[0; 0; 0; 1]; [0; 0; 0; 2]]%N /\
  snd (hid_parse 7609 2 (fst (hrun 7609 (hid_new 5) [(0, init_packet, false)]%N)) (ping_packet 1) false)
    = Some (mkMsg [0; 0; 0; 1]%N Ping [9]%N) /\
  snd (hid_parse 7609 2 (fst (hrun 7609 (hid_new 5) [(0, init_packet, false)]%N)) (ping_packet 2) false)
    = Some (error_message [0; 0; 0; 2]%N InvalidChannel).
Proof. repeat split; reflexivity. Qed.

(** C11: while a channel holds the lock, a packet on any other channel changes nothing and
    gets a busy error (or an invalid channel error if it was never allocated). *)
Theorem C11_exclusive : forall max now h p c,
  lock_live now h c -> packet_chan p <> c ->
  hid_parse max now h p false = (h, Some (busy_response h (packet_chan p))).
Proof. exact locked_exclusive. Qed.
Print Assumptions C11_exclusive.

(** C11: a successful LOCK request for s >= 1 seconds (s <= 10) locks its channel for exactly s seconds
    unless changed by another LOCK. *)
Theorem C11_duration : forall max t h p d h' o c s,
  hid_parse max t h p d = (h', o) -> lock_request max t h p d c s -> (1 <= s)%N ->
  (s <= 10)%N /\ forall t', lock_live t' h' c <-> (t' < t + 1000 * s)%N.
Proof.
  intros max t h p d h' o c s E R Hs.
  exact (conj (proj1 (proj2 R)) (lock_lasts max t h p d h' o c s E R Hs)).
Qed.
Print Assumptions C11_duration.

(** C11: any lock in force stems from the last successful LOCK of the history, made on that
    channel, and ends at most 10 seconds after it. *)
Theorem C11_origin : forall caps max evs h outs now c,
  hrun max (hid_new caps) evs = (h, outs) -> lock_live now h c ->
  exists e1 t p d e2 h1 o1 h2 o2 s,
    evs = e1 ++ (t, p, d) :: e2 /\ hrun max (hid_new caps) e1 = (h1, o1) /\
    lock_request max t h1 p d c s /\ (1 <= s <= 10)%N /\ (now < t + 1000 * s)%N /\
    hrun max h1 ((t, p, d) :: e2) = (h2, o2) /\
    Forall (fun o => lock_reply o = false) (tl o2).
Proof.
  intros caps max evs h outs now c H HL. apply lock_live_iff in HL as [HL1 HL2].
  destruct (lock_origin _ _ _ _ _ _ H HL2) as
    (e1 & t & p & d & e2 & h1 & o1 & h2 & o2 & s & A & B & C & D & F & G & I).
  exists e1, t, p, d, e2, h1, o1, h2, o2, s. rewrite F in HL1.
  pose proof (proj1 (proj2 C)). repeat split; auto; apply C.
Qed.
Print Assumptions C11_origin.

(** C11: the lock can be changed only by a successful LOCK on the holder's own
    channel while it is in force. *)
Theorem C11_only_holder : forall max t h p d h' o c,
  lock_live t h c -> hid_parse max t h p d = (h', o) ->
  packet_chan p <> c -> packet_chan p <> CHANNEL_RESERVED ->
  forall t', lock_live t' h' c <-> lock_live t' h c.
Proof.
  intros max t h p d h' o c HL E Hc Hr t'. destruct d.
  - rewrite disabled_exclusive in E by exact Hr. injection E as <- _. reflexivity.
  - rewrite (locked_exclusive max t h p c HL Hc) in E. injection E as <- _. reflexivity.
Qed.
Print Assumptions C11_only_holder.

(** C11 across transports: a lock on one transport keeps the other from reaching the CTAP layer, and from
    changing any state. *)
Theorem C11_cross_transport : forall S ctap2 ctap1 with_ctap1 max now c p t ch c' out,
  ctap_packet S ctap2 ctap1 with_ctap1 max now c p t = (c', out) ->
  lock_live now (match t with MainHid => c_vendor S c | VendorHid => mh_hid (c_main S c) end) ch ->
  c_state S c' = c_state S c /\
  (packet_chan p <> CHANNEL_RESERVED ->
   match t with
   | MainHid => mh_hid (c_main S c') = mh_hid (c_main S c)
   | VendorHid => c_vendor S c' = c_vendor S c
   end).
Proof. exact cross_lock. Qed.
Print Assumptions C11_cross_transport.

Example C11_nonvacuous :
  let h := fst (hrun 7609 (hid_new 5) [(0, init_packet, false); (1, init_packet, false);
                                       (2, lock_packet 1 3, false)]%N) in
  lock_live 3001 h [0; 0; 0; 1]%N /\ ~ lock_live 3002 h [0; 0; 0; 1]%N /\
  snd (hid_parse 7609 100 h (ping_packet 2) false) = Some (error_message [0; 0; 0; 2]%N ChannelBusy) /\
  lock_request 7609 2 (fst (hrun 7609 (hid_new 5) [(0, init_packet, false); (1, init_packet, false)]%N))
    (lock_packet 1 3) false [0; 0; 0; 1]%N 3.
Proof.
  cbv zeta. split; [vm_compute; reflexivity|]. split; [vm_compute; discriminate|].
  split; [vm_compute; reflexivity|]. split; [vm_compute; reflexivity|].
  split; [lia|]. split; [vm_compute; reflexivity|discriminate].
Qed.

(** C53: the device winks at time t' only if it was asked to by a WINK message on the main
    transport less than 5 seconds before. *)
Theorem C53_wink : forall S ctap2 ctap1 with_ctap1 max now c p t c' out t',
  packet_ok p -> ctap_packet S ctap2 ctap1 with_ctap1 max now c p t = (c', out) ->
  should_wink t' (c_main S c') = true ->
  should_wink t' (c_main S c) = true \/
  (t = MainHid /\ (t' < now + 5000)%N /\ out = framing (mkMsg (packet_chan p) Wink [])).
Proof. exact wink_step. Qed.
Print Assumptions C53_wink.
