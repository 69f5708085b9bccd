(** Properties C64 and C65: the device as a whole, from packets to packets. *)
From Verif Require Import Base Facts.
From Verif Require Hid.Model Hid.Spec Hid.Proofs Hid.Proofs2 Hid.Proofs3 U2f.Model Ctap.Machine Ctap.Commands Ctap.Parse Ctap.System Ctap.Toy Device.Wait.
From Verif Require Import Device.Loop Device.Spec Device.Proofs Device.Exchange.
Import Hid.Model Hid.Spec Hid.Proofs Hid.Proofs2 Hid.Proofs3 Ctap.Machine Ctap.Commands Ctap.Parse Ctap.System.
Import Device.Loop Device.Spec Device.Proofs Device.Exchange.
From Coq Require Import List Lia ZArith.
Import ListNotations.
Open Scope list_scope.

(** ** C64: every reply answers the last packet *)

(** From power-up, whatever the host, the user and the power do, what is seen on the wire is a sequence of exchanges: a packet
    comes in, and then nothing or one well-formed message for the channel of that packet goes out on the same endpoint, complete
    unless the host does not take a packet or power is lost.  Replies are never mixed, and nothing is sent unasked. *)
Theorem C64_conversation : forall e hook w evs, Forall event_ok evs ->
  exists xs cur rest, snd (live e hook (device_new w) evs) = concat xs ++ cur /\ Forall exchange xs /\ finished (cur ++ rest).
Proof.
  intros e hook w evs I. pose proof (talk_live e hook evs (device_new w) [] I) as T.
  apply (talk_prefix (fst (live e hook (device_new w) evs))). apply T. exact (talk_new w [] (Forall_nil _)).
Qed.
Print Assumptions C64_conversation.

(** Nothing is received before the last reply is sent or given up: an iteration that receives finds nothing left to send. *)
Theorem C64_one_at_a_time : forall e hook d x d' o t p now, iterate e hook d x = (d', o) -> In (Got t p now) o ->
  d_main d = [] /\ d_vendor d = [].
Proof.
  intros e hook d x d' o t p now H G. pose proof (gots_le1 e hook d x d' o H) as L.
  assert (Gi : In (t, p, now) (gots o)) by (apply in_flat_map; exists (Got t p now); split; [exact G|left; reflexivity]).
  destruct (gots o) as [|g [|? ?]] eqn:E; [destruct Gi| |cbn in L; lia].
  destruct (iterate_got e hook d x d' o g H E) as (_ & _ & _ & _ & _ & _ & Q & _). exact Q.
Qed.
Print Assumptions C64_one_at_a_time.

(** A host that takes the packets gets the whole reply. *)
Theorem C64_complete : forall e hook d q xs, d_live d = true -> d_main d = q -> length xs = length q -> Forall (fun x => i_usb x = USent) xs ->
  snd (live e hook d (map Go xs)) = map (Sent Hid.Model.MainHid) q.
Proof. intros e hook d q xs. exact (send_all_main e hook q d xs). Qed.
Print Assumptions C64_complete.

(** ** C65: the authenticator sees the requests that were sent, and its responses are what comes back *)

(** The state of the authenticator is that of a history of requests, ticks, touches and power losses; every request in it was
    completed by a packet received on its channel and endpoint, and it has no more touches and time than the user and the clock
    gave.  So what holds for all histories holds of devices. *)
Theorem C65_history : forall e hook evs, cfg_ok (e_cfg e) -> Forall event_ok evs ->
  let '(d, tr) := live e hook (device_new (start e)) evs in
  exists h, (d_world d = run e h /\ story tr h) /\ (touches h <= presses evs)%nat /\ (ticks h <= elapsed evs)%N.
Proof.
  intros e hook evs C I. pose proof (accounted_live e hook (proj2 (ok_msg _ C)) evs (device_new (start e)) [] 0 0 I) as A.
  destruct (live e hook (device_new (start e)) evs) as [d tr]. cbn [fst snd app] in A.
  destruct A as (_ & h & H); [|exists h; exact H].
  split; [|exists []; split; [split; [reflexivity|constructor]|split; cbn; lia]].
  intros t. exists []. split; [constructor|]. split; [destruct t; reflexivity|reflexivity].
Qed.
Print Assumptions C65_history.

(** An allocated channel of the main endpoint, no message half received, no lock, nothing left to send. *)
Definition ready (d : device) (cid : chan) : Prop :=
  is_allocated_channel (mh_hid (c_main _ (d_ctap d))) cid = true /\ cid <> CHANNEL_BROADCAST /\ length cid = 4%nat /\
  idle (h_asm (mh_hid (c_main _ (d_ctap d)))) /\ unlocked d.

Lemma live_app e hook a : forall d b, live e hook d (a ++ b) =
  let '(d1, o1) := live e hook d a in let '(d2, o2) := live e hook d1 b in (d2, o1 ++ o2).
Proof.
  induction a as [|ev a IH]; intros d b; cbn [app live]; [destruct (live e hook d b); reflexivity|].
  destruct (live1 e hook d ev) as [d1 o1]. rewrite IH. destruct (live e hook d1 a) as [d2 o2]. destruct (live e hook d2 b) as [d3 o3].
  now rewrite app_assoc.
Qed.
Lemma woven_none c d ps evs : woven c d ps evs -> Forall (fun ev : Hid.Spec.event => snd (fst ev) = None) evs.
Proof. induction 1; constructor; auto. Qed.

(** A request of a client, cut into packets that arrive each within 100 ms of the one before, with packets of other channels in
    between, after any life of the device: the authenticator processes the request, once, in the state that its history led to;
    and the packets that the client then reads are those of the response. *)
Theorem C65_exchange : forall e hook life cid b evs x xs t0 p0 ps wv,
  cfg_ok (e_cfg e) -> Forall event_ok life -> Forall event_ok evs -> Forall powered evs -> input_ok x ->
  let d0 := fst (live e hook (device_new (start e)) life) in
  let d1 := fst (live e hook d0 evs) in
  let d2 := fst (iterate e hook d1 x) in
  ready d0 cid -> (Nlen b <= c_max_msg (e_cfg e))%N ->
  framing (mkMsg cid Cbor b) = p0 :: ps -> woven cid (t0 + 100) ps wv ->
  gots (snd (live e hook d0 (evs ++ [Go x]))) = map (fun ev => (Hid.Model.MainHid, snd ev, fst (fst ev))) ((t0, None, p0) :: wv) ->
  length (gots (snd (iterate e hook d1 x))) = 1%nat ->
  exists h r w2,
    story (snd (live e hook (device_new (start e)) (life ++ evs))) h /\
    run_op e (OpMessage b (Ctap.Machine.MainHid cid)) (run e h) = (OutCtap r, w2) /\
    (hook (run e h) b (Ctap.Machine.MainHid cid) = None ->
     d_world d2 = w2 /\
     forall y, response_bytes (e_cfg e) r = Some y -> (Nlen y <= 7609)%N ->
       d_live d2 = true /\
       (length xs = length (framing (mkMsg cid Cbor y)) -> Forall (fun x => i_usb x = USent) xs ->
        snd (live e hook d2 (map Go xs)) = map (Sent Hid.Model.MainHid) (framing (mkMsg cid Cbor y)))).
Proof.
  intros e hook life cid b evs x xs t0 p0 ps wv C I0 I P Ix d0 d1 d2 (Al & Br & Lc & Id & Un) Lb F W G G1.
  pose proof (eq_refl : d2 = fst (iterate e hook d1 x)) as D2. clearbody d2.
  pose proof (eq_refl : d1 = fst (live e hook d0 evs)) as D1. clearbody d1.
  pose proof (eq_refl : d0 = fst (live e hook (device_new (start e)) life)) as D0. clearbody d0.
  destruct (receive_last (c_max_msg (e_cfg e)) (mkMsg cid Cbor b) t0 p0 ps wv _ Lc Lb (proj2 (ok_msg _ C)) F W Id) as (pre & t & p & outs & a1 & a2 & E & Fe & D & As & Ia).
  rewrite live_app in G. destruct (live e hook d0 evs) as [d1' o1] eqn:E1. cbn [live live1] in G.
  destruct (iterate e hook d1' x) as [d2' o2] eqn:E2. cbn [snd] in G. rewrite app_nil_r in G. unfold gots in G. rewrite flat_map_app in G. fold (gots o1) (gots o2) in G.
  cbn [fst] in D1. subst d1'. rewrite E2 in D2, G1. cbn [fst snd] in D2, G1. subst d2'.
  rewrite E, map_app in G. cbn [map fst snd] in G. destruct (gots o2) as [|g [|? ?]] eqn:Eg; try discriminate G1.
  apply app_inj_tail in G. destruct G as (G & ->).
  assert (NL : Forall (fun ev : Hid.Spec.event => snd (fst ev) = None) ((t0, None, p0) :: wv)) by (constructor; [reflexivity|eapply woven_none; exact W]).
  rewrite E in NL. apply Forall_app in NL. destruct NL as (NL & _).
  pose proof (before_last e hook evs d0 pre a1 outs P Un) as B. rewrite E1 in B. cbn [fst snd] in B. destruct (B G NL Fe D) as (U1 & A1 & Al1). clear B.
  destruct (iterate_got e hook _ _ _ _ _ E2 Eg) as (n9 & q9 & t9 & _ & _ & _ & _ & Eg' & Eo & _). injection Eg' as <- <- Et. rewrite <- Et in Eo.
  subst o2. rewrite <- A1 in As.
  destruct (at_last e hook d1 x d2 t p t _ _ E2 eq_refl U1 As eq_refl) as (ops & Bi & Enow & Lv & Ct); [|exact Br|].
  { unfold is_allocated_channel in *. rewrite Al1. exact Al. }
  cbn [m_cid m_payload] in Ct. pose proof (C65_history e hook (life ++ evs) C) as H. rewrite live_app in *.
  destruct (live e hook (device_new (start e)) life) as [d0' o0] eqn:E0. cbn [fst] in D0. subst d0'. rewrite E1 in *.
  destruct H as (h & (Hw & St) & _); [apply Forall_app; auto|].
  exists (h ++ map (fun o => (o, None)) ops).
  assert (Hw1 : run e (h ++ map (fun o => (o, None)) ops) = runs e ops (d_world d1)).
  { unfold run. rewrite fold_left_app, run_ops. fold (run e h). now rewrite <- Hw. }
  rewrite Hw1. destruct (run_op e (OpMessage b (Ctap.Machine.MainHid cid)) (runs e ops (d_world d1))) as [oc w2] eqn:Er.
  assert (Or : exists r, oc = OutCtap r).
  { cbn [run_op] in Er. destruct (process_command e b (Ctap.Machine.MainHid cid) (runs e ops (d_world d1))) as [r w']. injection Er as <- _. eauto. }
  destruct Or as (r & ->). exists r, w2. split; [apply story_ops; assumption|]. split; [reflexivity|].
  intros Hk. unfold ctap2 in Ct. cbn [channel_of] in Ct. rewrite Hk, Er in Ct.
  destruct (response_bytes (e_cfg e) r) as [y|] eqn:Ey; destruct Ct as (Cw & Cl & Cm & Cv); cbn [fst snd] in *; (split; [exact Cw|]); intros y' Hy Ly; [|discriminate Hy].
  injection Hy as <-. split; [exact Cl|]. intros Lx S.
  assert (Hf : d_main d2 = framing (mkMsg cid Cbor y)).
  { rewrite Cm, split_framing by exact Lc. unfold fits. cbn [m_payload m_cid]. destruct (N.leb_spec (Nlen y) 7609); [reflexivity|lia]. }
  rewrite <- Hf in Lx |- *. exact (send_all_main e hook _ d2 xs Cl eq_refl Lx S).
Qed.
Print Assumptions C65_exchange.

(** The same for a CTAP1 message: what comes back is the response with status 9000, or the status word of the error. *)
Definition u2f_reply (r : res U2f.Model.sw bytes) (y : bytes) : Prop :=
  match r with
  | Ok z => y = z ++ [0x90; 0x00]%N
  | Err x => x <> U2f.Model.SW_PANIC /\ y = [sw_word x / 256; sw_word x mod 256]%N
  end.
Theorem C65_u2f : forall e hook life cid b evs x xs t0 p0 ps wv,
  cfg_ok (e_cfg e) -> Forall event_ok life -> Forall event_ok evs -> Forall powered evs -> input_ok x ->
  let d0 := fst (live e hook (device_new (start e)) life) in
  let d1 := fst (live e hook d0 evs) in
  let d2 := fst (iterate e hook d1 x) in
  ready d0 cid -> (Nlen b <= c_max_msg (e_cfg e))%N ->
  framing (mkMsg cid Msg b) = p0 :: ps -> woven cid (t0 + 100) ps wv ->
  gots (snd (live e hook d0 (evs ++ [Go x]))) = map (fun ev => (Hid.Model.MainHid, snd ev, fst (fst ev))) ((t0, None, p0) :: wv) ->
  length (gots (snd (iterate e hook d1 x))) = 1%nat ->
  exists h r w2,
    story (snd (live e hook (device_new (start e)) (life ++ evs))) h /\
    run_op e (OpU2f b) (run e h) = (OutU2f r, w2) /\ d_world d2 = w2 /\
    forall y, u2f_reply r y -> (Nlen y <= 7609)%N ->
      d_live d2 = true /\
      (length xs = length (framing (mkMsg cid Msg y)) -> Forall (fun x => i_usb x = USent) xs ->
       snd (live e hook d2 (map Go xs)) = map (Sent Hid.Model.MainHid) (framing (mkMsg cid Msg y))).
Proof.
  intros e hook life cid b evs x xs t0 p0 ps wv C I0 I P Ix d0 d1 d2 (Al & Br & Lc & Id & Un) Lb F W G G1.
  pose proof (eq_refl : d2 = fst (iterate e hook d1 x)) as D2. clearbody d2.
  pose proof (eq_refl : d1 = fst (live e hook d0 evs)) as D1. clearbody d1.
  pose proof (eq_refl : d0 = fst (live e hook (device_new (start e)) life)) as D0. clearbody d0.
  destruct (receive_last (c_max_msg (e_cfg e)) (mkMsg cid Msg b) t0 p0 ps wv _ Lc Lb (proj2 (ok_msg _ C)) F W Id) as (pre & t & p & outs & a1 & a2 & E & Fe & D & As & Ia).
  rewrite live_app in G. destruct (live e hook d0 evs) as [d1' o1] eqn:E1. cbn [live live1] in G.
  destruct (iterate e hook d1' x) as [d2' o2] eqn:E2. cbn [snd] in G. rewrite app_nil_r in G. unfold gots in G. rewrite flat_map_app in G. fold (gots o1) (gots o2) in G.
  cbn [fst] in D1. subst d1'. rewrite E2 in D2, G1. cbn [fst snd] in D2, G1. subst d2'.
  rewrite E, map_app in G. cbn [map fst snd] in G. destruct (gots o2) as [|g [|? ?]] eqn:Eg; try discriminate G1.
  apply app_inj_tail in G. destruct G as (G & ->).
  assert (NL : Forall (fun ev : Hid.Spec.event => snd (fst ev) = None) ((t0, None, p0) :: wv)) by (constructor; [reflexivity|eapply woven_none; exact W]).
  rewrite E in NL. apply Forall_app in NL. destruct NL as (NL & _).
  pose proof (before_last e hook evs d0 pre a1 outs P Un) as B. rewrite E1 in B. cbn [fst snd] in B. destruct (B G NL Fe D) as (U1 & A1 & Al1). clear B.
  destruct (iterate_got e hook _ _ _ _ _ E2 Eg) as (n9 & q9 & t9 & _ & _ & _ & _ & Eg' & Eo & _). injection Eg' as <- <- Et. rewrite <- Et in Eo.
  subst o2. rewrite <- A1 in As.
  destruct (at_last_u2f e hook d1 x d2 t p t _ _ E2 eq_refl U1 As eq_refl) as (ops & Bi & Enow & Lv & Ct); [|exact Br|].
  { unfold is_allocated_channel in *. rewrite Al1. exact Al. }
  cbn [m_cid m_payload] in Ct. pose proof (C65_history e hook (life ++ evs) C) as H. rewrite live_app in *.
  destruct (live e hook (device_new (start e)) life) as [d0' o0] eqn:E0. cbn [fst] in D0. subst d0'. rewrite E1 in *.
  destruct H as (h & (Hw & St) & _); [apply Forall_app; auto|].
  exists (h ++ map (fun o => (o, None)) ops).
  assert (Hw1 : run e (h ++ map (fun o => (o, None)) ops) = runs e ops (d_world d1)).
  { unfold run. rewrite fold_left_app, run_ops. fold (run e h). now rewrite <- Hw. }
  rewrite Hw1. destruct (run_op e (OpU2f b) (runs e ops (d_world d1))) as [oc w2] eqn:Er.
  assert (Or : exists r, oc = OutU2f r).
  { cbn [run_op] in Er. destruct (u2f_process e b (runs e ops (d_world d1))) as [r w']. injection Er as <- _. eauto. }
  destruct Or as (r & ->). exists r, w2. split; [apply story_ops; assumption|]. split; [reflexivity|].
  unfold ctap1 in Ct. rewrite Er in Ct.
  assert (Q : d_world d2 = w2 /\ forall y, u2f_reply r y -> d_live d2 = true /\ d_main d2 = split_message (mkMsg cid Msg y)).
  { destruct r as [z|[]]; destruct Ct as (Cw & Cl & Cm & _); cbn [fst snd] in Cw, Cl; (split; [exact Cw|]); intros y Hy; cbn [u2f_reply] in Hy;
      try (subst y; auto; fail); destruct Hy as (Np & ->); try (destruct (Np eq_refl)); split; try exact Cl; exact Cm. }
  destruct Q as (Q1 & Q2). split; [exact Q1|]. intros y Hy Ly. destruct (Q2 y Hy) as (Cl & Cm). split; [exact Cl|]. intros Lx S.
  assert (Hf : d_main d2 = framing (mkMsg cid Msg y)).
  { rewrite Cm, split_framing by exact Lc. unfold fits. cbn [m_payload m_cid]. destruct (N.leb_spec (Nlen y) 7609); [reflexivity|lia]. }
  rewrite <- Hf in Lx |- *. exact (send_all_main e hook _ d2 xs Cl eq_refl Lx S).
Qed.
Print Assumptions C65_u2f.

(** INIT: an idle device gives a client that asks on the broadcast channel the next channel, and says what the endpoint can do: the
    main one CBOR, WINK and CTAP1 messages; the vendor one CBOR, but neither of the others (CTAP 2.1, section 11.2.9.1.3). *)
Definition CAPABILITY_WINK : N := 1.
Definition CAPABILITY_CBOR : N := 4.
Definition CAPABILITY_NMSG : N := 8.
Definition capabilities (t : Hid.Model.transport) : N :=
  match t with
  | Hid.Model.MainHid => CAPABILITY_WINK + CAPABILITY_CBOR
  | Hid.Model.VendorHid => CAPABILITY_CBOR + CAPABILITY_NMSG
  end.
Theorem C65_init : forall e hook w life t x d' p now nonce, cfg_ok (e_cfg e) ->
  let d := fst (live e hook (device_new w) life) in
  iterate e hook d x = (d', [Got t p now]) ->
  p = hd [] (framing (mkMsg [255; 255; 255; 255]%N Init nonce)) -> length nonce = 8%nat ->
  unlocked d -> idle (h_asm (chid t (d_ctap d))) -> (h_allocated (chid t (d_ctap d)) + 2 < 2 ^ 32)%N ->
  let cid := be_bytes 4 (h_allocated (chid t (d_ctap d)) + 1) in
  queue t d' = framing (mkMsg [255; 255; 255; 255]%N Init (nonce ++ cid ++ [2; 1; 0; 0; capabilities t]%N)) /\
  queue (other t) d' = [] /\ d_live d' = true /\ unlocked d' /\ idle (h_asm (chid t (d_ctap d'))) /\
  is_allocated_channel (chid t (d_ctap d')) cid = true /\ is_allocated_channel (chid t (d_ctap d)) cid = false /\
  cid <> [255; 255; 255; 255]%N.
Proof.
  intros e hook w life t x d' p now nonce C d E Ep Ln Un Id Al cid.
  assert (Cp : capable d) by (apply capable_live; split; reflexivity). clearbody d.
  assert (L8 : Nlen nonce = 8%N) by (unfold Nlen; rewrite Ln; reflexivity).
  assert (A : asm_parse (c_max_msg (e_cfg e)) now (h_asm (chid t (d_ctap d))) p None =
    (mkAsm true CHANNEL_BROADCAST (now + 100)%N (cmd_code Init) 0%N 8 [], Ok (Some (mkMsg CHANNEL_BROADCAST Init nonce)))).
  { rewrite Ep. change [255; 255; 255; 255]%N with CHANNEL_BROADCAST.
    rewrite (start_own (c_max_msg (e_cfg e)) (mkMsg CHANNEL_BROADCAST Init nonce)).
    - cbn [m_payload m_cid m_cmd]. rewrite Ln. reflexivity.
    - reflexivity.
    - cbn [m_payload]. rewrite L8. pose proof (ok_msg _ C). lia.
    - cbn [m_payload]. rewrite L8. lia.
    - exact Id. }
  destruct (at_init e hook d x d' t p now nonce _ E Un A Ln) as (Q & Qo & Ha & Hs & Un' & Lv). cbv zeta in Q.
  assert (M : ((h_allocated (chid t (d_ctap d)) + 1) mod 2 ^ 32 = h_allocated (chid t (d_ctap d)) + 1)%N) by (apply N.mod_small; clear - Al; lia).
  rewrite M in Q. fold cid in Q.
  assert (Lc : length cid = 4%nat) by (unfold cid; apply be_bytes_length).
  assert (Vc : of_be cid = (h_allocated (chid t (d_ctap d)) + 1)%N).
  { unfold cid. rewrite of_be_be_bytes. change (256 ^ N.of_nat 4)%N with (2 ^ 32)%N. exact M. }
  assert (Nr : cid <> CHANNEL_RESERVED) by (intros R; rewrite R in Vc; change (of_be CHANNEL_RESERVED) with 0%N in Vc; clear - Vc; lia).
  assert (Nb : cid <> CHANNEL_BROADCAST) by (intros R; rewrite R in Vc; change (of_be CHANNEL_BROADCAST) with 4294967295%N in Vc; clear - Vc Al; lia).
  split.
  { rewrite Q, split_framing by reflexivity. unfold fits. cbn [m_payload m_cid].
    assert (Nlen (nonce ++ cid ++ [2; 1; 0; 0; h_caps (chid t (d_ctap d))])%N = 17%N) as -> by (unfold Nlen; rewrite !app_length, Ln, Lc; reflexivity).
    destruct Cp as (C1 & C2). destruct t; cbn [chid] in *; rewrite ?C1, ?C2; reflexivity. }
  split; [exact Qo|]. destruct (iterate_got e hook _ _ _ _ (t, p, now) E eq_refl) as (n9 & q9 & t9 & _ & _ & Lv0 & _).
  split; [now rewrite Lv|]. split; [exact Un'|]. split; [rewrite Hs; split; reflexivity|].
  unfold is_allocated_channel. rewrite Ha, Vc. apply bytes_eqb_false in Nr. rewrite Nr. cbn [negb andb].
  split; [apply N.leb_refl|]. split; [apply N.leb_gt; lia|exact Nb].
Qed.
Print Assumptions C65_init.

(** A device is powered up; a client asks for a channel and then for getInfo, with a packet of another client and a touch in between;
    the response takes several packets. *)
Definition toy_hook (w : world) (b : bytes) (ch : Ctap.Machine.channel) : option (bytes * option (bytes * bytes) * option (bytes * bytes)) := None.
Definition in_packet (p : packet) : input := mkIn (UReceived 1 p) 5 false.
Definition ok_packet : input := mkIn USent 1 true.
Definition init_packet : packet := hd [] (framing (mkMsg [255; 255; 255; 255]%N Init [1; 2; 3; 4; 5; 6; 7; 8]%N)).
Definition sample_life : list Device.Loop.event := [Go (in_packet init_packet); Go ok_packet].
Definition big_request : bytes := 4%N :: repeat 0%N 70.
Definition other_packet : packet := hd [] (framing (mkMsg [0; 0; 0; 9]%N Ping [1]%N)).
Example C65_nonvacuous :
  let e := Ctap.Toy.toy in
  let d0 := fst (live e toy_hook (device_new (start e)) sample_life) in
  let cid := [0; 0; 0; 1]%N in
  exists p0 p1, framing (mkMsg cid Cbor big_request) = [p0; p1] /\
  let evs := [Go (in_packet p0); Go (in_packet other_packet); Go ok_packet] in
  cfg_ok (e_cfg e) /\ Forall event_ok sample_life /\ Forall event_ok evs /\ Forall powered evs /\ ready d0 cid /\
  woven cid (11 + 100) [p1] [(16, None, other_packet); (22, None, p1)]%N /\
  gots (snd (live e toy_hook d0 (evs ++ [Go (in_packet p1)]))) =
    map (fun ev : Hid.Spec.event => (Hid.Model.MainHid, snd ev, fst (fst ev))) [(11, None, p0); (16, None, other_packet); (22, None, p1)]%N /\
  (let d2 := fst (iterate e toy_hook (fst (live e toy_hook d0 evs)) (in_packet p1)) in
   match d_main d2 with q :: _ => firstn 8 q = [0; 0; 0; 1; 0x90; 1; 45; 0]%N | [] => False end) /\
  (let d3 := fst (live e toy_hook (device_new (start e)) (sample_life ++ [Go (in_packet (hd [] (framing (mkMsg cid Cbor [4]%N))))])) in
   length (d_main d3) = 6%nat).
Proof.
  cbv zeta. exists (nth 0 (framing (mkMsg [0; 0; 0; 1]%N Cbor big_request)) []), (nth 1 (framing (mkMsg [0; 0; 0; 1]%N Cbor big_request)) []).
  split; [vm_compute; reflexivity|]. split; [exact Ctap.Toy.toy_cfg_ok|].
  split; [repeat constructor|]. split; [repeat constructor|]. split; [repeat constructor|].
  split.
  { unfold ready. split; [vm_compute; reflexivity|]. split; [discriminate|]. split; [reflexivity|]. split; [split; vm_compute; reflexivity|]. split; vm_compute; reflexivity. }
  split.
  { apply woven_foreign; [reflexivity|vm_compute; discriminate|]. apply woven_own; [reflexivity|]. apply woven_done. }
  split; [vm_compute; reflexivity|]. split; [vm_compute; reflexivity|]. vm_compute; reflexivity.
Qed.

(** The same client does not take the second packet of the response to getInfo; later power is lost in the middle of another one. *)
Example C64_nonvacuous :
  let get_info := Go (in_packet (hd [] (framing (mkMsg [0; 0; 0; 1]%N Cbor [4]%N)))) in
  let evs := sample_life ++ [get_info; Go ok_packet; Go (mkIn UTimeout 1000 false); get_info; Cut ok_packet 0; Go (in_packet init_packet)] in
  Forall event_ok evs /\
  map (fun s => match s with Sent _ p => (0, firstn 5 p) | Lost _ p => (1, firstn 5 p) | Got _ p _ => (2, firstn 5 p) | Off => (3, []) end)%N
    (snd (live Ctap.Toy.toy toy_hook (device_new (start Ctap.Toy.toy)) evs)) =
  [(2, [255; 255; 255; 255; 0x86]); (0, [255; 255; 255; 255; 0x86]); (2, [0; 0; 0; 1; 0x90]); (0, [0; 0; 0; 1; 0x90]); (1, [0; 0; 0; 1; 0]);
   (2, [0; 0; 0; 1; 0x90]); (0, [0; 0; 0; 1; 0x90]); (3, []); (2, [255; 255; 255; 255; 0x86])]%N.
Proof. cbv zeta. split; [repeat constructor|vm_compute; reflexivity]. Qed.

(** INIT on a new device, on both endpoints; a CTAP1 version request. *)
Example C65_init_nonvacuous :
  let d := device_new (start Ctap.Toy.toy) in
  unlocked d /\ (forall t, idle (h_asm (chid t (d_ctap d)))) /\
  snd (iterate Ctap.Toy.toy toy_hook d (mkIn (UReceived 2 init_packet) 3 false)) = [Got Hid.Model.VendorHid init_packet 3] /\
  snd (iterate Ctap.Toy.toy toy_hook d (in_packet init_packet)) = [Got Hid.Model.MainHid init_packet 5] /\
  init_packet = hd [] (framing (mkMsg [255; 255; 255; 255]%N Init [1; 2; 3; 4; 5; 6; 7; 8]%N)).
Proof. cbv zeta. split; [split; reflexivity|]. split; [intros []; split; reflexivity|]. repeat split; vm_compute; reflexivity. Qed.
Definition version_packet : packet := hd [] (framing (mkMsg [0; 0; 0; 1]%N Msg [0; 3; 0; 0; 0; 0; 0]%N)).
Example C65_u2f_nonvacuous :
  let e := Ctap.Toy.toy in
  let d0 := fst (live e toy_hook (device_new (start e)) sample_life) in
  ready d0 [0; 0; 0; 1]%N /\
  gots (snd (live e toy_hook d0 [Go (in_packet version_packet)])) = [(Hid.Model.MainHid, version_packet, 11)]%N /\
  d_main (fst (iterate e toy_hook d0 (in_packet version_packet))) = framing (mkMsg [0; 0; 0; 1]%N Msg [0x55; 0x32; 0x46; 0x5F; 0x56; 0x32; 0x90; 0]%N).
Proof.
  cbv zeta. split; [|split; vm_compute; reflexivity].
  unfold ready. split; [vm_compute; reflexivity|]. split; [discriminate|]. split; [reflexivity|]. split; [split; vm_compute; reflexivity|]. split; vm_compute; reflexivity.
Qed.
