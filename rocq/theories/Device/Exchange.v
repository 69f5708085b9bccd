(** Proofs about the loop: one request and its response, from packets to packets. *)
From Verif Require Import Base Facts.
From Verif Require Hid.Model Hid.Spec Hid.Proofs Hid.Proofs2 Hid.Proofs3 U2f.Model Ctap.Machine Ctap.Commands Ctap.Parse Ctap.System Device.Wait.
From Verif Require Import Device.Loop Device.Spec Device.Proofs.
Import Hid.Model Hid.Spec Hid.Proofs Hid.Proofs2 Hid.Proofs3 Ctap.Machine Ctap.Commands Ctap.Parse Ctap.System.
Import Device.Loop Device.Spec Device.Proofs.
From Coq Require Import List Lia ZArith.
Import ListNotations.
Open Scope list_scope.

(** ** The assembler delivers the message with the last packet, and nothing before *)

Lemma woven_last c d ps evs : woven c d ps evs -> ps <> [] -> Forall (fun p => packet_chan p = c) ps ->
  exists pre t p, evs = pre ++ [(t, None, p)] /\ packet_chan p = c.
Proof.
  induction 1 as [d|d t p ps evs Ht W IH|d t p q ps evs Ht Hq W IH]; intros NE O; [congruence| |].
  - inversion O; subst. destruct ps as [|p' ps].
    + inversion W; subst. exists [], t, p. auto.
    + destruct IH as (pre & t' & q & -> & Cq); [discriminate|assumption|]. exists ((t, None, p) :: pre), t', q. auto.
  - destruct (IH NE O) as (pre & t' & p' & -> & Cq). exists ((t, None, q) :: pre), t', p'. auto.
Qed.
Lemma own_snoc c (evs : list Hid.Spec.event) (outs : list output) (e : Hid.Spec.event) (o : output) : length evs = length outs -> packet_chan (snd e) = c ->
  own_outputs c (evs ++ [e]) (outs ++ [o]) = own_outputs c evs outs ++ [o].
Proof.
  intros L C. unfold own_outputs. assert (E : combine (evs ++ [e]) (outs ++ [o]) = combine evs outs ++ [(e, o)]).
  { revert outs L. induction evs as [|x evs IH]; intros [|y outs] L; try discriminate L; [reflexivity|]. cbn. f_equal. apply IH. cbn in L. lia. }
  rewrite E, filter_app, map_app. cbn [filter fst snd]. rewrite C, bytes_eqb_refl. reflexivity.
Qed.
Lemma foreign_snoc c (evs : list Hid.Spec.event) (outs : list output) (e : Hid.Spec.event) (o : output) : length evs = length outs -> packet_chan (snd e) = c ->
  foreign_outputs c (evs ++ [e]) (outs ++ [o]) = foreign_outputs c evs outs.
Proof.
  intros L C. unfold foreign_outputs. assert (E : combine (evs ++ [e]) (outs ++ [o]) = combine evs outs ++ [(e, o)]).
  { revert outs L. induction evs as [|x evs IH]; intros [|y outs] L; try discriminate L; [reflexivity|]. cbn. f_equal. apply IH. cbn in L. lia. }
  rewrite E, filter_app, map_app. cbn [filter fst snd]. rewrite C, bytes_eqb_refl. cbn [negb map]. now rewrite app_nil_r.
Qed.
Lemma undelivered c evs : forall outs, length evs = length outs ->
  Forall (fun o => delivered o = false) (own_outputs c evs outs) ->
  Forall (fun co => snd co = Err (fst co, ChannelBusy)) (foreign_outputs c evs outs) ->
  Forall (fun o => delivered o = false) outs.
Proof.
  induction evs as [|x evs IH]; intros [|o outs] L O F; try discriminate L; [constructor|].
  unfold own_outputs, foreign_outputs in O, F. cbn [combine filter fst snd] in O, F.
  destruct (bytes_eqb (packet_chan (snd x)) c); cbn [negb map fst snd] in O, F.
  - inversion O; subst. constructor; [assumption|]. apply IH; auto.
  - inversion F as [|? ? F1 F2]; subst. cbn [snd fst] in F1. constructor; [rewrite F1; reflexivity|]. apply IH; auto.
Qed.
Lemma framing_chans m : length (m_cid m) = 4%nat -> (Nlen (m_payload m) <= 7609)%N -> Forall (fun p => packet_chan p = m_cid m) (framing m).
Proof.
  intros C L. unfold framing. constructor.
  - unfold packet_chan. rewrite psp_init; auto using cmd_code_lt; [lia|]. apply pad_length. rewrite firstn_length. lia.
  - generalize (skipn 57 (m_payload m)). generalize (length (m_payload m)).
    assert (K : forall n s l, Forall (fun p => packet_chan p = m_cid m) (conts n (m_cid m) s l)).
    { induction n as [|n IH]; intros s l; [constructor|]. destruct l; cbn [conts]; [constructor|]. constructor; [|apply IH].
      unfold packet_chan, process_single_packet.
      assert (E : forall r, firstn 4 (m_cid m ++ r) = m_cid m) by (intros r; rewrite <- C, firstn_app, Nat.sub_diag, firstn_O, app_nil_r, firstn_all; reflexivity).
      rewrite E. destruct (negb _); reflexivity. }
    intros. apply K.
Qed.

Lemma receive_last max m t0 p0 ps evs a :
  length (m_cid m) = 4%nat -> (Nlen (m_payload m) <= max)%N -> (max <= 7609)%N ->
  framing m = p0 :: ps -> woven (m_cid m) (t0 + 100) ps evs -> idle a ->
  exists pre t p outs a1 a2, (t0, None, p0) :: evs = pre ++ [(t, None, p)] /\ feed max a pre = (a1, outs) /\
    Forall (fun o => delivered o = false) outs /\ asm_parse max t a1 p None = (a2, Ok (Some m)) /\ idle a2.
Proof.
  intros C L M F W I. destruct (receive_message max m t0 p0 ps evs a C L M F W I) as (a' & outs & Fe & I' & O & Fo).
  pose proof (framing_chans m C ltac:(lia)) as Ch. rewrite F in Ch. inversion Ch as [|? ? Ch0 Chs]; subst.
  assert (E : exists pre t p, (t0, None, p0) :: evs = pre ++ [(t, None, p)] /\ packet_chan p = m_cid m).
  { destruct ps as [|p1 ps]; [inversion W; subst; exists [], t0, p0; auto|].
    destruct (woven_last _ _ _ _ W ltac:(discriminate) Chs) as (pre & t & p & -> & Cp). exists ((t0, None, p0) :: pre), t, p. auto. }
  destruct E as (pre & t & p & E & Cp). rewrite E in *. rewrite feed_app in Fe. pose proof (feed_length max a pre) as Lp.
  destruct (feed max a pre) as [a1 outs1] eqn:F1. cbn [snd] in Lp. cbn [feed] in Fe.
  destruct (asm_parse max t a1 p None) as [a2 o] eqn:A. injection Fe as <- <-.
  rewrite own_snoc in O by (auto; exact Cp). rewrite foreign_snoc in Fo by (auto; exact Cp). apply app_inj_tail in O. destruct O as (O & ->).
  exists pre, t, p, outs1, a1, a2. split; [reflexivity|]. split; [exact F1|]. split; [|auto].
  eapply undelivered; [symmetry; exact Lp| |exact Fo]. rewrite O. apply Forall_forall. intros o Ho. apply repeat_spec in Ho. now subst.
Qed.

Section P.
Variable e : env.
Variable hook : world -> bytes -> Ctap.Machine.channel -> option (bytes * option (bytes * bytes) * option (bytes * bytes)).
Notation iter := (iterate e hook).
Notation max := (c_max_msg (e_cfg e)).
Notation packet_in := (ctap_packet core (ctap2 e hook) (ctap1 e) true max).
Notation main d := (mh_hid (c_main core (d_ctap d))).
Notation vendor d := (c_vendor core (d_ctap d)).

(** No client has locked an endpoint. *)
Definition unlocked (d : device) : Prop := h_locked (main d) = None /\ h_locked (vendor d) = None.
(** The packets received, with endpoint and time. *)
Definition gots (tr : list seen) : list (Hid.Model.transport * packet * N) :=
  flat_map (fun s => match s with Got t p now => [(t, p, now)] | _ => [] end) tr.
(** Neither power loss. *)
Definition powered (ev : Device.Loop.event) : Prop := match ev with Cut _ _ => False | _ => True end.

Lemma unlocked_lock now h : h_locked h = None -> locked_channel now h = (h, None).
Proof. intros L. unfold locked_channel. rewrite L. destruct h. cbn in *. subst. destruct (is_elapsed _ _); reflexivity. Qed.

Definition advanced (a : assembler) (h h' : ctap_hid) : Prop :=
  h_asm h' = a /\ h_allocated h' = h_allocated h /\ h_locked h' = h_locked h.

Lemma parse_undelivered now h p a r : h_locked h = None -> asm_parse max now (h_asm h) p None = (a, r) -> delivered r = false ->
  exists h' o, hid_parse max now h p false = (h', o) /\ advanced a h h' /\ (forall m, o = Some m -> m_cmd m = Error).
Proof.
  intros L A D. unfold hid_parse. rewrite (unlocked_lock now h L), A. destruct r as [[m|]|[c er]]; [discriminate D| |].
  - eexists. eexists. split; [reflexivity|]. split; [repeat split|]. discriminate.
  - eexists. eexists. split; [reflexivity|]. split; [repeat split|]. intros m Hm. destruct er; try discriminate Hm; destruct (negb _); injection Hm as <-; reflexivity.
Qed.

Lemma packet_undelivered now c p a r : h_locked (mh_hid (c_main _ c)) = None -> h_locked (c_vendor _ c) = None ->
  asm_parse max now (h_asm (mh_hid (c_main _ c))) p None = (a, r) -> delivered r = false ->
  exists c' out, packet_in now c p Hid.Model.MainHid = (c', out) /\ c_state _ c' = c_state _ c /\ c_vendor _ c' = c_vendor _ c /\
    advanced a (mh_hid (c_main _ c)) (mh_hid (c_main _ c')).
Proof.
  intros Lm Lv A D. unfold ctap_packet, has_channel_lock. rewrite (unlocked_lock now _ Lv). unfold main_packet.
  destruct (parse_undelivered now _ p a r Lm A D) as (h' & o & -> & Ad & Er). destruct o as [m|].
  - unfold main_process. rewrite (Er m eq_refl). eexists. eexists. split; [reflexivity|]. cbn [c_state c_vendor c_main mh_hid]. auto.
  - eexists. eexists. split; [reflexivity|]. cbn [c_state c_vendor c_main mh_hid]. auto.
Qed.

Lemma iterate_hid d x d' o : iter d x = (d', o) -> gots o = [] -> main d' = main d /\ vendor d' = vendor d.
Proof.
  unfold iterate. destruct (negb (d_live d)); [intros H _; injection H as <- _; auto|].
  unfold transfer. destruct (next_packet d) as [[[t p] d1]|] eqn:N.
  - destruct (next_packet_spec _ _ _ _ N) as (_ & _ & Ec).
    destruct (i_usb x); intros H _; injection H as <- _; try destruct t; cbn [on_world halt set_queue d_ctap set_core c_main c_vendor]; rewrite ?Ec; auto.
  - destruct (i_usb x) as [| |n p|]; try (intros H _; injection H as <- _; auto; fail).
    destruct (endpoint_of n) as [t|]; [|intros H _; injection H as <- _; auto].
    destruct (packet_in _ _ p t) as [c r]. intros H G. injection H as _ <-. discriminate G.
Qed.

(** What an iteration that receives a packet does. *)
Lemma iterate_got d x d' o g : iter d x = (d', o) -> gots o = [g] ->
  exists n p t, i_usb x = UReceived n p /\ endpoint_of n = Some t /\ d_live d = true /\ quiet d /\
    let d1 := on_world (fun w => (if i_touch x then run1 e OpTouch else fun w => w) (run1 e (OpTick (i_time x)) w)) d in
    let now := w_now (d_world d1) in
    g = (t, p, now) /\ o = [Got t p now] /\
    d_ctap d' = fst (packet_in now (d_ctap d1) p t) /\ queue t d' = snd (packet_in now (d_ctap d1) p t) /\ queue (other t) d' = [].
Proof.
  unfold iterate. destruct (d_live d) eqn:Lv; cbn [negb]; [|intros H G; injection H as _ <-; discriminate G].
  unfold transfer. destruct (next_packet d) as [[[t p] d1]|] eqn:N.
  - destruct (i_usb x); intros H G; injection H as _ <-; discriminate G.
  - pose proof (next_packet_none _ N) as Q. destruct (i_usb x) as [| |n p|] eqn:U; try (intros H G; injection H as _ <-; discriminate G).
    destruct (endpoint_of n) as [t|] eqn:En; [|intros H G; injection H as _ <-; discriminate G].
    set (d1 := on_world _ d). cbv zeta. destruct (packet_in (w_now (d_world d1)) (d_ctap d1) p t) as [c r] eqn:E.
    intros H G. cbn [app] in H. injection H as <- <-. cbn [gots flat_map app] in G. injection G as <-.
    exists n, p, t. split; [reflexivity|]. split; [exact En|]. split; [reflexivity|]. split; [exact Q|]. fold d1. rewrite E. cbn [fst snd].
    destruct Q as (Qm & Qv). destruct r, t; cbn [queue other set_queue d_main d_vendor d_ctap]; repeat split; try exact Qm; try exact Qv; try reflexivity.
Qed.

Lemma gots_le1 d x d' o : iter d x = (d', o) -> (length (gots o) <= 1)%nat.
Proof.
  unfold iterate. destruct (negb (d_live d)); [intros H; injection H as _ <-; cbn; lia|].
  unfold transfer. destruct (next_packet d) as [[[t p] d1]|].
  - destruct (i_usb x); intros H; injection H as _ <-; cbn; lia.
  - destruct (i_usb x) as [| |n p|]; try (intros H; injection H as _ <-; cbn; lia).
    destruct (endpoint_of n) as [t|]; [|intros H; injection H as _ <-; cbn; lia].
    destruct (packet_in _ _ p t) as [c r]. intros H. injection H as _ <-. cbn. lia.
Qed.

(** Before the last packet the authenticator does nothing but keep time. *)
Lemma before_last evs : forall d pre a outs, Forall powered evs -> unlocked d ->
  gots (snd (live e hook d evs)) = map (fun ev => (Hid.Model.MainHid, snd ev, fst (fst ev))) pre ->
  Forall (fun ev : Hid.Spec.event => snd (fst ev) = None) pre ->
  feed max (h_asm (main d)) pre = (a, outs) -> Forall (fun o => delivered o = false) outs ->
  let d1 := fst (live e hook d evs) in
  unlocked d1 /\ h_asm (main d1) = a /\ h_allocated (main d1) = h_allocated (main d).
Proof.
  induction evs as [|ev evs IH]; intros d pre a outs P U G NL F D; cbn [live].
  - cbn [snd live gots flat_map] in G. destruct pre; [|discriminate G]. cbn [feed] in F. injection F as <- _. cbn [fst]. auto.
  - inversion P as [|? ? P1 P2]; subst. cbn [live] in G. destruct (live1 e hook d ev) as [d1 o1] eqn:E.
    destruct (live e hook d1 evs) as [d2 o2] eqn:E2. cbn [snd] in G. unfold gots in G. rewrite flat_map_app in G. fold (gots o1) (gots o2) in G.
    specialize (IH d1). rewrite E2 in IH. cbn [fst snd] in IH. cbn [fst].
    destruct ev as [x|x n|n]; [|destruct P1|].
    + cbn [live1] in E. pose proof (gots_le1 _ _ _ _ E) as L. destruct (gots o1) as [|g [|? ?]] eqn:G1; [| |cbn in L; lia].
      * destruct (iterate_hid _ _ _ _ E G1) as (M & V). cbn [app] in G.
        assert (U1 : unlocked d1) by (unfold unlocked; rewrite M, V; exact U).
        specialize (IH pre a outs P2 U1 G NL). rewrite M in IH. exact (IH F D).
      * destruct pre as [|[[t0 l0] p0] pre]; [discriminate G|]. inversion NL as [|? ? NL1 NL2]; subst. cbn [fst snd] in NL1. subst l0.
        cbn [app map fst snd] in G. injection G as Gg G. subst g.
        destruct (iterate_got _ _ _ _ _ E G1) as (n & p & t & _ & _ & _ & _ & Eg & _ & Ec & _ & _). injection Eg as <- <- Et.
        cbn [feed] in F. destruct (asm_parse max t0 (h_asm (main d)) p0 None) as [a1 r] eqn:A. destruct (feed max a1 pre) as [a2 os] eqn:F2.
        injection F as <- <-. apply Forall_inv in D as D1. apply Forall_inv_tail in D as D2.
        destruct U as (Um & Uv).
        destruct (packet_undelivered t0 (d_ctap (on_world (fun w => (if i_touch x then run1 e OpTouch else fun w => w) (run1 e (OpTick (i_time x)) w)) d)) p0 a1 _ Um Uv A D1)
          as (c' & out & Ep & Es & Ev & (Ad1 & Ad2 & Ad3)).
        rewrite <- Et, Ep in Ec. cbn [fst] in Ec.
        assert (U1 : unlocked d1) by (unfold unlocked; rewrite Ec, Ev, Ad3; split; assumption).
        specialize (IH pre a2 os P2 U1 G NL2). rewrite Ec, Ad1, Ad2 in IH. exact (IH F2 D2).
    + cbn [live1] in E. injection E as <- <-. cbn [gots flat_map app] in G. specialize (IH pre a outs P2 U G NL F D). exact IH.
Qed.

(** The last packet. *)
Lemma at_last d x d' t p now m a : iter d x = (d', [Got Hid.Model.MainHid p now]) -> t = now -> unlocked d ->
  asm_parse max t (h_asm (main d)) p None = (a, Ok (Some m)) ->
  m_cmd m = Cbor -> is_allocated_channel (main d) (m_cid m) = true -> m_cid m <> CHANNEL_BROADCAST ->
  exists ops, Forall by_itself ops /\
    let w1 := runs e ops (d_world d) in
    now = w_now w1 /\ d_live d = true /\
    let '(s, r) := ctap2 e hook now (w1, true) (m_payload m) (MainChannel (m_cid m)) in
    d_world d' = fst s /\ d_live d' = snd s /\ d_main d' = split_message (mkMsg (m_cid m) Cbor r) /\ d_vendor d' = [].
Proof.
  intros E -> (Um & Uv) A Em Al Br.
  destruct (iterate_got _ _ _ _ _ E eq_refl) as (n & q & t' & _ & _ & Lv & _ & Eg & _ & Ec & Eq & Eo).
  injection Eg as <- <- En. set (ops := OpTick (i_time x) :: if i_touch x then [OpTouch] else []).
  exists ops. split; [unfold ops; destruct (i_touch x); repeat constructor|].
  set (d1 := on_world _ d) in *.
  assert (W : d_world d1 = runs e ops (d_world d)) by (unfold d1, ops; destruct (i_touch x); reflexivity).
  cbv zeta. rewrite <- W. split; [exact En|]. split; [exact Lv|]. rewrite <- En in Ec, Eq.
  assert (Hp : packet_in now (d_ctap d1) p Hid.Model.MainHid =
    let '(s, r) := ctap2 e hook now (d_world d1, true) (m_payload m) (MainChannel (m_cid m)) in
    (mkCtap core (mkMain (mkHid a (h_allocated (main d)) (h_caps (main d)) (h_locked (main d)) (h_lock_timer (main d))) timer_default) (vendor d) s,
     split_message (mkMsg (m_cid m) Cbor r))).
  { unfold ctap_packet, has_channel_lock. change (vendor d1) with (vendor d). rewrite (unlocked_lock now _ Uv). unfold main_packet, hid_parse.
    change (main d1) with (main d). rewrite (unlocked_lock now _ Um), A. unfold preprocess_message, has_valid_channel.
    apply bytes_eqb_false in Br. rewrite Br. unfold is_allocated_channel in *. cbn [h_allocated]. rewrite Al. cbn [negb].
    rewrite Em. unfold main_process. rewrite Em.
    assert (c_state core (d_ctap d1) = (d_world d1, true)) as ->.
    { unfold d1, on_world, d_world. cbn [d_ctap set_core c_state fst]. rewrite Lv. reflexivity. }
    destruct (ctap2 e hook now (d_world d1, true) (m_payload m) (MainChannel (m_cid m))) as [s r]. reflexivity. }
  rewrite Hp in Ec, Eq. destruct (ctap2 e hook now (d_world d1, true) (m_payload m) (MainChannel (m_cid m))) as [s r]. cbn [fst snd] in Ec, Eq.
  unfold d_world, d_live. rewrite Ec. cbn [c_state]. cbn [queue other] in Eq, Eo. auto.
Qed.

(** The last packet of a CTAP1 message. *)
Lemma at_last_u2f d x d' t p now m a : iter d x = (d', [Got Hid.Model.MainHid p now]) -> t = now -> unlocked d ->
  asm_parse max t (h_asm (main d)) p None = (a, Ok (Some m)) ->
  m_cmd m = Msg -> is_allocated_channel (main d) (m_cid m) = true -> m_cid m <> CHANNEL_BROADCAST ->
  exists ops, Forall by_itself ops /\
    let w1 := runs e ops (d_world d) in
    now = w_now w1 /\ d_live d = true /\
    let '(s, r) := ctap1 e now (w1, true) (m_payload m) in
    d_world d' = fst s /\ d_live d' = snd s /\ d_main d' = split_message (mkMsg (m_cid m) Msg r) /\ d_vendor d' = [].
Proof.
  intros E -> (Um & Uv) A Em Al Br.
  destruct (iterate_got _ _ _ _ _ E eq_refl) as (n & q & t' & _ & _ & Lv & _ & Eg & _ & Ec & Eq & Eo).
  injection Eg as <- <- En. set (ops := OpTick (i_time x) :: if i_touch x then [OpTouch] else []).
  exists ops. split; [unfold ops; destruct (i_touch x); repeat constructor|].
  set (d1 := on_world _ d) in *.
  assert (W : d_world d1 = runs e ops (d_world d)) by (unfold d1, ops; destruct (i_touch x); reflexivity).
  cbv zeta. rewrite <- W. split; [exact En|]. split; [exact Lv|]. rewrite <- En in Ec, Eq.
  assert (Hp : packet_in now (d_ctap d1) p Hid.Model.MainHid =
    let '(s, r) := ctap1 e now (d_world d1, true) (m_payload m) in
    (mkCtap core (mkMain (mkHid a (h_allocated (main d)) (h_caps (main d)) (h_locked (main d)) (h_lock_timer (main d))) timer_default) (vendor d) s,
     split_message (mkMsg (m_cid m) Msg r))).
  { unfold ctap_packet, has_channel_lock. change (vendor d1) with (vendor d). rewrite (unlocked_lock now _ Uv). unfold main_packet, hid_parse.
    change (main d1) with (main d). rewrite (unlocked_lock now _ Um), A. unfold preprocess_message, has_valid_channel.
    apply bytes_eqb_false in Br. rewrite Br. unfold is_allocated_channel in *. cbn [h_allocated]. rewrite Al. cbn [negb].
    rewrite Em. unfold main_process. rewrite Em.
    assert (c_state core (d_ctap d1) = (d_world d1, true)) as ->.
    { unfold d1, on_world, d_world. cbn [d_ctap set_core c_state fst]. rewrite Lv. reflexivity. }
    destruct (ctap1 e now (d_world d1, true) (m_payload m)) as [s r]. reflexivity. }
  rewrite Hp in Ec, Eq. destruct (ctap1 e now (d_world d1, true) (m_payload m)) as [s r]. cbn [fst snd] in Ec, Eq.
  unfold d_world, d_live. rewrite Ec. cbn [c_state]. cbn [queue other] in Eq, Eo. auto.
Qed.

(** INIT on the broadcast channel. *)
Lemma at_init d x d' t p now nonce a : iter d x = (d', [Got t p now]) -> unlocked d ->
  asm_parse max now (h_asm (chid t (d_ctap d))) p None = (a, Ok (Some (mkMsg CHANNEL_BROADCAST Init nonce))) -> length nonce = 8%nat ->
  let n := (h_allocated (chid t (d_ctap d)) + 1)%N in
  queue t d' = split_message (mkMsg CHANNEL_BROADCAST Init (nonce ++ be_bytes 4 (n mod 2 ^ 32)%N ++ [2; 1; 0; 0; h_caps (chid t (d_ctap d))]%N)) /\
  queue (other t) d' = [] /\ h_allocated (chid t (d_ctap d')) = n /\ h_asm (chid t (d_ctap d')) = a /\ unlocked d' /\ d_live d' = d_live d.
Proof.
  intros E (Um & Uv) A L.
  destruct (iterate_got _ _ _ _ _ E eq_refl) as (k & q & t' & _ & _ & Lv & _ & Eg & _ & Ec & Eq & Eo).
  injection Eg as <- <- En. set (d1 := on_world _ d) in *. rewrite <- En in Ec, Eq. cbv zeta.
  assert (Ll : d_live d1 = d_live d) by reflexivity.
  assert (Hp : hid_parse max now (chid t (d_ctap d)) p false =
    (mkHid a (h_allocated (chid t (d_ctap d)) + 1) (h_caps (chid t (d_ctap d))) (h_locked (chid t (d_ctap d))) (h_lock_timer (chid t (d_ctap d))),
     Some (mkMsg CHANNEL_BROADCAST Init (nonce ++ be_bytes 4 ((h_allocated (chid t (d_ctap d)) + 1) mod 2 ^ 32)%N ++ [2; 1; 0; 0; h_caps (chid t (d_ctap d))]%N)))).
  { unfold hid_parse. rewrite unlocked_lock by (destruct t; assumption). rewrite A. unfold preprocess_message, has_valid_channel.
    cbn [m_cid m_cmd m_payload]. rewrite L. cbn [Nat.eqb negb]. change (bytes_eqb CHANNEL_BROADCAST CHANNEL_BROADCAST) with true. cbv iota.
    change (cmd_eqb Init Init) with true. cbn [negb]. reflexivity. }
  unfold ctap_packet, has_channel_lock in Ec, Eq. change (vendor d1) with (vendor d) in Ec, Eq. change (main d1) with (main d) in Ec, Eq.
  destruct t; cbn [chid queue other] in *.
  - rewrite (unlocked_lock now _ Uv) in Ec, Eq. unfold main_packet in Ec, Eq. change (main d1) with (main d) in Ec, Eq.
    rewrite Hp in Ec, Eq. unfold main_process in Ec, Eq. cbn [m_cmd m_cid fst snd] in Ec, Eq.
    split; [exact Eq|]. split; [exact Eo|]. rewrite Ec. cbn [c_main mh_hid h_allocated h_asm]. split; [reflexivity|]. split; [reflexivity|].
    split; [unfold unlocked; rewrite Ec; cbn [c_main mh_hid c_vendor h_locked]; auto|]. unfold d_live in *. rewrite Ec. cbn [c_state]. exact Ll.
  - rewrite (unlocked_lock now _ Um) in Ec, Eq. unfold vendor_packet in Ec, Eq. change (vendor d1) with (vendor d) in Ec, Eq.
    rewrite Hp in Ec, Eq. unfold vendor_process in Ec, Eq. cbn [m_cmd m_cid fst snd] in Ec, Eq.
    split; [exact Eq|]. split; [exact Eo|]. rewrite Ec. cbn [c_vendor h_allocated h_asm]. split; [reflexivity|]. split; [reflexivity|].
    split; [unfold unlocked; rewrite Ec; cbn [c_main mh_hid c_vendor h_locked]; auto|]. unfold d_live in *. rewrite Ec. cbn [c_state]. exact Ll.
Qed.

(** The capabilities never change. *)
Lemma preprocess_caps now h m h' o : preprocess_message now h m = (h', o) -> h_caps h' = h_caps h.
Proof.
  unfold preprocess_message. destruct (negb (has_valid_channel h m)); [intros H; now injection H as <- _|].
  destruct (m_cmd m); try (intros H; now injection H as <- _).
  - destruct (m_payload m) as [|s [|? ?]]; try (intros H; now injection H as <- _).
    destruct (10 <? s)%N; [intros H; now injection H as <- _|]. destruct (s =? 0)%N; intros H; now injection H as <- _.
  - destruct (negb _); [intros H; now injection H as <- _|]. destruct (bytes_eqb (m_cid m) CHANNEL_BROADCAST); intros H; now injection H as <- _.
Qed.
Lemma parse_caps now h p dis h' o : hid_parse max now h p dis = (h', o) -> h_caps h' = h_caps h.
Proof.
  unfold hid_parse, locked_channel. destruct dis; destruct (asm_parse _ _ _ _ _) as [a [[m|]|[c er]]]; intros H;
    try (apply preprocess_caps in H; exact H); injection H as <- _; reflexivity.
Qed.
Lemma packet_caps now c p t c' out : packet_in now c p t = (c', out) -> forall t', h_caps (chid t' c') = h_caps (chid t' c).
Proof.
  unfold ctap_packet, has_channel_lock, locked_channel. destruct t.
  - unfold main_packet. destruct (hid_parse _ _ _ p _) as [h [m|]] eqn:E; apply parse_caps in E.
    + destruct (main_process _ _ _ _ _ _ _) as [[w r] k]. intros H t'. injection H as <- _. destruct t'; cbn; auto.
    + intros H t'. injection H as <- _. destruct t'; cbn; auto.
  - unfold vendor_packet. destruct (hid_parse _ _ _ p _) as [h [m|]] eqn:E; apply parse_caps in E.
    + destruct (vendor_process _ _ _ _ _) as [w r]. intros H t'. injection H as <- _. destruct t'; cbn; auto.
    + intros H t'. injection H as <- _. destruct t'; cbn; auto.
Qed.
Definition capable (d : device) : Prop := h_caps (main d) = 5%N /\ h_caps (vendor d) = 12%N.
Lemma capable_iterate d x d' o : iter d x = (d', o) -> capable d -> capable d'.
Proof.
  intros E C. destruct (gots o) as [|g [|g2 gs]] eqn:G.
  - destruct (iterate_hid _ _ _ _ E G) as (M & V). unfold capable. rewrite M, V. exact C.
  - destruct (iterate_got _ _ _ _ _ E G) as (n & q & t & _ & _ & _ & _ & _ & _ & Ec & _ & _).
    match type of Ec with _ = fst ?X => destruct X as [c' out] eqn:P end. cbn [fst] in Ec.
    pose proof (packet_caps _ _ _ _ _ _ P) as K. destruct C as (C1 & C2). unfold capable. rewrite Ec.
    split; [rewrite (K Hid.Model.MainHid : h_caps (mh_hid (c_main core c')) = _)|rewrite (K Hid.Model.VendorHid : h_caps (c_vendor core c') = _)]; assumption.
  - pose proof (gots_le1 _ _ _ _ E) as L. rewrite G in L. cbn in L. lia.
Qed.
Lemma capable_live evs : forall d, capable d -> capable (fst (live e hook d evs)).
Proof.
  induction evs as [|ev evs IH]; intros d C; cbn [live]; [exact C|].
  destruct (live1 e hook d ev) as [d1 o1] eqn:E.
  assert (C1 : capable d1).
  { destruct ev as [x|x n|n]; cbn [live1] in E.
    - eapply capable_iterate; eassumption.
    - destruct (iter d x) as [d2 o2]. injection E as <- _. split; reflexivity.
    - injection E as <- _. exact C. }
  specialize (IH d1 C1). destruct (live e hook d1 evs). exact IH.
Qed.

(** A platform that reads gets all packets of the reply, in order. *)
Lemma send_all_main q : forall d xs, d_live d = true -> d_main d = q -> length xs = length q -> Forall (fun x => i_usb x = USent) xs ->
  snd (live e hook d (map Go xs)) = map (Sent Hid.Model.MainHid) q.
Proof.
  induction q as [|p q IH]; intros d xs L M Hl S.
  - destruct xs; [reflexivity|discriminate Hl].
  - destruct xs as [|x xs]; [discriminate Hl|]. inversion S as [|? ? S1 S2]; subst. cbn [map live live1].
    assert (E : exists d1, iter d x = (d1, [Sent Hid.Model.MainHid p]) /\ d_live d1 = true /\ d_main d1 = q).
    { unfold iterate. rewrite L. cbn [negb]. unfold transfer, next_packet. rewrite M, S1. eexists. split; [reflexivity|]. split; [exact L|reflexivity]. }
    destruct E as (d1 & E & L1 & M1). rewrite E. specialize (IH d1 xs L1 M1 ltac:(cbn in Hl; lia) S2).
    destruct (live e hook d1 (map Go xs)) as [d2 o2]. cbn [snd] in *. rewrite IH. reflexivity.
Qed.
End P.
