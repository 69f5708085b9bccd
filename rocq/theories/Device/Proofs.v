(** Proofs about the loop: the replies, and the history of the authenticator. *)
From Verif Require Import Base Facts.
From Verif Require Hid.Model Hid.Spec Hid.Proofs Hid.Proofs2 Hid.Proofs3 U2f.Model Ctap.Machine Ctap.Commands Ctap.Parse Ctap.System Device.Wait.
From Verif Require Import Device.Loop Device.Spec.
Import Hid.Model Hid.Spec Hid.Proofs Hid.Proofs2 Hid.Proofs3 Ctap.Machine Ctap.Commands Ctap.Parse Ctap.System.
Import Device.Loop Device.Spec.
From Coq Require Import List Lia ZArith.
Import ListNotations.
Open Scope list_scope.

Section P.
Variable e : env.
Variable hook : world -> bytes -> Ctap.Machine.channel -> option (bytes * option (bytes * bytes) * option (bytes * bytes)).
Notation iter := (iterate e hook).
Notation max := (c_max_msg (e_cfg e)).
Notation packet_in := (ctap_packet core (ctap2 e hook) (ctap1 e) true max).

(** ** Replies *)

Definition queue (t : Hid.Model.transport) (d : device) : list packet :=
  match t with Hid.Model.MainHid => d_main d | Hid.Model.VendorHid => d_vendor d end.
Definition other (t : Hid.Model.transport) : Hid.Model.transport :=
  match t with Hid.Model.MainHid => Hid.Model.VendorHid | Hid.Model.VendorHid => Hid.Model.MainHid end.

Definition quiet (d : device) : Prop := d_main d = [] /\ d_vendor d = [].
Definition pending (d : device) (cur : list seen) : Prop :=
  exists t p now m sent, m_cid m = packet_chan p /\ (Nlen (m_payload m) <= 7609)%N /\
    framing m = sent ++ queue t d /\ queue t d <> [] /\ queue (other t) d = [] /\ cur = Got t p now :: map (Sent t) sent.
Definition talk (d : device) (tr : list seen) : Prop :=
  exists xs cur, tr = concat xs ++ cur /\ Forall exchange xs /\
    ((d_live d = true /\ ((quiet d /\ cur = []) \/ pending d cur)) \/ (d_live d = false /\ exists rest, finished (cur ++ rest))).

Lemma some_finished : exists l, finished l.
Proof. exists [Got Hid.Model.MainHid [] 0]. constructor. Qed.
Lemma pending_prefix d cur : pending d cur -> exists rest, finished (cur ++ rest).
Proof.
  intros (t & p & now & m & sent & C & L & F & _ & _ & ->). exists (map (Sent t) (queue t d)).
  cbn [app]. rewrite <- map_app, <- F. constructor; assumption.
Qed.
Lemma talk_prefix d tr : talk d tr -> exists xs cur rest, tr = concat xs ++ cur /\ Forall exchange xs /\ finished (cur ++ rest).
Proof.
  intros (xs & cur & -> & X & [(_ & [(_ & ->)|P])|(_ & r & R)]).
  - destruct some_finished as (l & H). exists xs, [], l. auto.
  - destruct (pending_prefix _ _ P) as (r & R). exists xs, cur, r. auto.
  - exists xs, cur, r. auto.
Qed.
Lemma snoc_exchange xs x : Forall exchange xs -> exchange x -> Forall exchange (xs ++ [x]).
Proof. intros A B. apply Forall_app. split; [exact A|]. constructor; [exact B|constructor]. Qed.
Lemma concat_snoc {A} (xs : list (list A)) x : concat (xs ++ [x]) = concat xs ++ x.
Proof. rewrite concat_app. cbn [concat]. now rewrite app_nil_r. Qed.

Lemma next_packet_spec d t p d1 : next_packet d = Some (t, p, d1) ->
  queue t d = p :: queue t d1 /\ queue (other t) d1 = queue (other t) d /\ d_ctap d1 = d_ctap d.
Proof.
  unfold next_packet. destruct (d_main d) as [|p0 ps] eqn:M.
  - destruct (d_vendor d) as [|p0 ps] eqn:V; [discriminate|]. intros H. injection H as <- <- <-. cbn. rewrite V, M. auto.
  - intros H. injection H as <- <- <-. cbn. rewrite M. auto.
Qed.
Lemma next_packet_none d : next_packet d = None -> quiet d.
Proof. unfold next_packet, quiet. destruct (d_main d); [|discriminate]. destruct (d_vendor d); [auto|discriminate]. Qed.

Lemma queue_world f d t : queue t (on_world f d) = queue t d.
Proof. destruct t; reflexivity. Qed.
Lemma live_world f d : d_live (on_world f d) = d_live d.
Proof. reflexivity. Qed.

Lemma talk_iterate d tr x d' o : input_ok x -> talk d tr -> iter d x = (d', o) -> talk d' (tr ++ o).
Proof.
  intros I T. unfold iterate. destruct (d_live d) eqn:Lv; cbn [negb].
  2: { intros H. injection H as <- <-. now rewrite app_nil_r. }
  destruct T as (xs & cur & -> & X & [(_ & Q)|(L & _)]); [|congruence].
  unfold transfer. destruct (next_packet d) as [[[t p] d1]|] eqn:N.
  - destruct (next_packet_spec _ _ _ _ N) as (Q1 & Q2 & Ec).
    destruct Q as [(Q & _)|Q].
    { destruct Q as (Qm & Qv). destruct t; cbn [queue] in Q1; congruence. }
    destruct Q as (t' & p' & now & m & sent & C & L & F & NE & O & ->).
    assert (t' = t) as ->.
    { destruct t', t; cbn [queue other] in *; try reflexivity; rewrite Q1 in O; discriminate O. }
    destruct (i_usb x) eqn:U.
    + intros H. injection H as <- <-. rewrite <- app_assoc.
      assert (F' : framing m = (sent ++ [p]) ++ queue t d1) by (rewrite <- app_assoc; cbn [app]; rewrite <- Q1; exact F).
      destruct (queue t d1) as [|q qs] eqn:Qd.
      * exists (xs ++ [Got t p' now :: map (Sent t) (sent ++ [p])]), []. rewrite concat_snoc, app_nil_r. cbn [app]. rewrite map_app. cbn [map].
        split; [reflexivity|]. split.
        { apply snoc_exchange; [exact X|]. left. change [Sent t p] with (map (Sent t) [p]). rewrite <- map_app.
          rewrite app_nil_r in F'. rewrite <- F'. constructor; assumption. }
        left. split; [rewrite live_world; unfold d_live in *; rewrite Ec; exact Lv|]. left. split; [|reflexivity]. unfold quiet.
        destruct t; cbn [queue other on_world d_main d_vendor] in *; rewrite Qd, Q2, O; auto.
      * exists xs, (Got t p' now :: map (Sent t) (sent ++ [p])). split; [rewrite map_app; reflexivity|]. split; [exact X|].
        left. split; [rewrite live_world; unfold d_live in *; rewrite Ec; exact Lv|]. right. exists t, p', now, m, (sent ++ [p]).
        rewrite !queue_world. rewrite Qd. repeat split; try assumption; [discriminate|]. rewrite Q2. exact O.
    + intros H. injection H as <- <-. rewrite <- app_assoc.
      exists (xs ++ [Got t p' now :: map (Sent t) sent ++ [Lost t p]]), []. rewrite concat_snoc, app_nil_r.
      split; [reflexivity|]. split.
      { apply snoc_exchange; [exact X|]. left. econstructor; try eassumption. rewrite <- Q1. exact F. }
      left. split; [rewrite live_world; destruct t; unfold d_live in *; cbn [set_queue d_ctap]; rewrite Ec; exact Lv|].
      left. split; [|reflexivity]. unfold quiet. destruct t; cbn [queue other on_world set_queue d_main d_vendor] in *; rewrite Q2; auto.
    + intros H. injection H as <- <-. rewrite app_nil_r. exists xs, (Got t p' now :: map (Sent t) sent). split; [reflexivity|].
      split; [exact X|]. right. split; [reflexivity|]. apply (pending_prefix d). exists t, p', now, m, sent. auto 10.
    + intros H. injection H as <- <-. rewrite app_nil_r. exists xs, (Got t p' now :: map (Sent t) sent). split; [reflexivity|].
      split; [exact X|]. right. split; [reflexivity|]. apply (pending_prefix d). exists t, p', now, m, sent. auto 10.
  - pose proof (next_packet_none _ N) as (Qm & Qv).
    destruct Q as [(_ & ->)|Q].
    2: { destruct Q as (t' & p' & now & m & sent & C & L & F & NE & O & _). destruct t'; cbn [queue] in NE; congruence. }
    rewrite app_nil_r.
    destruct (i_usb x) as [| |n p|] eqn:U.
    + intros H. injection H as <- <-. rewrite app_nil_r. exists xs, []. rewrite app_nil_r. split; [reflexivity|]. split; [exact X|].
      right. split; [reflexivity|]. exact some_finished.
    + intros H. injection H as <- <-. rewrite app_nil_r. exists xs, []. rewrite app_nil_r. split; [reflexivity|]. split; [exact X|].
      left. split; [exact Lv|]. left. split; [split; assumption|reflexivity].
    + unfold input_ok in I. rewrite U in I.
      destruct (endpoint_of n) as [t|].
      2: { intros H. injection H as <- <-. rewrite app_nil_r. exists xs, []. rewrite app_nil_r. split; [reflexivity|]. split; [exact X|].
           left. split; [exact Lv|]. left. split; [split; assumption|reflexivity]. }
      set (d1 := on_world _ d). set (now := w_now (d_world d1)).
      destruct (packet_in now (d_ctap d1) p t) as [c r] eqn:E. pose proof (ctap_response _ _ _ _ _ _ _ _ _ _ _ I E) as R.
      intros H. injection H as <- <-. cbn [app].
      destruct R as [->|(m & C & L & ->)].
      * exists (xs ++ [[Got t p now]]), []. rewrite concat_snoc, app_nil_r. split; [reflexivity|].
        split; [apply snoc_exchange; [exact X|left; constructor]|].
        destruct (d_live (mkDev c (d_main d1) (d_vendor d1))) eqn:Lc.
        -- left. split; [exact Lc|]. left. split; [split; assumption|reflexivity].
        -- right. split; [exact Lc|]. exact some_finished.
      * exists xs, [Got t p now]. split; [reflexivity|]. split; [exact X|].
        assert (NE : framing m <> []) by (unfold framing; discriminate).
        destruct (framing m) as [|f fs] eqn:Fm; [congruence|].
        match goal with |- (d_live ?D = true /\ _) \/ _ => destruct (d_live D) eqn:Lc end.
        -- left. split; [reflexivity|]. right. exists t, p, now, m, []. cbn [app map].
           repeat split; try assumption; destruct t; cbn [queue other set_queue d_main d_vendor]; try assumption; try (now rewrite Fm); discriminate.
        -- right. split; [reflexivity|]. exists (map (Sent t) (f :: fs)). cbn [app]. rewrite <- Fm. constructor; assumption.
    + intros H. injection H as <- <-. rewrite app_nil_r. exists xs, []. rewrite app_nil_r. split; [reflexivity|]. split; [exact X|].
      right. split; [reflexivity|]. exact some_finished.
Qed.

Lemma talk_new w xs : Forall exchange xs -> talk (device_new w) (concat xs).
Proof.
  intros X. exists xs, []. rewrite app_nil_r. split; [reflexivity|]. split; [exact X|]. left. split; [reflexivity|]. left. split; [split; reflexivity|reflexivity].
Qed.
Lemma talk_live1 d tr ev d' o : event_ok ev -> talk d tr -> live1 e hook d ev = (d', o) -> talk d' (tr ++ o).
Proof.
  intros I T. destruct ev as [x|x n|n]; cbn [live1].
  - apply talk_iterate; assumption.
  - destruct (iter d x) as [d1 o1] eqn:E. intros H. injection H as <- <-.
    pose proof (talk_iterate _ _ _ _ _ I T E) as T1. destruct (talk_prefix _ _ T1) as (xs & cur & rest & Et & X & R).
    rewrite app_assoc, Et, <- app_assoc, <- concat_snoc. apply talk_new. apply snoc_exchange; [exact X|]. right. eauto.
  - intros H. injection H as <- <-. rewrite app_nil_r. exact T.
Qed.
Lemma talk_live evs : forall d tr, Forall event_ok evs -> talk d tr -> talk (fst (live e hook d evs)) (tr ++ snd (live e hook d evs)).
Proof.
  induction evs as [|ev evs IH]; intros d tr I T; cbn [live]; [cbn [fst snd]; now rewrite app_nil_r|].
  inversion I as [|? ? I1 I2]; subst.
  destruct (live1 e hook d ev) as [d1 o1] eqn:E. specialize (IH d1 _ I2 (talk_live1 _ _ _ _ _ I1 T E)).
  destruct (live e hook d1 evs) as [d2 o2]. cbn [fst snd] in *. now rewrite app_assoc.
Qed.

(** ** The history *)

Definition chid (t : Hid.Model.transport) (c : ctap core) : ctap_hid :=
  match t with Hid.Model.MainHid => mh_hid (c_main _ c) | Hid.Model.VendorHid => c_vendor _ c end.
Definition fed (t : Hid.Model.transport) (d : device) (tr : list seen) : Prop :=
  exists evs, Forall ev_ok evs /\ h_asm (chid t (d_ctap d)) = fst (feed max asm_default evs) /\ received t tr = map arrival evs.

Lemma preprocess_asm now h m h' o : preprocess_message now h m = (h', o) -> h_asm h' = h_asm h.
Proof.
  unfold preprocess_message. destruct (negb (has_valid_channel h m)); [intros H; now injection H as <- _|].
  destruct (m_cmd m); try (intros H; now injection H as <- _).
  - destruct (m_payload m) as [|s [|? ?]]; try (intros H; now injection H as <- _).
    destruct (10 <? s)%N; [intros H; now injection H as <- _|]. destruct (s =? 0)%N; intros H; now injection H as <- _.
  - destruct (negb _); [intros H; now injection H as <- _|]. destruct (bytes_eqb (m_cid m) CHANNEL_BROADCAST); intros H; now injection H as <- _.
Qed.
Lemma preprocess_same now h m h' r : preprocess_message now h m = (h', Some r) -> m_cmd r = Msg \/ m_cmd r = Cbor -> r = m.
Proof.
  unfold preprocess_message, error_message. destruct (negb (has_valid_channel h m)).
  { intros H [C|C]; injection H as _ <-; discriminate C. }
  destruct (m_cmd m) eqn:Em; try (intros H; now injection H as _ <-); try (intros H [C|C]; injection H as _ <-; discriminate C); try discriminate.
  - destruct (m_payload m) as [|s [|? ?]]; try (intros H [C|C]; injection H as _ <-; discriminate C).
    destruct (10 <? s)%N; [|destruct (s =? 0)%N]; intros H [C|C]; injection H as _ <-; discriminate C.
  - destruct (negb _); [intros H [C|C]; injection H as _ <-; discriminate C|].
    destruct (bytes_eqb (m_cid m) CHANNEL_BROADCAST); intros H [C|C]; injection H as _ <-; discriminate C.
Qed.
Lemma locked_asm now h : h_asm (fst (locked_channel now h)) = h_asm h.
Proof. unfold locked_channel. destruct (is_elapsed _ _); reflexivity. Qed.
Lemma lock_asm now h h' b : has_channel_lock now h = (h', b) -> h_asm h' = h_asm h.
Proof.
  unfold has_channel_lock. intros H. rewrite <- (locked_asm now h). destruct (locked_channel now h). injection H as <- _. reflexivity.
Qed.
Lemma parse_asm now h p dis h' o : hid_parse max now h p dis = (h', o) ->
  exists l r, asm_parse max now (h_asm h) p l = (h_asm h', r) /\
    (forall m, o = Some m -> m_cmd m = Msg \/ m_cmd m = Cbor -> r = Ok (Some m)).
Proof.
  unfold hid_parse.
  assert (A : forall h0 l, (if dis then (h, Some CHANNEL_RESERVED) else locked_channel now h) = (h0, l) -> h_asm h0 = h_asm h).
  { intros h0 l. destruct dis; intros H; [now injection H as <- _|]. rewrite <- (locked_asm now h), H. reflexivity. }
  destruct (if dis then _ else _) as [h0 l]. specialize (A _ _ eq_refl). rewrite A.
  destruct (asm_parse max now (h_asm h) p l) as [a r] eqn:E. intros H. exists l, r. rewrite E.
  destruct r as [[m|]|[c er]].
  - pose proof (preprocess_asm _ _ _ _ _ H) as Ea. cbn [h_asm] in Ea. rewrite Ea. split; [reflexivity|].
    intros m' -> C. rewrite (preprocess_same _ _ _ _ _ H C). reflexivity.
  - injection H as <- <-. split; [reflexivity|]. discriminate.
  - injection H as <- <-. split; [reflexivity|]. intros m Hm C. exfalso.
    destruct er; try discriminate Hm; destruct (negb _); injection Hm as <-; destruct C as [C|C]; discriminate C.
Qed.

Lemma ctap2_op now s b ch s' r : ctap2 e hook now s b ch = (s', r) ->
  exists o, fst s' = run1 e o (fst s) /\ (o = OpMessage b (channel_of ch) \/ exists batch ent, o = OpVendor (channel_of ch) batch ent).
Proof.
  unfold ctap2, run1. destruct s as [w lv]. cbn [fst]. destruct (hook w b (channel_of ch)) as [[[r0 batch] ent]|].
  - intros H. injection H as <- _. exists (OpVendor (channel_of ch) batch ent). split; [reflexivity|]. eauto.
  - intros H. exists (OpMessage b (channel_of ch)). split; [|auto].
    destruct (run_op e (OpMessage b (channel_of ch)) w) as [[r1| |] w1]; cbn [snd].
    + destruct (response_bytes (e_cfg e) r1); injection H as <- _; reflexivity.
    + injection H as <- _; reflexivity.
    + injection H as <- _; reflexivity.
Qed.
Lemma ctap1_op now s b s' r : ctap1 e now s b = (s', r) -> fst s' = run1 e (OpU2f b) (fst s).
Proof.
  unfold ctap1, run1. destruct s as [w lv]. cbn [fst]. destruct (run_op e (OpU2f b) w) as [[|[x|[]]|] w1]; cbn [snd]; intros H; injection H as <- _; reflexivity.
Qed.

Lemma packet_step now c p t c' r : packet_in now c p t = (c', r) ->
  h_asm (chid (other t) c') = h_asm (chid (other t) c) /\
  exists l res, asm_parse max now (h_asm (chid t c)) p l = (h_asm (chid t c'), res) /\
    (c_state _ c' = c_state _ c \/
     exists m o, res = Ok (Some m) /\ m_cid m = packet_chan p /\ asks t m o /\ fst (c_state _ c') = run1 e o (fst (c_state _ c))).
Proof.
  unfold ctap_packet. destruct t; cbn [chid other].
  - destruct (has_channel_lock now (c_vendor core c)) as [v dis] eqn:Lk. apply lock_asm in Lk. unfold main_packet.
    destruct (hid_parse max now (mh_hid (c_main core c)) p dis) as [h [m|]] eqn:E; destruct (parse_asm _ _ _ _ _ _ E) as (l & res & A & M).
    + pose proof (parse_cid _ _ _ _ _ _ _ E) as Hc.
      destruct (main_process _ _ _ _ _ _ _) as [[s r1] k] eqn:P. intros H. injection H as <- <-. cbn [c_main c_vendor c_state mh_hid].
      split; [exact Lk|]. exists l, res. split; [exact A|]. unfold main_process in P.
      destruct (m_cmd m) eqn:Em; try (injection P as <- _ _; left; reflexivity).
      * destruct (ctap1 e now (c_state core c) (m_payload m)) as [s1 x] eqn:P1. injection P as <- _ _. right. exists m, (OpU2f (m_payload m)).
        split; [apply M; auto|]. split; [exact Hc|]. split; [unfold asks; rewrite Em; auto|]. exact (ctap1_op _ _ _ _ _ P1).
      * destruct (m_payload m); injection P as <- _ _; left; reflexivity.
      * destruct (ctap2 e hook now (c_state core c) (m_payload m) (MainChannel (m_cid m))) as [s1 x] eqn:P1. injection P as <- _ _. right.
        destruct (ctap2_op _ _ _ _ _ _ P1) as (o & Ho & K). exists m, o.
        split; [apply M; auto|]. split; [exact Hc|]. split; [unfold asks; rewrite Em; exact K|exact Ho].
    + intros H. injection H as <- <-. cbn [c_main c_vendor c_state mh_hid]. split; [exact Lk|]. exists l, res. auto.
  - destruct (has_channel_lock now (mh_hid (c_main core c))) as [v dis] eqn:Lk. apply lock_asm in Lk. unfold vendor_packet.
    destruct (hid_parse max now (c_vendor core c) p dis) as [h [m|]] eqn:E; destruct (parse_asm _ _ _ _ _ _ E) as (l & res & A & M).
    + pose proof (parse_cid _ _ _ _ _ _ _ E) as Hc.
      destruct (vendor_process _ _ _ _ _) as [s r1] eqn:P. intros H. injection H as <- <-. cbn [c_main c_vendor c_state mh_hid].
      split; [exact Lk|]. exists l, res. split; [exact A|]. unfold vendor_process in P.
      destruct (m_cmd m) eqn:Em; try (injection P as <- _; left; reflexivity).
      destruct (ctap2 e hook now (c_state core c) (m_payload m) (VendorChannel (m_cid m))) as [s1 x] eqn:P1. injection P as <- _. right.
      destruct (ctap2_op _ _ _ _ _ _ P1) as (o & Ho & K). exists m, o.
      split; [apply M; auto|]. split; [exact Hc|]. split; [unfold asks; rewrite Em; exact K|exact Ho].
    + intros H. injection H as <- <-. cbn [c_main c_vendor c_state mh_hid]. split; [exact Lk|]. exists l, res. auto.
Qed.

Lemma received_snoc t tr s : received t (tr ++ [s]) = received1 t (received t tr) s.
Proof. unfold received. now rewrite fold_left_app. Qed.
Lemma teqb_refl t : teqb t t = true. Proof. destruct t; reflexivity. Qed.
Lemma teqb_other t : teqb t (other t) = false. Proof. destruct t; reflexivity. Qed.
Lemma t_cases (t t' : Hid.Model.transport) : t' = t \/ t' = other t. Proof. destruct t, t'; auto. Qed.

Hypothesis max_ok : (max <= 7609)%N.

Lemma fed_seen t d d' tr s : match s with Sent _ _ | Lost _ _ => True | _ => False end ->
  (h_asm (chid t (d_ctap d')) = h_asm (chid t (d_ctap d))) -> fed t d tr -> fed t d' (tr ++ [s]).
Proof.
  intros S A (evs & O & F & R). exists evs. split; [exact O|]. split; [now rewrite A|]. rewrite received_snoc. destruct s; cbn [received1]; try exact R; destruct S.
Qed.
Lemma fed_same t d d' tr : (h_asm (chid t (d_ctap d')) = h_asm (chid t (d_ctap d))) -> fed t d tr -> fed t d' tr.
Proof. intros A (evs & O & F & R). exists evs. rewrite A. auto. Qed.

(** The operations of an iteration: those that happen by themselves, and at most one request. *)
Definition runs (ops : list op) (w : world) : world := fold_left (fun w o => run1 e o w) ops w.

Lemma iterate_ops d x d' o tr : input_ok x -> (forall t, fed t d tr) -> iter d x = (d', o) ->
  (forall t, fed t d' (tr ++ o)) /\
  exists ops, (Forall by_itself ops /\ (touches (map (fun o => (o, None)) ops) <= presses [Go x])%nat /\ (ticks (map (fun o => (o, None)) ops) <= i_time x)%N) /\
    w_log (runs ops (d_world d)) = w_log (d_world d) /\
    ((d_world d' = runs ops (d_world d) /\ (forall s, In s o -> s <> Off) /\ (length o <= 1)%nat) \/
     exists t p now m o1, o = [Got t p now] /\ completes (received t (tr ++ o)) m /\ m_cid m = packet_chan p /\ asks t m o1 /\
       d_world d' = run1 e o1 (runs ops (d_world d))).
Proof.
  intros I T. unfold iterate. destruct (d_live d) eqn:Lv; cbn [negb].
  2: { intros H. injection H as <- <-. rewrite app_nil_r. split; [exact T|]. exists []. split; [split; [constructor|split; cbn [map touches ticks filter length fold_right]; lia]|]. split; [reflexivity|].
       left. split; [reflexivity|]. split; [intros s []|cbn; lia]. }
  set (ops := OpTick (i_time x) :: if i_touch x then [OpTouch] else []).
  assert (Oi : Forall by_itself ops /\ (touches (map (fun o => (o, None)) ops) <= presses [Go x])%nat /\ (ticks (map (fun o => (o, None)) ops) <= i_time x)%N).
  { unfold ops, presses. cbn [filter input_of]. destruct (i_touch x); (split; [repeat constructor|]); split; cbn [map touches ticks filter length fold_right fst]; lia. }
  assert (Ol : forall w, w_log (runs ops w) = w_log w) by (intros w; unfold ops; destruct (i_touch x); reflexivity).
  assert (Ow : forall d, d_world (on_world (fun w => (if i_touch x then run1 e OpTouch else fun w => w) (run1 e (OpTick (i_time x)) w)) d) = runs ops (d_world d)).
  { intros d0. unfold ops. destruct (i_touch x); reflexivity. }
  unfold transfer. destruct (next_packet d) as [[[t p] d1]|] eqn:N.
  - destruct (next_packet_spec _ _ _ _ N) as (_ & _ & Ec).
    assert (Hw : d_world d1 = d_world d) by (unfold d_world; now rewrite Ec).
    destruct (i_usb x) eqn:U; intros H; injection H as <- <-.
    + split; [intros t'; apply fed_seen with d; [exact Logic.I|now cbn [on_world d_ctap set_core chid c_main c_vendor]; rewrite ?Ec; destruct t'|apply T]|].
      exists ops. rewrite Ow, Hw. split; [exact Oi|]. split; [apply Ol|]. left. split; [reflexivity|]. split; [intros s [<-|[]]; discriminate|cbn; lia].
    + split; [intros t'; apply fed_seen with d; [exact Logic.I|destruct t; cbn [on_world set_queue d_ctap set_core chid c_main c_vendor]; rewrite ?Ec; destruct t'; reflexivity|apply T]|].
      exists ops. rewrite Ow. assert (d_world (set_queue t [] d1) = d_world d) as -> by (destruct t; exact Hw).
      split; [exact Oi|]. split; [apply Ol|]. left. split; [reflexivity|]. split; [intros s [<-|[]]; discriminate|cbn; lia].
    + rewrite app_nil_r. split; [intros t'; apply fed_same with d; [unfold halt; cbn [d_ctap set_core chid c_main c_vendor]; rewrite ?Ec; destruct t'; reflexivity|apply T]|].
      exists []. split; [split; [constructor|split; cbn [map touches ticks filter length fold_right]; lia]|]. split; [reflexivity|]. left. split; [exact Hw|]. split; [intros s []|cbn; lia].
    + rewrite app_nil_r. split; [intros t'; apply fed_same with d; [unfold halt; cbn [d_ctap set_core chid c_main c_vendor]; rewrite ?Ec; destruct t'; reflexivity|apply T]|].
      exists []. split; [split; [constructor|split; cbn [map touches ticks filter length fold_right]; lia]|]. split; [reflexivity|]. left. split; [exact Hw|]. split; [intros s []|cbn; lia].
  - destruct (i_usb x) as [| |n p|] eqn:U.
    + intros H; injection H as <- <-. rewrite app_nil_r. split; [intros t'; apply fed_same with d; [destruct t'; reflexivity|apply T]|].
      exists []. split; [split; [constructor|split; cbn [map touches ticks filter length fold_right]; lia]|]. split; [reflexivity|]. left. split; [reflexivity|]. split; [intros s []|cbn; lia].
    + intros H; injection H as <- <-. rewrite app_nil_r. split; [intros t'; apply fed_same with d; [destruct t'; reflexivity|apply T]|].
      exists ops. split; [exact Oi|]. split; [apply Ol|]. left. split; [apply Ow|]. split; [intros s []|cbn; lia].
    + unfold input_ok in I. rewrite U in I. destruct (endpoint_of n) as [t|].
      2: { intros H; injection H as <- <-. rewrite app_nil_r. split; [intros t'; apply fed_same with d; [destruct t'; reflexivity|apply T]|].
           exists ops. split; [exact Oi|]. split; [apply Ol|]. left. split; [apply Ow|]. split; [intros s []|cbn; lia]. }
      specialize (Ow d). set (d1 := on_world _ d) in *. set (now := w_now (d_world d1)).
      destruct (packet_in now (d_ctap d1) p t) as [c r] eqn:E. destruct (packet_step _ _ _ _ _ _ E) as (Eo & l & res & A & St).
      intros H. cbn [app] in H. assert (Hc : d_ctap d' = c) by (injection H as <- _; destruct r; [|destruct t]; reflexivity).
      injection H as _ <-. fold now.
      destruct (T t) as (evs & O & F & R).
      assert (A1 : forall t, h_asm (chid t (d_ctap d1)) = h_asm (chid t (d_ctap d))) by (intros []; reflexivity).
      rewrite (A1 t), F in A.
      assert (R1 : received t (tr ++ [Got t p now]) = map arrival (evs ++ [(now, l, p)])).
      { rewrite received_snoc. cbn [received1]. rewrite teqb_refl, R, map_app. reflexivity. }
      split.
      * intros t'. destruct (t_cases t t') as [->| ->].
        -- exists (evs ++ [(now, l, p)]). split; [apply Forall_app; split; [exact O|]; constructor; [exact I|constructor]|].
           split; [|exact R1]. rewrite feed_app. destruct (feed max asm_default evs) as [a outs] eqn:Fe. cbn [fst] in *.
           cbn [feed]. rewrite A. cbn [fst]. rewrite Hc. reflexivity.
        -- destruct (T (other t)) as (evs' & O' & F' & R'). exists evs'. split; [exact O'|].
           rewrite Hc, Eo, A1. split; [exact F'|]. rewrite received_snoc. cbn [received1]. rewrite teqb_other. exact R'.
      * exists ops. split; [exact Oi|]. split; [apply Ol|].
        assert (Hw : d_world d' = fst (c_state _ c)) by (unfold d_world; now rewrite Hc).
        destruct St as [St|(m & o1 & -> & Cm & As & St)].
        -- left. split; [|split; [intros s [<-|[]]; discriminate|cbn; lia]]. rewrite Hw, St. exact Ow.
        -- right. exists t, p, now, m, o1. split; [reflexivity|]. split; [|split; [exact Cm|split; [exact As|]]].
           ++ destruct (feed max asm_default evs) as [a outs] eqn:Fe. cbn [fst] in A.
              destruct (delivered_provenance max evs now l p a outs _ m max_ok O I Fe A) as (pre & ses & cmd & len & tt & k & data & E1 & E2 & E3 & E4 & E5 & _ & _).
              exists (map arrival pre), ses, cmd, len, tt, k, data. rewrite R1, E1, map_app. auto.
           ++ rewrite Hw, St, <- Ow. reflexivity.
    + intros H; injection H as <- <-. rewrite app_nil_r. split; [intros t'; apply fed_same with d; [destruct t'; reflexivity|apply T]|].
      exists []. split; [split; [constructor|split; cbn [map touches ticks filter length fold_right]; lia]|]. split; [reflexivity|]. left. split; [reflexivity|]. split; [intros s []|cbn; lia].
Qed.

Lemma story_ops tr ops : Forall by_itself ops -> forall h, story tr h -> story tr (h ++ map (fun o => (o, None)) ops).
Proof.
  intros B. induction B as [|o ops Bo B IH]; intros h S; cbn [map]; [now rewrite app_nil_r|].
  specialize (IH _ (story_itself _ _ _ S Bo)). rewrite <- app_assoc in IH. exact IH.
Qed.
Lemma run_ops ops : forall w, fold_left (step e) (map (fun o => (o, None)) ops) w = runs ops w.
Proof. induction ops as [|o ops IH]; intros w; cbn [map fold_left runs]; [reflexivity|]. rewrite IH. reflexivity. Qed.

Definition accounted (d : device) (tr : list seen) (n : nat) (t : N) : Prop :=
  (forall t, fed t d tr) /\ exists h, (d_world d = run e h /\ story tr h) /\ (touches h <= n)%nat /\ (ticks h <= t)%N.
Lemma touches_app a b : touches (a ++ b) = (touches a + touches b)%nat.
Proof. unfold touches. now rewrite filter_app, app_length. Qed.
Lemma ticks_app a b : ticks (a ++ b) = (ticks a + ticks b)%N.
Proof. unfold ticks. induction a as [|x a IH]; cbn [app fold_right]; [reflexivity|]. rewrite IH. lia. Qed.
Lemma asks_quiet t m o k : asks t m o -> touches [(o, k)] = 0%nat /\ ticks [(o, k)] = 0%N.
Proof.
  unfold asks. destruct (m_cmd m); try (intros []; fail).
  - intros (_ & ->). auto.
  - intros [->|(b & n & ->)]; auto.
Qed.

Lemma story_seens o : forall tr h, story tr h -> (forall s, In s o -> s <> Off) -> story (tr ++ o) h.
Proof.
  induction o as [|s o IH]; intros tr h S N; [now rewrite app_nil_r|].
  change (s :: o) with ([s] ++ o). rewrite app_assoc. apply IH; [constructor; [exact S|apply N; now left]|]. intros s' H. apply N. now right.
Qed.

Lemma presses_cut x n : presses [Cut x n] = presses [Go x].
Proof. unfold presses. cbn [filter input_of]. destruct (i_touch x); reflexivity. Qed.
Lemma accounted_live1 d tr n0 t0 ev d' o : event_ok ev -> accounted d tr n0 t0 -> live1 e hook d ev = (d', o) ->
  accounted d' (tr ++ o) (n0 + presses [ev]) (t0 + i_time (input_of ev)).
Proof.
  intros I (T & h & (W & S) & Ct & Cd). destruct ev as [x|x n|n]; cbn [live1].
  - intros H. destruct (iterate_ops _ _ _ _ _ I T H) as (T' & ops & (B & Bt & Bd) & _ & [(W' & N & _)|(t & p & now & m & o1 & -> & C & Cm & As & W')]);
      (split; [exact T'|]); pose proof (story_ops _ _ B _ S) as S1.
    + exists (h ++ map (fun o => (o, None)) ops). split; [|rewrite touches_app, ticks_app; cbn [input_of]; lia]. split; [|apply story_seens; assumption].
      unfold run. rewrite fold_left_app, run_ops, W', W. reflexivity.
    + exists ((h ++ map (fun o => (o, None)) ops) ++ [(o1, None)]). split; [|destruct (asks_quiet _ _ _ None As) as (Q1 & Q2); rewrite !touches_app, !ticks_app, Q1, Q2; cbn [input_of]; lia]. split; [|exact (story_asked tr _ t p now m o1 S1 C Cm As)].
      unfold run. rewrite !fold_left_app, run_ops. cbn [fold_left]. rewrite W', W. reflexivity.
  - destruct (iter d x) as [d1 o0] eqn:E. intros H. injection H as <- <-.
    destruct (iterate_ops _ _ _ _ _ I T E) as (T' & ops & (B & Bt & Bd) & Lg & Cs). pose proof (story_ops _ _ B _ S) as S1.
    split.
    { intros t. exists []. split; [constructor|]. split; [destruct t; reflexivity|]. rewrite app_assoc, received_snoc. reflexivity. }
    destruct Cs as [(W' & N & _)|(t & p & now & m & o1 & -> & C & Cm & As & W')].
    + exists ((h ++ map (fun o => (o, None)) ops) ++ [(OpTick 0, Some n)]). split; [|rewrite !touches_app, !ticks_app; cbn [input_of touches ticks filter fold_right fst length]; rewrite (presses_cut x n); lia]. split.
      * unfold run. rewrite !fold_left_app, run_ops. cbn [fold_left]. fold (run e h). rewrite <- W.
        unfold device_new, d_world at 1. cbn [d_ctap c_state fst]. unfold step. cbn [fst snd]. f_equal.
        unfold lose_power. cbn [run_op snd w_log w_v w_now w_rng w_up w_op]. rewrite W', Lg, N.add_0_r. reflexivity.
      * rewrite app_assoc. apply story_off. apply story_seens; [exact S1|exact N].
    + exists ((h ++ map (fun o => (o, None)) ops) ++ [(o1, Some n)]). split; [|destruct (asks_quiet _ _ _ (Some n) As) as (Q1 & Q2); rewrite !touches_app, !ticks_app, Q1, Q2; cbn [input_of]; rewrite (presses_cut x n); lia]. split.
      * unfold run. rewrite !fold_left_app, run_ops. cbn [fold_left]. fold (run e h). rewrite <- W.
        unfold device_new, d_world at 1. cbn [d_ctap c_state fst]. unfold step. cbn [fst snd]. f_equal.
        unfold lose_power. rewrite W', Lg. reflexivity.
      * cbn [app]. exact (story_cut tr _ t p now m o1 n S1 C Cm As).
  - intros H. injection H as <- <-. rewrite app_nil_r. split; [intros t; apply fed_same with d; [destruct t; reflexivity|apply T]|].
    exists (h ++ [(OpCompact n, None)]). split; [|rewrite touches_app, ticks_app; cbn [touches ticks filter fold_right fst length]; lia]. split; [|apply story_itself; [exact S|exact Logic.I]].
    unfold run. rewrite fold_left_app. fold (run e h). rewrite <- W. reflexivity.
Qed.
Lemma accounted_live evs : forall d tr n t, Forall event_ok evs -> accounted d tr n t ->
  accounted (fst (live e hook d evs)) (tr ++ snd (live e hook d evs)) (n + presses evs) (t + elapsed evs).
Proof.
  induction evs as [|ev evs IH]; intros d tr n t I T; cbn [live].
  - cbn [fst snd elapsed fold_right]. rewrite app_nil_r, N.add_0_r. change (presses []) with 0%nat. now rewrite Nat.add_0_r.
  - inversion I as [|? ? I1 I2]; subst.
    destruct (live1 e hook d ev) as [d1 o1] eqn:E. specialize (IH d1 _ _ _ I2 (accounted_live1 _ _ _ _ _ _ _ I1 T E)).
    destruct (live e hook d1 evs) as [d2 o2]. cbn [fst snd elapsed fold_right] in *. fold (elapsed evs) in *.
    assert (presses (ev :: evs) = (presses [ev] + presses evs)%nat) as -> by (unfold presses; cbn [filter]; destruct (i_touch (input_of ev)); reflexivity).
    rewrite app_assoc, Nat.add_assoc, N.add_assoc. exact IH.
Qed.
End P.
