(** The correct PIN is accepted: total correctness of the PIN commands when the storage works. *)
From Verif Require Import Base Facts Hid.Model U2f.Model Cbor.Model Ctap.Crypto Ctap.Types Ctap.Machine
  Ctap.Commands Ctap.Parse Ctap.System Ctap.Logic Ctap.History Ctap.Track Ctap.Pin Ctap.PinChange Ctap.Stored Ctap.Seal.
From Coq Require Import Lia List.
Import ListNotations.

(** The computation succeeds, with such a result. *)
Definition ends {E A} (m : M E A) (w : world) (Q : A -> world -> Prop) : Prop :=
  exists a w', m w = (Ok a, w') /\ Q a w'.

Section Ends.
  Variable e : env.
  Hypothesis NF : nofault e.

  Lemma e_bind {E A B} (m : M E A) (k : A -> M E B) w Q :
    ends m w (fun a w' => ends (k a) w' Q) -> ends (bind m k) w Q.
  Proof. intros (a & w1 & H & b & w2 & H2 & q). exists b, w2. unfold bind. rewrite H. auto. Qed.
  Lemma e_ret {E A} (a : A) w (Q : A -> world -> Prop) : Q a w -> ends (E := E) (ret a) w Q.
  Proof. intro H. exists a, w. auto. Qed.
  Lemma e_load {A} (f : pers -> A) w (Q : A -> world -> Prop) :
    (forall w1, w_p w1 = w_p w -> w_v w1 = w_v w -> w_now w1 = w_now w -> Q (f (w_p w)) w1) -> ends (load e f) w Q.
  Proof. intro H. unfold ends, load. rewrite NF. eexists _, _. split; [reflexivity | ]. apply H; reflexivity. Qed.
  Lemma e_store (f : pers -> pers) w (Q : unit -> world -> Prop) :
    (forall w1, w_p w1 = f (w_p w) -> w_v w1 = w_v w -> w_now w1 = w_now w -> Q tt w1) -> ends (store e f) w Q.
  Proof. intro H. unfold ends, store. rewrite NF. eexists _, _. split; [reflexivity | ]. apply H; reflexivity. Qed.
  Lemma e_draw {E} n w (Q : bytes -> world -> Prop) :
    (forall i w1, w_p w1 = w_p w -> w_v w1 = w_v w -> w_now w1 = w_now w -> Q (e_rnd e i n) w1) -> ends (E := E) (draw e n) w Q.
  Proof. intro H. unfold ends, draw. eexists _, _. split; [reflexivity | ]. apply H; reflexivity. Qed.
  Lemma e_gets {E A} (f : vol -> A) w (Q : A -> world -> Prop) : Q (f (w_v w)) w -> ends (E := E) (gets f) w Q.
  Proof. intro H. eexists _, _. split; [reflexivity | exact H]. Qed.
  Lemma e_now {E} w (Q : N -> world -> Prop) : Q (w_now w) w -> ends (E := E) now w Q.
  Proof. intro H. eexists _, _. split; [reflexivity | exact H]. Qed.
  Lemma e_modify {E} f w (Q : unit -> world -> Prop) :
    (forall w1, w_p w1 = w_p w -> w_v w1 = f (w_v w) -> w_now w1 = w_now w -> Q tt w1) -> ends (E := E) (modify f) w Q.
  Proof. intro H. eexists _, _. split; [reflexivity | ]. apply H; reflexivity. Qed.
  Lemma e_emit {E} ev w (Q : unit -> world -> Prop) :
    (forall w1, w_p w1 = w_p w -> w_v w1 = w_v w -> w_now w1 = w_now w -> Q tt w1) -> ends (E := E) (emit ev) w Q.
  Proof. intro H. eexists _, _. split; [reflexivity | ]. apply H; reflexivity. Qed.
  Lemma e_guard {E} b (s : E) w (Q : unit -> world -> Prop) : b = true -> Q tt w -> ends (guard b s) w Q.
  Proof. intros -> H. eexists _, _. split; [reflexivity | exact H]. Qed.
  Lemma e_lift {E A} (r : res E A) a w (Q : A -> world -> Prop) : r = Ok a -> Q a w -> ends (lift r) w Q.
  Proof. intros -> H. eexists _, _. split; [reflexivity | exact H]. Qed.
End Ends.

Section Owner.
  Variable e : env.
  Notation pr := (e_prims e).
  Hypothesis NF : nofault e.
  Hypothesis K : prims_ok pr.
  Hypothesis R : rnd_ok e.

  (** What the wait for a message does not touch. *)
  Lemma preamble_pin x ch w :
    exists w1, preamble x ch w = (Ok tt, w1) /\ w_p w1 = w_p w /\ w_now w1 = w_now w /\
      v_mism (w_v w1) = v_mism (w_v w) /\ v_proto1 (w_v w1) = v_proto1 (w_v w) /\ v_proto2 (w_v w1) = v_proto2 (w_v w).
  Proof.
    unfold preamble. destruct (keeps x (sf_cmd (v_st (w_v (snd (get_command (snd (clear_other_channels ch (snd (update_timeouts w)))))))))) eqn:E.
    - eexists. split; [cbn; cbn in E; rewrite E; reflexivity | cbn; auto 10].
    - eexists. split; [cbn; cbn in E; rewrite E; reflexivity | cbn; auto 10].
  Qed.

  Lemma decap_proto sk ka pp s : decapsulate pr sk ka pp = Ok s -> sh_proto s = pp.
  Proof.
    unfold decapsulate. destruct (ecdh_coordinates ka) as [xy | ]; [ | discriminate]. cbn [rbind].
    destruct (ecdh_on_curve pr xy); [ | discriminate]. intro H. injection H as <-. destruct pp; reflexivity.
  Qed.

  Lemma e_shared pp ka s w (Q : shared -> world -> Prop) :
    decapsulate pr (pp_key (proto_of pp (w_v w))) ka pp = Ok s -> Q s w -> ends (get_shared_secret e pp ka) w Q.
  Proof. intros D H. unfold get_shared_secret. apply e_bind, e_gets. rewrite D. now apply e_ret. Qed.

  Lemma e_encrypt s plain w (Q : bytes -> world -> Prop) :
    bytes_ok plain = true -> (length plain mod 16 = 0)%nat ->
    (forall ct w1, shared_decrypt pr s ct = Some plain -> w_p w1 = w_p w -> w_v w1 = w_v w -> w_now w1 = w_now w -> Q ct w1) ->
    ends (shared_encrypt_m e s plain) w Q.
  Proof.
    intros O L H. unfold shared_encrypt_m. apply e_bind.
    assert (G : forall iv w1, length iv = 16%nat -> bytes_ok iv = true ->
      w_p w1 = w_p w -> w_v w1 = w_v w -> w_now w1 = w_now w ->
      ends match shared_encrypt pr s iv plain with Some x => ret x | None => fail INVALID_PARAMETER end w1 Q).
    { intros iv w1 Li Oi P V N. unfold shared_encrypt.
      destruct (cbc_roundtrip pr (sh_aes s) iv (embeds (sh_proto s)) plain K Li Oi O L) as (ct & -> & _ & _ & D).
      apply e_ret. apply H; auto. }
    destruct (embeds (sh_proto s)) eqn:Em.
    - apply e_draw. intros i w1 P V N. apply G; auto; apply R.
    - apply e_ret.
      assert (X : shared_encrypt pr s [] plain = shared_encrypt pr s zero_iv plain) by (unfold shared_encrypt; rewrite Em; reflexivity).
      rewrite X. apply G; auto.
  Qed.

  (** ** The comparison with the stored PIN *)
  Lemma e_verify pp s enc h len w (Q : unit -> world -> Prop) :
    p_pin (w_p w) = Some (h, len) -> (v_mism (w_v w) < 3)%N -> shared_decrypt pr s enc = Some h ->
    (forall w1, w_p w1 = set_retries None (w_p w) \/ w_p w1 = set_retries None (set_retries (Some (retries_of e (w_p w) - 1)%N) (w_p w)) ->
       w_v w1 = set_mism 0%N (w_v w) -> w_now w1 = w_now w -> Q tt w1) ->
    ends (verify_pin_hash_enc e pp s enc) w Q.
  Proof.
    intros P M D H. unfold verify_pin_hash_enc. apply e_bind, e_load; [exact NF | ]. intros w1 P1 V1 N1.
    rewrite P. cbn [option_map fst]. apply e_bind, e_gets. apply e_bind, e_guard.
    { rewrite V1, negb_true_iff, N.leb_gt. exact M. }
    apply e_bind. unfold decr_pin_retries, pin_retries. apply e_bind, e_load; [exact NF | ]. intros w2 P2 V2 N2.
    assert (T : forall w3, w_p w3 = w_p w \/ w_p w3 = set_retries (Some (retries_of e (w_p w) - 1)%N) (w_p w) ->
      w_v w3 = w_v w -> w_now w3 = w_now w ->
      ends (let* d := shared_decrypt_m e s enc PIN_INVALID in
        do* emit (EvCompare (bytes_eqb h d)) in
        do* (if bytes_eqb h d then ret tt
             else
               do* regenerate e pp in
               let* r := pin_retries e in
               do* guard (negb (r =? 0)%N) PIN_BLOCKED in
               do* modify (fun v => set_mism (v_mism v + 1)%N v) in
               let* m := gets v_mism in
               do* guard (negb (3 <=? m)%N) PIN_AUTH_BLOCKED in
               fail PIN_INVALID) in
        do* reset_pin_retries e in
        modify (set_mism 0%N)) w3 Q).
    { intros w3 P3 V3 N3. apply e_bind. unfold shared_decrypt_m. rewrite D. apply e_ret.
      apply e_bind, e_emit. intros w4 P4 V4 N4. rewrite bytes_eqb_refl. apply e_bind, e_ret.
      apply e_bind. unfold reset_pin_retries. apply e_store; [exact NF | ]. intros w5 P5 V5 N5.
      apply e_modify. intros w6 P6 V6 N6. apply H; [ | congruence | congruence].
      rewrite P6, P5, P4. destruct P3 as [-> | ->]; auto. }
    rewrite P1. destruct (_ =? _)%N.
    - apply e_ret. apply T; [left | | ]; congruence.
    - apply e_store; [exact NF | ]. intros w3 P3 V3 N3. apply T; [right | | ]; congruence.
  Qed.

  (** ** Tokens *)
  Record token_given (pp : pin_proto) (s : shared) (perms : N) (rp : option bytes) (w : world) (r : option pin_resp) (w' : world) : Prop := {
    tg_answer : exists ct, r = Some (mkPinResp None (Some ct) None None) /\
      shared_decrypt pr s ct = Some (pp_token (proto_of pp (w_v w')));
    tg_token : v_token (w_v w') = mkToken perms rp (make_timer (w_now w) TOKEN_TIMEOUT_MS) true true;
    tg_pin : p_pin (w_p w') = p_pin (w_p w);
    tg_retries : p_retries (w_p w') = None;
    tg_mism : v_mism (w_v w') = 0%N;
    tg_random : exists i, pp_token (proto_of pp (w_v w')) = e_rnd e i 32 }.

  Lemma e_token p ka enc s h len w :
    pi_key p = Some ka -> pi_hash p = Some enc -> pi_perms p = None -> pi_rp p = None ->
    decapsulate pr (pp_key (proto_of (pi_proto p) (w_v w))) ka (pi_proto p) = Ok s ->
    shared_decrypt pr s enc = Some h -> p_pin (w_p w) = Some (h, len) ->
    (0 < retries_of e (w_p w))%N -> (v_mism (w_v w) < 3)%N -> p_force (w_p w) = false ->
    ends (process_get_pin_token e p) w (token_given (pi_proto p) s 3 None w).
  Proof.
    intros Hk Hh Hpe Hrp D Dec P Re M Fo. unfold process_get_pin_token.
    rewrite Hk, Hh, Hpe, Hrp. cbn [ok_or_missing].
    apply e_bind, (e_lift _ ka); [reflexivity | ]. apply e_bind, (e_lift _ enc); [reflexivity | ].
    apply e_bind, e_guard; [reflexivity | ]. apply e_bind. unfold pin_retries. apply e_load; [exact NF | ]. intros w1 P1 V1 N1.
    apply e_bind, e_guard. { rewrite negb_true_iff. apply N.eqb_neq. lia. }
    apply e_bind, (e_shared _ _ s); [now rewrite V1 | ].
    apply e_bind, (e_verify _ _ _ h len); [congruence | congruence | exact Dec | ]. intros w2 P2 V2 N2.
    apply e_bind. unfold has_force_pin_change. apply e_load; [exact NF | ]. intros w3 P3 V3 N3.
    assert (F2 : p_force (w_p w2) = false /\ p_pin (w_p w2) = p_pin (w_p w) /\ p_retries (w_p w2) = None).
    { destruct P2 as [-> | ->]; cbn; rewrite P1; auto. }
    destruct F2 as (F2 & F3 & F4). apply e_bind, e_guard; [now rewrite F2 | ].
    apply e_bind. unfold reset_token. apply e_bind, e_draw. intros i1 w4 P4 V4 N4. apply e_modify. intros w5 P5 V5 N5.
    apply e_bind. unfold reset_token. apply e_bind, e_draw. intros i2 w6 P6 V6 N6. apply e_modify. intros w7 P7 V7 N7.
    apply e_bind, e_now. apply e_bind, e_gets. apply e_bind, e_gets. apply e_bind, e_emit. intros w8 P8 V8 N8.
    apply e_bind. unfold begin_using, mod_token. apply e_bind, e_now. apply e_modify. intros w9 P9 V9 N9.
    apply e_bind. unfold set_permissions, mod_token. apply e_bind, e_emit. intros w10 P10 V10 N10. apply e_modify. intros w11 P11 V11 N11.
    apply e_bind, e_gets.
    set (x := pp_token (proto_of (pi_proto p) (w_v w11))).
    assert (X : exists i, x = e_rnd e i 32).
    { unfold x. rewrite V11, V10, V9, V8, V7, V6, V5. destruct (pi_proto p); cbn; eauto. }
    assert (T : v_token (w_v w11) = mkToken 3 None (make_timer (w_now w) TOKEN_TIMEOUT_MS) true true).
    { rewrite V11, V10, V9. cbn. replace (w_now w8) with (w_now w) by congruence. reflexivity. }
    assert (Mm : v_mism (w_v w11) = 0%N).
    { rewrite V11, V10, V9, V8, V7, V6, V5, V4, V3, V2. reflexivity. }
    destruct X as (i & X).
    apply e_bind, e_encrypt.
    - rewrite X. apply R.
    - rewrite X. destruct (R i 32%nat) as [-> _]. reflexivity.
    - intros ct w12 Dc P12 V12 N12. apply e_ret. split.
      + exists ct. rewrite V12. auto.
      + now rewrite V12.
      + congruence.
      + congruence.
      + now rewrite V12.
      + rewrite V12. exists i. exact X.
  Qed.

  Lemma e_token_permissions p perms ka enc s h len w :
    pi_key p = Some ka -> pi_hash p = Some enc -> pi_perms p = Some perms -> perms <> 0%N ->
    (N.land perms 3 <> 0%N -> pi_rp p <> None) ->
    decapsulate pr (pp_key (proto_of (pi_proto p) (w_v w))) ka (pi_proto p) = Ok s ->
    shared_decrypt pr s enc = Some h -> p_pin (w_p w) = Some (h, len) ->
    (0 < retries_of e (w_p w))%N -> (v_mism (w_v w) < 3)%N -> p_force (w_p w) = false ->
    ends (process_token_with_permissions e p) w (token_given (pi_proto p) s perms (pi_rp p) w).
  Proof.
    intros Hk Hh Hpe Hn Hrp D Dec P Re M Fo. unfold process_token_with_permissions.
    rewrite Hpe. cbn [ok_or_missing]. apply e_bind, (e_lift _ perms); [reflexivity | ].
    apply e_bind, e_guard. { rewrite negb_true_iff. now apply N.eqb_neq. }
    apply e_bind, e_guard.
    { destruct (N.eqb_spec (N.land perms 3) 0) as [E | E]; [reflexivity | ]. specialize (Hrp E).
      destruct (pi_rp p); [reflexivity | congruence]. }
    apply e_bind.
    destruct (e_token (mkPinParams (pi_proto p) (pi_sub p) (pi_key p) (pi_auth p) (pi_new p) (pi_hash p) None None)
      ka enc s h len w Hk Hh eq_refl eq_refl D Dec P Re M Fo) as (r & w1 & Et & T).
    eexists _, _. split; [exact Et | ].
    apply e_bind. unfold set_permissions, mod_token. apply e_bind, e_emit. intros w2 P2 V2 N2. apply e_modify. intros w3 P3 V3 N3.
    apply e_ret. destruct T as [(ct & A1 & A2) B C1 D1 E1 F1]. cbn [pi_proto] in *.
    assert (Q : proto_of (pi_proto p) (w_v w3) = proto_of (pi_proto p) (w_v w1)).
    { rewrite V3, V2. destruct (pi_proto p); reflexivity. }
    split.
    - exists ct. rewrite Q. auto.
    - rewrite V3, V2, B. reflexivity.
    - congruence.
    - congruence.
    - rewrite V3, V2. exact E1.
    - rewrite Q. exact F1.
  Qed.

  (** ** Setting the PIN *)
  Definition pin_stored (pin : bytes) (w w' : world) : Prop :=
    p_pin (w_p w') = Some (firstn 16 (sha256 pr pin), code_points pin) /\ p_retries (w_p w') = None /\
    p_force (w_p w') = false /\ v_mism (w_v w') = v_mism (w_v w) /\
    v_proto1 (w_v w') = v_proto1 (w_v w) /\ v_proto2 (w_v w') = v_proto2 (w_v w).

  Lemma until_zero_pad pin n : ~ In 0%N pin -> (0 < n)%nat -> until_zero (pin ++ repeat 0%N n) = pin.
  Proof.
    intros Z Hn. induction pin as [ | x pin IH]; cbn.
    - destruct n; [lia | reflexivity].
    - destruct (N.eqb_spec x 0) as [-> | E]; [now destruct Z; left | ]. f_equal. apply IH. intro I. apply Z. now right.
  Qed.

  Lemma e_set_pin p ka auth new s pin w :
    pi_key p = Some ka -> pi_auth p = Some auth -> pi_new p = Some new ->
    p_pin (w_p w) = None ->
    decapsulate pr (pp_key (proto_of (pi_proto p) (w_v w))) ka (pi_proto p) = Ok s ->
    shared_verify pr s new auth = MacOk ->
    ~ In 0%N pin -> (length pin <= 63)%nat -> (minlen_of e (w_p w) <= code_points pin)%N ->
    shared_decrypt pr s new = Some (pin ++ repeat 0%N (64 - length pin)) ->
    ends (process_set_pin e p) w (fun r w' => r = None /\ pin_stored pin w w').
  Proof.
    intros Hk Ha Hn P D V Z L Mi Dec. unfold process_set_pin. rewrite Hk, Ha, Hn. cbn [ok_or_missing].
    apply e_bind, (e_lift _ ka); [reflexivity | ]. apply e_bind, (e_lift _ auth); [reflexivity | ]. apply e_bind, (e_lift _ new); [reflexivity | ].
    apply e_bind. unfold pin_hash. apply e_load; [exact NF | ]. intros w1 P1 V1 N1. rewrite P. cbn [option_map].
    apply e_bind, e_guard; [reflexivity | ]. apply e_bind, (e_shared _ _ s); [now rewrite V1 | ].
    rewrite V. cbn [mac_status]. apply e_bind, e_ret. apply e_bind. unfold check_and_store_new_pin, decrypt_pin, shared_decrypt_m.
    apply e_bind. rewrite Dec. apply e_bind, e_ret. apply e_bind, e_guard.
    { apply Nat.eqb_eq. rewrite app_length, repeat_length. lia. }
    apply e_ret. rewrite until_zero_pad by (auto; lia).
    apply e_bind. unfold min_pin_length. apply e_load; [exact NF | ]. intros w2 P2 V2 N2. rewrite P1. cbv zeta.
    apply e_bind, e_guard.
    { rewrite negb_true_iff, orb_false_iff, N.ltb_ge. split; [exact Mi | apply Nat.eqb_neq; lia]. }
    unfold set_pin. apply e_store; [exact NF | ]. intros w3 P3 V3 N3.
    apply e_bind. unfold reset_pin_retries. apply e_store; [exact NF | ]. intros w4 P4 V4 N4. apply e_ret.
    split; [reflexivity | ]. unfold pin_stored. rewrite P4, P3, V4, V3, V2, V1. cbn. auto 6.
  Qed.

  (** ** Messages *)
  Lemma pin_message b cid p w (Q : option pin_resp -> world -> Prop) :
    parse_command (e_cfg e) b = Ok (CClientPin p) ->
    (pi_proto p = V1 -> c_allow_v1 (e_cfg e) = true) ->
    (forall w1, w_p w1 = w_p w -> w_now w1 = w_now w -> v_mism (w_v w1) = v_mism (w_v w) ->
       v_proto1 (w_v w1) = v_proto1 (w_v w) -> v_proto2 (w_v w1) = v_proto2 (w_v w) ->
       ends (match pi_sub p with
              | PsRetries => get_pin_retries e
              | PsKeyAgreement => get_key_agreement e p
              | PsSetPin => process_set_pin e p
              | PsChangePin => process_change_pin e p
              | PsGetToken => process_get_pin_token e p
              | PsUvToken => fail INVALID_SUBCOMMAND
              | PsUvRetries => fail INVALID_SUBCOMMAND
              | PsTokenWithPermissions => process_token_with_permissions e p
              end) w1 Q) ->
    exists r w', run_op e (OpMessage b (MainHid cid)) w = (OutCtap (Ok (RClientPin r)), w') /\ Q r w'.
  Proof.
    intros Hx Hv H. cbn [run_op]. unfold process_command. unfold bind at 1, lift at 1. rewrite Hx, split_message. unfold bind at 1.
    destruct (preamble_pin (CClientPin p) (MainHid cid) w) as (w1 & -> & P1 & N1 & M1 & A1 & A2).
    cbn [process_fido_command].
    assert (T : ends (process_client_pin e p) w1 (fun r w' => exists x, r = RClientPin x /\ Q x w')).
    { unfold process_client_pin. apply e_bind, e_guard.
      { destruct (pi_proto p); cbn; [ | now rewrite andb_false_r]. now rewrite (Hv eq_refl). }
      apply e_bind. destruct (H w1 P1 N1 M1 A1 A2) as (r & w2 & E & q). eexists _, _. split; [exact E | ].
      apply e_ret. eauto. }
    destruct T as (r & w2 & E & x & -> & q). rewrite E. eauto.
  Qed.
End Owner.
