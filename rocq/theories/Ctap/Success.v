(** What a successful authenticatorMakeCredential or authenticatorGetAssertion implies. *)
From Verif Require Import Base Facts Hid.Model U2f.Model Cbor.Model Ctap.Crypto Ctap.Types Ctap.Machine
  Ctap.Commands Ctap.Parse Ctap.System Ctap.Logic Ctap.History Ctap.Track Ctap.PinChange Ctap.TokenSpec
  Ctap.Token.
From Coq Require Import Lia.

(** ** Computations that only read *)
Definition still (w w' : world) : Prop :=
  w_p w' = w_p w /\ w_v w' = w_v w /\ w_now w' = w_now w /\ w_log w' = w_log w /\ w_up w' = w_up w.
Lemma still_refl w : still w w.
Proof. unfold still. auto. Qed.
Lemma still_trans a b d : still a b -> still b d -> still a d.
Proof. unfold still. intros (A1 & A2 & A3 & A4 & A5) (B1 & B2 & B3 & B4 & B5). repeat split; congruence. Qed.
Definition reads {E A} (m : M E A) : Prop := forall w, still w (snd (m w)).
Lemma reads_bind {E A B} (m : M E A) (k : A -> M E B) :
  reads m -> (forall a, reads (k a)) -> reads (bind m k).
Proof.
  intros Hm Hk w. unfold bind. specialize (Hm w). destruct (m w) as [[a | s] w1]; [ | exact Hm].
  eapply still_trans; [exact Hm | apply Hk].
Qed.
Lemma reads_load {A} e (f : pers -> A) : reads (load e f).
Proof. intro w. unfold load. destruct (e_fault e (w_op w)) as [[s b] | ]; unfold still; auto. Qed.
Lemma reads_draw {E} e n : reads (draw (E := E) e n).
Proof. intro w. unfold still; auto. Qed.
Lemma reads_guard {E} b (s : E) : reads (guard b s).
Proof. intro w. destruct b; apply still_refl. Qed.
Lemma reads_map_status {E A} x (f : status -> E) (m : M status A) : reads m -> reads (map_status x f m).
Proof.
  intros H w. specialize (H w). unfold map_status.
  destruct (m w) as [[a | s] w1]; [exact H | destruct s; exact H].
Qed.
Ltac reads_step :=
  lazymatch goal with
  | |- reads (ret _) => intro; apply still_refl
  | |- reads (fail _) => intro; apply still_refl
  | |- reads (lift _) => intro; apply still_refl
  | |- reads (gets _) => intro; apply still_refl
  | |- reads now => intro; apply still_refl
  | |- reads (guard _ _) => apply reads_guard
  | |- reads (bind _ _) => apply reads_bind; [ | intros ?]
  | |- reads (map_status _ _ _) => apply reads_map_status
  | |- reads (draw _ _) => apply reads_draw
  | |- reads (load _ _) => apply reads_load
  | |- reads (match ?x with _ => _ end) => destruct x
  | |- reads (let _ := _ in _) => cbv zeta
  | |- reads ((fun _ => _) _) => cbv beta
  | |- reads ?m => let h := head m in unfold h
  end.
Ltac reads_walk := repeat reads_step.
Lemma reads_ok {E A} (m : M E A) w a w' : reads m -> m w = (Ok a, w') -> still w w'.
Proof. intros H E1. specialize (H w). rewrite E1 in H. exact H. Qed.

(** The result of a successful message. *)
Lemma message_ok e b ch w r w' :
  run_op e (OpMessage b ch) w = (OutCtap (Ok r), w') ->
  exists x w1, parse_command (e_cfg e) b = Ok x /\ preamble x ch w = (Ok tt, w1) /\
    match ch with
    | MainHid _ => process_fido_command e x ch
    | VendorHid _ => process_vendor_command e x
    end w1 = (Ok r, w').
Proof.
  cbn [run_op]. unfold process_command. unfold bind at 1, lift at 1.
  destruct (parse_command (e_cfg e) b) as [x | s]; [ | discriminate].
  rewrite split_message. unfold bind. destruct (preamble_same x ch w) as (w1 & Q & _). rewrite Q.
  intro H. exists x, w1. split; [reflexivity | split; [exact Q | ]].
  destruct ch.
  - destruct (process_fido_command e x (MainHid cid) w1) as [r0 w0]. injection H as -> ->. reflexivity.
  - destruct (process_vendor_command e x w1) as [r0 w0]. injection H as -> ->. reflexivity.
Qed.

Section Success.
  Variable e : env.
  Notation pr := (e_prims e).

  (** The checks of a request that carries a pinUvAuthParam, in terms of the state of the token. *)
  Definition uv_checked (w : world) (perm : N) (cdh sg : bytes) (pp : pin_proto) (rp : bytes) : Prop :=
    let t := v_token (w_v w) in
    p_pin (w_p w) <> None /\ t_use t = true /\
    sg = authenticate pr pp (pp_token (proto_of pp (w_v w))) cdh /\
    N.land perm (t_perms t) <> 0%N /\ t_uv t = true /\ (t_rp t = None \/ t_rp t = Some rp).

  Lemma precheck_ok auth p w u w' :
    precheck e auth p w = (Ok u, w') -> w' = w /\ (auth <> None -> p <> None).
  Proof.
    unfold precheck. destruct auth as [[ | x l] | ].
    - intro H. apply bind_ok in H as (? & ? & _ & H). apply bind_ok in H as (h & ? & _ & H).
      destruct h; discriminate.
    - intro H. apply guard_ok in H as [H ->]. split; [reflexivity | ]. destruct p; [discriminate | congruence].
    - intro H. apply ret_ok in H as [_ ->]. split; congruence.
  Qed.
  Lemma check_uv_ok perm cdh auth p rp w u w' :
    check_uv e perm cdh auth p rp w = (Ok u, w') ->
    exists pp, p = Some pp /\ uv_checked w perm cdh auth pp rp /\
      t_rp (v_token (w_v w')) = Some rp /\ w_log w' = w_log w /\ w_p w' = w_p w /\
      w_now w' = w_now w.
  Proof.
    unfold check_uv. intro H.
    apply bind_ok in H as (h & w1 & H1 & H). apply load_ok in H1 as (-> & P1 & V1 & N1 & L1 & _).
    apply bind_ok in H as (? & w2 & H1 & H). apply guard_ok in H1 as [Hh ->].
    apply bind_ok in H as (pp & w2 & H1 & H). apply lift_ok in H1 as [Hp ->].
    apply bind_ok in H as (? & w2 & H1 & H). apply verify_auth_ok in H1 as (-> & Hu & Hs).
    apply bind_ok in H as (? & w2 & H1 & H). apply has_permission_ok in H1 as (-> & Hperm).
    apply bind_ok in H as (? & w2 & H1 & H). unfold check_user_verified in H1.
    apply bind_ok in H1 as (t & w3 & H2 & H1). apply gets_ok in H2 as [-> ->].
    apply guard_ok in H1 as [Huv ->]. apply Bool.andb_true_iff in Huv as [_ Huv].
    unfold ensure_rp_id in H. apply bind_ok in H as (t & w3 & H2 & H). apply gets_ok in H2 as [-> ->].
    rewrite V1 in *.
    exists pp. split; [destruct p; [injection Hp as ->; reflexivity | discriminate] | ].
    assert (Pin : p_pin (w_p w) <> None) by (intro Q; rewrite Q in Hh; discriminate).
    unfold uv_checked. destruct (t_rp (v_token (w_v w))) as [r | ] eqn:Er.
    - apply guard_ok in H as [H ->]. unfold rp_matches in H. rewrite Er in H.
      apply bytes_eqb_eq in H. subst r. rewrite V1. repeat split; auto.
    - apply modify_ok in H as (V2 & P2 & N2 & L2 & _). rewrite V2, P2, N2, L2, V1. cbn.
      repeat split; auto.
  Qed.

  Lemma authorised_here x ch w w1 w2 p msg sg perm (rp_ok : option bytes -> Prop) :
    tok_ok w -> preamble x ch w = (Ok tt, w1) -> w_v w2 = w_v w1 ->
    t_use (v_token (w_v w2)) = true ->
    sg = authenticate pr p (pp_token (proto_of p (w_v w2))) msg ->
    N.land perm (t_perms (v_token (w_v w2))) <> 0%N ->
    (forall g, (forall r, g = Some r -> t_rp (v_token (w_v w2)) = Some r) -> rp_ok g) ->
    authorised pr (w_log w) (w_now w) p msg sg perm rp_ok.
  Proof.
    intros HT Hp E Hu Hs Hperm Hrp. rewrite E in *.
    destruct (preamble_token x ch w w1 Hp Hu) as ((T1 & T2 & T3) & _ & _ & _ & Hn).
    unfold proto_of in Hs. rewrite T1, T2, T3 in *.
    destruct (HT Hu) as (t & hd & perms & rp & H1 & H2 & H3 & H4 & H5 & H6).
    exists t, hd, (pp_token (v_proto1 (w_v w))), (pp_token (v_proto2 (w_v w))), perms, rp.
    split; [exact H1 | ]. split; [rewrite H2 in Hn; exact Hn | ]. split; [exact H3 | ].
    split; [destruct p; exact Hs | ]. split; [exact H4 | ]. split; [ | apply Hrp, H6].
    intro Z. apply Hperm. rewrite <- H5, (N.land_comm _ perms), N.land_assoc, Z. reflexivity.
  Qed.

  (** ** authenticatorMakeCredential *)
  Definition is_some {A} (o : option A) : bool := match o with Some _ => true | None => false end.
  Definition Pany : params := trivial.
  Lemma log_grows {E A} (m : M E A) w : rel Pany m -> exists l, w_log (snd (m w)) = l ++ w_log w.
  Proof. intro R. destruct (fr_log _ _ _ (R w)) as (l & E1 & _). eauto. Qed.

  (** The flags byte. *)
  Lemma mc_flags (a : bool) (x : bool) :
    let f := N.lor (N.lor (N.lor (if a then UV_FLAG else 0) UP_FLAG) AT_FLAG) (if x then ED_FLAG else 0) in
    N.testbit f 0 = true /\ N.testbit f 2 = a.
  Proof. destruct a, x; vm_compute; auto. Qed.

  Lemma generate_auth_data_ok h f w ad w' :
    generate_auth_data e h f w = (Ok ad, w') ->
    ad = h ++ [f] ++ be_bytes 4 (counter_of (w_p w)) /\ still w w'.
  Proof.
    unfold generate_auth_data. intro H.
    apply bind_ok in H as (n & w1 & H1 & H). apply load_ok in H1 as (-> & P1 & V1 & N1 & L1 & U1).
    apply ret_ok in H as [-> ->]. split; [reflexivity | ]. unfold still. auto.
  Qed.

  Record mc_done (p : mc_params) (w : world) (r : mc_resp) (w' : world) : Prop := {
    mcd_up : exists l1 l2, w_log w' = l1 ++ LEv EvPresence :: l2 ++ w_log w;
    mcd_data : exists flags rest,
      mr_auth_data r = sha256 pr (rp_id (mc_rp p)) ++ [flags] ++ be_bytes 4 (counter_of (w_p w)) ++ rest /\
      N.testbit flags 0 = true /\ N.testbit flags 2 = is_some (mc_auth p);
    mcd_auth : forall sg, mc_auth p = Some sg -> exists pp, mc_proto p = Some pp /\
      uv_checked w PERM_MC (mc_cdh p) sg pp (rp_id (mc_rp p)) /\
      t_rp (v_token (w_v w')) = Some (rp_id (mc_rp p));
    mcd_noauth : mc_auth p = None ->
      (c_enforce_uv (e_cfg e) || p_uv (w_p w)) = false /\ (mc_rk p = true -> p_pin (w_p w) = None);
    mcd_token : t_uv (v_token (w_v w')) = false /\
      N.land (t_perms (v_token (w_v w'))) PERM_LBW = t_perms (v_token (w_v w'));
    mcd_counter : counter_of (w_p w') = counter_of (w_p w)
  }.

  Lemma has_always_uv_ok w b w' :
    has_always_uv e w = (Ok b, w') -> b = (c_enforce_uv (e_cfg e) || p_uv (w_p w)) /\ still w w'.
  Proof.
    unfold has_always_uv. destruct (c_enforce_uv (e_cfg e)).
    - intro H. apply ret_ok in H as [-> ->]. split; [reflexivity | apply still_refl].
    - intro H. apply load_ok in H as (-> & H). split; [reflexivity | ]. unfold still. tauto.
  Qed.
  Lemma mc_user_verification_ok p w u w' :
    mc_user_verification e p w = (Ok u, w') ->
    (forall sg, mc_auth p = Some sg -> exists pp, mc_proto p = Some pp /\
      uv_checked w PERM_MC (mc_cdh p) sg pp (rp_id (mc_rp p)) /\
      t_rp (v_token (w_v w')) = Some (rp_id (mc_rp p))) /\
    (mc_auth p = None ->
      (c_enforce_uv (e_cfg e) || p_uv (w_p w)) = false /\ (mc_rk p = true -> p_pin (w_p w) = None)).
  Proof.
    unfold mc_user_verification. destruct (mc_auth p) as [sg | ]; intro H.
    - apply check_uv_ok in H as (pp & Hp & Hc & Hr & _). split; [ | discriminate].
      intros sg' E. injection E as <-. exists pp. auto.
    - split; [discriminate | intros _].
      apply bind_ok in H as (? & w1 & H1 & H). apply guard_ok in H1 as [_ ->].
      apply bind_ok in H as (a & w1 & H1 & H). apply has_always_uv_ok in H1 as (-> & (P1 & _)).
      apply bind_ok in H as (? & w2 & H1 & H). apply guard_ok in H1 as [Ha ->].
      split; [now apply Bool.negb_true_iff in Ha | ]. intro Hrk. rewrite Hrk in H.
      apply bind_ok in H as (h & w2 & H1 & H). apply load_ok in H1 as (-> & _).
      apply guard_ok in H as [H _]. rewrite P1 in H. destruct (p_pin (w_p w)); [discriminate | reflexivity].
  Qed.

  (** Everything but the counter and token changes. *)
  Definition Pcnt : params := keep counter_of anyv anyE.

  Lemma make_credential_done p w r w' :
    process_make_credential e p w = (Ok r, w') ->
    exists mr, r = RMakeCredential mr /\ mc_done p w mr w'.
  Proof.
    unfold process_make_credential. intro H.
    apply bind_ok in H as (? & w1 & H1 & H). apply precheck_ok in H1 as [-> _].
    apply bind_ok in H as (a & w1 & H1 & H).
    apply reads_ok in H1; [ | reads_walk].
    apply bind_ok in H as (ep & w2 & H2 & H).
    apply reads_ok in H2; [ | reads_walk]. pose proof (still_trans _ _ _ H1 H2) as S2. clear H1 H2.
    apply bind_ok in H as (? & w3 & H3 & H).
    pose proof (mc_user_verification_ok _ _ _ _ H3) as [Uv Nuv].
    assert (F3 : fr Pcnt w2 w3).
    { assert (R : rel Pcnt (mc_user_verification e p)) by rel_walk. specialize (R w2). now rewrite H3 in R. }
    apply bind_ok in H as (? & w4 & H4 & H).
    assert (F4 : fr Pcnt w3 w4 /\ fr Ptok1 w3 w4).
    { assert (R : rel Pcnt (mc_exclusion e p (sha256 pr (rp_id (mc_rp p))))) by rel_walk.
      assert (R' : rel Ptok1 (mc_exclusion e p (sha256 pr (rp_id (mc_rp p))))) by tok1_walk.
      specialize (R w3). specialize (R' w3). rewrite H4 in R, R'. auto. }
    apply bind_ok in H as (? & w5 & H5 & H). apply check_user_presence_ok in H5 as (_ & _ & P5 & V5 & L5 & _).
    apply bind_ok in H as (? & w6 & H6 & H). apply modify_ok in H6 as (V6 & P6 & _ & L6 & _).
    match type of H with ?k w6 = _ =>
      assert (F : fr Pcnt w6 w' /\ fr Ptok1 w6 w');
      [ assert (R : rel Pcnt k) by rel_walk; assert (R' : rel Ptok1 k) by tok1_walk;
        specialize (R w6); specialize (R' w6); rewrite H in R, R'; auto | ] end.
    cbv zeta in H.
    apply bind_ok in H as (minpin & w7 & H7 & H).
    apply bind_ok in H as (lbkey & w8 & H8 & H).
    apply bind_ok in H as (k & w9 & H9 & H).
    apply bind_ok in H as (id & w10 & H10 & H).
    assert (F10 : fr Pcnt w6 w10).
    { assert (R7 : rel Pcnt (if mx_minpin (mc_ext_ p) then let* l := min_pin_length_rp_ids e in
                 ret (mem_bytes (rp_id (mc_rp p)) l) else ret false)) by rel_walk.
      specialize (R7 w6). rewrite H7 in R7.
      eapply fr_trans; [exact R7 | ].
      assert (R8 : rel Pcnt (match mc_rk p, mx_lbkey (mc_ext_ p) with
                  | true, Some true => let* b := draw e 32 in ret (E := status) (Some b)
                  | _, _ => ret None
                  end)) by rel_walk.
      specialize (R8 w7). rewrite H8 in R8.
      eapply fr_trans; [exact R8 | ].
      match type of H9 with ?m _ = _ => assert (R9 : rel Pcnt m) by rel_walk end.
      specialize (R9 w8). rewrite H9 in R9. eapply fr_trans; [exact R9 | ].
      match type of H10 with ?m _ = _ => assert (R10 : rel Pcnt m) by rel_walk end.
      specialize (R10 w9). rewrite H10 in R10. exact R10. }
    apply bind_ok in H as (ad & w11 & H11 & H). apply generate_auth_data_ok in H11 as (-> & _).
    apply bind_ok in H as (? & w12 & _ & H).
    apply bind_ok in H as (pub & w13 & _ & H). apply bind_ok in H as (pc & w14 & _ & H).
    apply bind_ok in H as (ec & w15 & _ & H). apply bind_ok in H as (sx & w16 & _ & H).
    apply ret_ok in H as [-> ->].
    eexists. split; [reflexivity | ].
    assert (C6 : counter_of (w_p w6) = counter_of (w_p w)).
    { rewrite P6, P5. destruct F4 as [F4 _]. pose proof (fr_p _ _ _ F4) as Q. cbn in Q. rewrite Q.
      pose proof (fr_p _ _ _ F3) as Q3. cbn in Q3. rewrite Q3. destruct S2 as (-> & _). reflexivity. }
    destruct F as [Fc Ft]. destruct (fr_v _ _ _ Ft) as (Sh & _).
    split.
    - destruct (fr_log _ _ _ Fc) as (l1 & E1 & _). destruct F4 as [F4 _].
      destruct (fr_log _ _ _ F4) as (l4 & E4 & _). destruct (fr_log _ _ _ F3) as (l3 & E3 & _).
      exists l1, (l4 ++ l3). rewrite E1, L6, L5, E4, E3, <- app_assoc.
      destruct S2 as (_ & _ & _ & -> & _). reflexivity.
    - cbn [mr_auth_data]. pose proof (fr_p _ _ _ F10) as Q. cbn in Q. rewrite Q, C6.
      match goal with |- context [(_ ++ [?f] ++ _) ++ ?z] => exists f, z end.
      split; [now rewrite <- !app_assoc | ].
      destruct (mc_auth p); [apply (mc_flags true) | apply (mc_flags false)].
    - intros sg E. destruct (Uv sg E) as (pp & U1 & U2 & U3). exists pp. split; [exact U1 | ].
      destruct S2 as (SP & SV & _). unfold uv_checked in *. rewrite SP, SV in U2. split; [exact U2 | ].
      destruct F4 as [_ F4]. destruct (fr_v _ _ _ F4) as (Sh4 & _).
      destruct U2 as (_ & Hu & _).
      destruct Sh as (_ & _ & _ & _ & Sh). apply Sh. rewrite V6, V5. cbn.
      destruct Sh4 as (_ & _ & _ & _ & Sh4). apply Sh4. exact U3.
    - intro E. destruct S2 as (SP & _). rewrite SP in Nuv. exact (Nuv E).
    - rewrite V6 in Sh. destruct Sh as (_ & _ & Z1 & Z2 & _). cbn in Z1, Z2.
      split; [destruct (t_uv (v_token (w_v w16))); [discriminate (Z2 eq_refl) | reflexivity] | ].
      rewrite <- Z1, <- !N.land_assoc, N.land_diag. reflexivity.
    - pose proof (fr_p _ _ _ Fc) as Q. cbn in Q. rewrite Q. exact C6.
  Qed.

  (** ** authenticatorGetAssertion *)
  Lemma ga_flags (a u x : bool) :
    let f := N.lor (N.lor (if a then UV_FLAG else 0) (if u then UP_FLAG else 0)) (if x then ED_FLAG else 0) in
    N.testbit f 0 = u /\ N.testbit f 2 = a.
  Proof. destruct a, u, x; vm_compute; auto. Qed.

  (** The counter moves by one to eight. *)
  Definition counted (old new : N) : Prop :=
    if c_counter (e_cfg e) then exists i, (1 <= i <= 8)%N /\ new = ((old + i) mod 2 ^ 32)%N
    else new = old.
  Lemma increment_counter_ok w u w' :
    increment_counter e w = (Ok u, w') ->
    counted (counter_of (w_p w)) (counter_of (w_p w')) /\ w_v w' = w_v w /\
    (exists l, w_log w' = l ++ w_log w).
  Proof.
    unfold increment_counter, counted. destruct (c_counter (e_cfg e)).
    - intro H. apply bind_ok in H as (b & w1 & H1 & H).
      apply draw_ok in H1 as (_ & P1 & V1 & N1 & L1 & _).
      unfold incr_global_signature_counter in H. apply bind_ok in H as (n & w2 & H2 & H).
      apply load_ok in H2 as (-> & P2 & V2 & N2 & L2 & _).
      apply store_ok in H as (P3 & V3 & N3 & L3 & _).
      split; [ | split; [congruence | ]].
      + exists (of_be b mod 8 + 1)%N. split.
        * pose proof (N.mod_lt (of_be b) 8 ltac:(discriminate)). lia.
        * rewrite P3, P2, P1. reflexivity.
      + exists [LWrite (w_p w')]. rewrite L3, P3, L2, L1. reflexivity.
    - intro H. apply ret_ok in H as [_ ->]. split; [reflexivity | ]. split; [reflexivity | ]. now exists [].
  Qed.

  Record ga_done (p : ga_params) (w : world) (r : ga_resp) (w' : world) : Prop := {
    gad_up : ga_up p = true -> exists l1 l2, w_log w' = l1 ++ LEv EvPresence :: l2 ++ w_log w;
    gad_data : exists flags rest,
      gr_auth_data r = sha256 pr (ga_rp p) ++ [flags] ++ be_bytes 4 (counter_of (w_p w')) ++ rest /\
      N.testbit flags 0 = ga_up p /\ N.testbit flags 2 = is_some (ga_auth p);
    gad_auth : forall sg, ga_auth p = Some sg -> exists pp, ga_proto p = Some pp /\
      uv_checked w PERM_GA (ga_cdh p) sg pp (ga_rp p) /\
      t_rp (v_token (w_v w')) = Some (ga_rp p);
    gad_noauth : ga_auth p = None -> ga_up p = true ->
      (c_enforce_uv (e_cfg e) || p_uv (w_p w)) = false;
    gad_token : ga_up p = true -> t_uv (v_token (w_v w')) = false /\
      N.land (t_perms (v_token (w_v w'))) PERM_LBW = t_perms (v_token (w_v w'));
    gad_counter : counted (counter_of (w_p w)) (counter_of (w_p w'))
  }.

  Lemma ga_user_verification_ok p w u w' :
    ga_user_verification e p w = (Ok u, w') ->
    (forall sg, ga_auth p = Some sg -> exists pp, ga_proto p = Some pp /\
      uv_checked w PERM_GA (ga_cdh p) sg pp (ga_rp p) /\
      t_rp (v_token (w_v w')) = Some (ga_rp p)) /\
    (ga_auth p = None -> ga_up p = true -> (c_enforce_uv (e_cfg e) || p_uv (w_p w)) = false).
  Proof.
    unfold ga_user_verification. destruct (ga_auth p) as [sg | ]; intro H.
    - apply check_uv_ok in H as (pp & Hp & Hc & Hr & _). split; [ | discriminate].
      intros sg' E. injection E as <-. exists pp. auto.
    - split; [discriminate | intros _ Hup]. rewrite Hup in H.
      apply bind_ok in H as (? & w1 & H1 & H). apply guard_ok in H1 as [_ ->].
      apply bind_ok in H as (a & w1 & H1 & H). apply has_always_uv_ok in H1 as (-> & _).
      apply guard_ok in H as [Ha _]. now apply Bool.negb_true_iff in Ha.
  Qed.
  Lemma assertion_response_ok c i n w g w' :
    assertion_response e c i n w = (Ok g, w') -> exists x, gr_auth_data g = ai_auth_data i ++ x.
  Proof.
    unfold assertion_response. cbv zeta. intro H.
    apply bind_ok in H as (x & w1 & _ & H). apply bind_ok in H as (sg & w2 & _ & H).
    apply ret_ok in H as [-> _]. exists x. reflexivity.
  Qed.
  Ltac frame R H := match type of H with ?m ?w = (_, ?w') =>
    assert (fr Pcnt w w' /\ fr Ptok1 w w');
    [ let R1 := fresh in let R2 := fresh in
      assert (R1 : rel Pcnt m) by rel_walk; assert (R2 : rel Ptok1 m) by tok1_walk;
      specialize (R1 w); specialize (R2 w); rewrite H in R1, R2; split; [exact R1 | exact R2] | ] end.

  Lemma get_assertion_done p ch w r w' :
    process_get_assertion e p ch w = (Ok r, w') ->
    exists g, r = RGetAssertion g /\ ga_done p w g w'.
  Proof.
    unfold process_get_assertion. cbv zeta. intro H.
    apply bind_ok in H as (? & w1 & H1 & H). apply precheck_ok in H1 as [-> _].
    apply bind_ok in H as (? & w1 & H1 & H). apply guard_ok in H1 as [_ ->].
    apply bind_ok in H as (? & w3 & H3 & H).
    pose proof (ga_user_verification_ok _ _ _ _ H3) as [Uv Nuv].
    assert (F3 : fr Pcnt w w3 /\ fr Ptok1 w w3) by (frame R H3; assumption). clear H3.
    apply bind_ok in H as (sel & w4 & H4 & H).
    assert (F4 : fr Pcnt w3 w4 /\ fr Ptok1 w3 w4) by (frame R H4; assumption). clear H4.
    destruct sel as [[c | ] keys]; [ | discriminate].
    apply bind_ok in H as (? & w5 & H5 & H).
    assert (F5 : fr Pcnt w4 w5 /\ fr Ptok1 w4 w5) by (frame R H5; assumption).
    assert (U5 : ga_up p = true -> (exists l, w_log w5 = l ++ LEv EvPresence :: w_log w4) /\
                 t_uv (v_token (w_v w5)) = false /\
                 N.land (t_perms (v_token (w_v w5))) PERM_LBW = t_perms (v_token (w_v w5))).
    { intro Hup. rewrite Hup in H5. apply bind_ok in H5 as (? & w6 & H6 & H5).
      apply check_user_presence_ok in H6 as (_ & _ & _ & _ & L6 & _).
      apply modify_ok in H5 as (V6 & _ & _ & L7 & _). rewrite V6, L7, L6. cbn.
      split; [now exists [] | split; [reflexivity | ]]. now rewrite <- N.land_assoc, N.land_diag. }
    clear H5.
    apply bind_ok in H as (? & w6 & H6 & H). apply increment_counter_ok in H6 as (C6 & V6 & l6 & L6).
    apply bind_ok in H as (ad & w7 & H7 & H). apply generate_auth_data_ok in H7 as (-> & S7).
    match type of H with ?k w7 = _ =>
      assert (F : fr Pcnt w7 w' /\ fr Ptok1 w7 w');
      [ assert (R : rel Pcnt k) by rel_walk; assert (R' : rel Ptok1 k) by tok1_walk;
        specialize (R w7); specialize (R' w7); rewrite H in R, R'; auto | ] end.
    apply bind_ok in H as (number & w8 & _ & H). apply bind_ok in H as (g & w9 & H9 & H).
    apply assertion_response_ok in H9 as (rest & H9). apply ret_ok in H as [-> ->].
    exists g. split; [reflexivity | ].
    destruct F3 as [F3 T3], F4 as [F4 T4], F5 as [F5 T5], F as [F T].
    pose proof (fr_p _ _ _ F3) as C3. pose proof (fr_p _ _ _ F4) as C4. pose proof (fr_p _ _ _ F5) as C5.
    pose proof (fr_p _ _ _ F) as C9. cbn in C3, C4, C5, C9.
    destruct (fr_v _ _ _ T3) as (B3 & _), (fr_v _ _ _ T4) as (B4 & _), (fr_v _ _ _ T5) as (B5 & _),
      (fr_v _ _ _ T) as (B9 & _).
    destruct S7 as (P7 & V7 & _ & L7 & _).
    rewrite V7, V6 in B9.
    split.
    - intro Hup. destruct (U5 Hup) as ((l5 & L5) & _).
      destruct (fr_log _ _ _ F) as (l9 & L9 & _), (fr_log _ _ _ F3) as (l3 & L3 & _),
        (fr_log _ _ _ F4) as (l4 & L4 & _).
      exists (l9 ++ l6 ++ l5), (l4 ++ l3). rewrite L9, L7, L6, L5, L4, L3, <- !app_assoc. reflexivity.
    - rewrite H9. cbn [ai_auth_data]. rewrite C9, P7.
      match goal with |- context [(_ ++ [?f] ++ _) ++ ?z] => exists f, z end.
      split; [now rewrite <- !app_assoc | ].
      destruct (ga_auth p); [apply (ga_flags true) | apply (ga_flags false)].
    - intros sg E. destruct (Uv sg E) as (pp & U1 & U2 & U3). exists pp. split; [exact U1 | ].
      split; [exact U2 | ].
      destruct B4 as (_ & _ & _ & _ & B4), B5 as (_ & _ & _ & _ & B5), B9 as (_ & _ & _ & _ & B9). auto.
    - exact Nuv.
    - intro Hup. destruct (U5 Hup) as (_ & U1 & U2). destruct B9 as (_ & _ & Z1 & Z2 & _).
      split; [destruct (t_uv (v_token (w_v w9))); [rewrite U1 in Z2; discriminate (Z2 eq_refl) | reflexivity] | ].
      rewrite <- Z1, <- U2, <- !N.land_assoc, N.land_diag. reflexivity.
    - rewrite C9, P7. rewrite C5, C4, C3 in C6. exact C6.
  Qed.
End Success.
