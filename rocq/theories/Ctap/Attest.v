(** The attestation of new credentials, and how enterprise attestation is switched on. *)
From Verif Require Import Base Facts Hid.Model U2f.Model Cbor.Model Ctap.Crypto Ctap.Types Ctap.Machine
  Ctap.Commands Ctap.Parse Ctap.System Ctap.Logic Ctap.History Ctap.Track Ctap.PinChange Ctap.TokenSpec
  Ctap.Token Ctap.Success Ctap.Auth Ctap.Gate Ctap.Answers Ctap.TokenUse Ctap.Reset Ctap.Keys Ctap.Creds.
From Coq Require Import Lia List.
Import ListNotations.

(** ** The checks of api/customization.rs *)

(** api/customization.rs 380-450: is_valid.  A device whose customization fails this test of the
    repository is not meant to be built.  The two conditions that the comment there says are tested
    elsewhere are [ok_max_rk] of [cfg_ok] and Layout. *)
Definition is_valid (c : cfg) : bool :=
  negb ((c_max_msg c <? 1024) || (7609 <? c_max_msg c))%N &&
  negb ((c_min_pin c <? 4) || (63 <? c_min_pin c))%N &&
  negb (c_batch c && match c_ep c with Some _ => true | None => false end) &&
  negb (match c_ep c with Some EpVendor => true | _ => false end &&
        match c_ep_rps c with [] => true | _ => false end) &&
  negb (match c_ep c with None => true | _ => false end &&
        negb match c_ep_rps c with [] => true | _ => false end) &&
  negb (8 <? c_max_retries c)%N &&
  negb ((c_max_cred_blob c <? 32) || (64 <? c_max_cred_blob c))%nat &&
  negb match c_max_list c with Some n => (n <? 1)%N | None => false end &&
  negb (c_max_blob c <? 1024)%N &&
  negb ((c_max_rp_ids c =? 0)%nat && match c_min_pin_rps c with [] => true | _ => false end).

Lemma valid_facts c : is_valid c = true ->
  (1024 <= c_max_msg c <= 7609)%N /\ (4 <= c_min_pin c <= 63)%N /\
  (c_batch c = true -> c_ep c = None) /\
  (c_ep c = Some EpVendor -> c_ep_rps c <> []) /\ (c_ep c = None -> c_ep_rps c = []) /\
  (c_max_retries c <= 8)%N /\ (32 <= c_max_cred_blob c <= 64)%nat /\
  (forall n, c_max_list c = Some n -> 1 <= n)%N /\ (1024 <= c_max_blob c)%N /\
  (c_max_rp_ids c = 0%nat -> c_min_pin_rps c <> []).
Proof.
  unfold is_valid. rewrite !andb_true_iff, !negb_true_iff, !orb_false_iff, !N.ltb_ge, !Nat.ltb_ge.
  intros (((((((((A & B) & C) & D) & E) & F) & G) & H) & I) & J).
  split; [exact A | ]. split; [exact B | ].
  split. { intro X. rewrite X in C. destruct (c_ep c); [discriminate | reflexivity]. }
  split. { intros X Y. rewrite X, Y in D. discriminate. }
  split. { intro X. rewrite X in E. destruct (c_ep_rps c); [reflexivity | discriminate]. }
  split; [exact F | ]. split; [exact G | ].
  split. { intros n X. rewrite X in H. now apply N.ltb_ge in H. }
  split; [exact I | ].
  intros X Y. rewrite X, Y in J. discriminate.
Qed.

(** ** Registrations *)

Section Attest.
  Variable e : env.
  Notation pr := (e_prims e).
  Notation c := (e_cfg e).

  (** What attestation depends on. *)
  Definition att_of (p : pers) := (p_batch p, p_ent p, p_ep p).
  Definition Patt : params := keep att_of anyv anyE.

  (** Enterprise attestation is configured, switched on and permitted for this request. *)
  Definition ent_due (p : mc_params) (q : pers) : bool :=
    match mc_ep p, c_ep c with
    | Some n, Some mode => p_ep q &&
        (match mode with EpPlatform => (n =? 2)%N | EpVendor => false end
         || mem_bytes (rp_id (mc_rp p)) (c_ep_rps c))
    | _, _ => false
    end.

  Lemma enterprise_requested_ok p w ep w' :
    enterprise_requested e p w = (Ok ep, w') -> ep = ent_due p (w_p w) /\ still w w'.
  Proof.
    intro H. split; [ | eapply reads_ok; [ | exact H]; reads_walk].
    unfold enterprise_requested in H. unfold ent_due.
    destruct (mc_ep p) as [n | ]; [ | now apply ret_ok in H as [-> _]].
    destruct (c_ep c) as [mode | ]; [ | apply fail_ok in H; contradiction].
    apply bind_ok in H as (on & w1 & H1 & H). unfold enterprise_attestation in H1.
    apply load_ok in H1 as (-> & _).
    apply bind_ok in H as (? & w2 & H2 & H). apply guard_ok in H2 as [-> _]. cbn [andb].
    apply bind_ok in H as (? & w3 & _ & H).
    destruct mode.
    - apply ret_ok in H as [-> _]. reflexivity.
    - destruct (n =? 2)%N; apply ret_ok in H as [-> _]; reflexivity.
  Qed.

  (** The attestation statement of a registration. *)
  Definition statement (p : mc_params) (k : priv) (q : pers) (r : mc_resp) : Prop :=
    let msg := mr_auth_data r ++ mc_cdh p in
    match mr_x5c r with
    | None => mr_ep r = false /\ c_batch c = false /\ mr_sig r = sign pr k msg
    | Some cert => exists ak, mr_sig r = sign pr (mkPriv Es256 ak) msg /\
        (mr_ep r = true /\ p_ent q = Some (ak, cert) \/
         mr_ep r = false /\ c_batch c = true /\ p_batch q = Some (ak, cert))
    end.

  Lemma mc_attested p w r w' :
    process_make_credential e p w = (Ok (RMakeCredential r), w') ->
    mr_ep r = ent_due p (w_p w) /\
    exists k pre id pub post, key_for e p k /\ statement p k (w_p w) r /\
      cbor_write (cose_to_cbor (pub_of pr k)) = Some pub /\
      mr_auth_data r = pre ++ c_aaguid c ++ [0%N; Nlen id] ++ id ++ pub ++ post /\
      length pre = (length (sha256 pr (rp_id (mc_rp p))) + 5)%nat.
  Proof.
    intro H. unfold process_make_credential in H. cbv zeta in H.
    apply bind_ok in H as (? & w1 & H1 & H). apply precheck_ok in H1 as [-> _].
    apply bind_ok in H as (a & w2 & H2 & H). pose proof H2 as S2. apply reads_ok in S2; [ | reads_walk].
    apply bind_ok in H as (ep & w3 & H3 & H). apply enterprise_requested_ok in H3 as [-> S3].
    pose proof (still_trans _ _ _ S2 S3) as S. destruct S as (SP & _). destruct S2 as (SP2 & _).
    rewrite SP2 in *.
    apply bind_ok in H as (? & w4 & H4 & H). apply bind_ok in H as (? & w5 & H5 & H).
    apply bind_ok in H as (? & w6 & H6 & H). apply bind_ok in H as (? & w7 & H7 & H).
    apply bind_ok in H as (mp & w8 & H8 & H). apply bind_ok in H as (lb & w9 & H9 & H).
    apply bind_ok in H as (k & w10 & H10 & H). apply bind_ok in H as (id & w11 & H11 & H).
    apply bind_ok in H as (ad & w12 & H12 & H). apply bind_ok in H as (? & w13 & H13 & H).
    apply bind_ok in H as (pk & w14 & H14 & H). apply bind_ok in H as (pub & w15 & H15 & H).
    apply bind_ok in H as (ext & w16 & H16 & H). apply bind_ok in H as (sx & w17 & H17 & H).
    apply ret_ok in H as [H _]. injection H as ->.
    assert (HK : key_for e p k).
    { unfold preferred_alg in H2. destruct (find _ _) as [q | ] eqn:Q; [ | apply fail_ok in H2; contradiction].
      destruct (cp_alg q) as [al | ] eqn:Q'; [ | apply fail_ok in H2; contradiction]. apply ret_ok in H2 as [-> _].
      unfold new_key in H10. apply bind_ok in H10 as (b & w18 & E & H10). apply draw_ok in E as (E & _).
      apply ret_ok in H10 as [-> _]. exists (w_rng w9), q. cbn. auto. }
    assert (F : forall A (m : M status A) u r u', rel Patt m -> m u = (Ok r, u') -> att_of (w_p u') = att_of (w_p u)).
    { intros A m u r u' R E. specialize (R u). rewrite E in R. exact (fr_p _ _ _ R). }
    assert (T : att_of (w_p w16) = att_of (w_p w)).
    { apply F in H4; [ | rel_walk]. apply F in H5; [ | rel_walk]. apply F in H6; [ | rel_walk].
      apply F in H7; [ | rel_walk]. apply F in H8; [ | rel_walk]. apply F in H9; [ | rel_walk].
      apply F in H10; [ | rel_walk]. apply F in H11; [ | rel_walk]. apply F in H12; [ | rel_walk].
      apply F in H13; [ | rel_walk]. apply F in H14; [ | rel_walk]. apply F in H15; [ | rel_walk].
      apply F in H16; [ | rel_walk]. congruence. }
    injection T as TB TE _.
    split; [reflexivity | ]. exists k, ad, id, pub, ext. split; [exact HK | ]. cbn [mr_auth_data]. split; [ | split; [ | split]].
    - unfold statement. cbn [mr_x5c mr_ep mr_sig mr_auth_data]. unfold mc_attest in H17.
      destruct (ent_due p (w_p w)).
      + apply bind_ok in H17 as (o & w18 & E & H17). unfold get_attestation in E. apply map_status_ok in E.
        apply load_ok in E as (-> & _). rewrite TE in H17.
        destruct (p_ent (w_p w)) as [[ak cert] | ]; [ | apply fail_ok in H17; contradiction].
        destruct (ecdsa_valid pr ak); [ | apply fail_ok in H17; contradiction]. apply ret_ok in H17 as [-> _].
        cbn [fst snd]. exists ak. auto.
      + destruct (c_batch c) eqn:B.
        * apply bind_ok in H17 as (o & w18 & E & H17). unfold get_attestation in E. apply map_status_ok in E.
          apply load_ok in E as (-> & _). rewrite TB in H17.
          destruct (p_batch (w_p w)) as [[ak cert] | ]; [ | apply fail_ok in H17; contradiction].
          destruct (ecdsa_valid pr ak); [ | apply fail_ok in H17; contradiction]. apply ret_ok in H17 as [-> _].
          cbn [fst snd]. exists ak. auto 6.
        * apply bind_ok in H17 as (s & w18 & E & H17). apply ret_ok in H17 as [-> _].
          unfold sign_and_encode in E. destruct (key_valid e k); [ | apply fail_ok in E; contradiction].
          apply ret_ok in E as [-> _]. cbn [fst snd]. auto.
    - unfold get_pub_key in H14. destruct (key_valid e k); [ | apply fail_ok in H14; contradiction].
      apply ret_ok in H14 as [-> _]. unfold write_cbor in H15.
      destruct (cbor_write _) as [z | ] eqn:Z; [ | apply fail_ok in H15; contradiction]. apply ret_ok in H15 as [-> _]. reflexivity.
    - reflexivity.
    - apply generate_auth_data_ok in H12 as [-> _]. rewrite !app_length. cbn [length be_bytes]. lia.
  Qed.

  Lemma attested b ch w r w' :
    run_op e (OpMessage b ch) w = (OutCtap (Ok (RMakeCredential r)), w') ->
    exists p, parse_command c b = Ok (CMakeCredential p) /\ mr_ep r = ent_due p (w_p w) /\
    exists k pre id pub post, key_for e p k /\ statement p k (w_p w) r /\
      cbor_write (cose_to_cbor (pub_of pr k)) = Some pub /\
      mr_auth_data r = pre ++ c_aaguid c ++ [0%N; Nlen id] ++ id ++ pub ++ post /\
      length pre = (length (sha256 pr (rp_id (mc_rp p))) + 5)%nat.
  Proof.
    intro H. apply main_answer in H as (x & cid & w1 & -> & Hx & Ha & Hp & Hf); [ | discriminate].
    destruct x; try destruct Ha. destruct (preamble_p _ _ _ _ Hp) as (P1 & _).
    cbn [process_fido_command] in Hf. apply mc_attested in Hf. rewrite P1 in Hf. eexists. split; [exact Hx | ]. exact Hf.
  Qed.

  (** ** U2F registrations *)
  Lemma u2f_attested ch a w r w' : u2f_register e ch a w = (Ok r, w') ->
    exists k kh ak cert, p_batch (w_p w) = Some (ak, cert) /\ pk_alg k = Es256 /\
      r = [5%N] ++ uncompressed (pub_of pr k) ++ [Nlen kh] ++ kh ++ cert ++
          sign pr (mkPriv Es256 ak) ([0%N] ++ a ++ ch ++ kh ++ uncompressed (pub_of pr k)).
  Proof.
    intro H. unfold u2f_register in H. cbv zeta in H.
    apply bind_ok in H as (k & w1 & H1 & H). apply bind_ok in H as (? & w2 & H2 & H).
    apply bind_ok in H as (kh & w3 & H3 & H). apply bind_ok in H as (? & w4 & H4 & H).
    apply bind_ok in H as (o & w5 & H5 & H). apply map_status_ok in H5. apply load_ok in H5 as (-> & _).
    assert (F : forall A (m : M sw A) u r u', rel Patt m -> m u = (Ok r, u') -> att_of (w_p u') = att_of (w_p u)).
    { intros A m u r0 u' R E. specialize (R u). rewrite E in R. exact (fr_p _ _ _ R). }
    assert (T : att_of (w_p w4) = att_of (w_p w)).
    { pose proof H1 as G1. apply F in G1; [ | rel_walk]. apply F in H2; [ | rel_walk]. apply F in H3; [ | rel_walk].
      apply F in H4; [ | rel_walk]. congruence. }
    injection T as TB _ _. rewrite TB in H.
    destruct (p_batch (w_p w)) as [[ak cert] | ]; [ | apply fail_ok in H; contradiction].
    apply bind_ok in H as (? & w6 & _ & H). apply ret_ok in H as [-> _].
    exists k, kh, ak, cert. split; [reflexivity | ]. split; [ | reflexivity].
    unfold new_key in H1. apply bind_ok in H1 as (b & w18 & _ & H1). apply ret_ok in H1 as [-> _]. reflexivity.
  Qed.

  (** ** Switching it on *)
  Definition Pep : params.
  Proof.
    refine (mkPar (fun p q => p_ep q = true -> p_ep p = true) (fun _ _ => True) anyE _ _ _ _); auto.
  Defined.

  (** A message that asks for enterprise attestation to be enabled. *)
  Definition enables (o : op) (b : bytes) (cid : bytes) (p : cf_params) : Prop :=
    o = OpMessage b (MainHid cid) /\ parse_command c b = Ok (CConfig p) /\ cf_sub_ p = CfEnterprise.

  Lemma ep_config p : cf_sub_ p <> CfEnterprise -> rel Pep (process_config e p).
  Proof. intro N. unfold process_config. destruct (cf_sub_ p); [congruence | rel_walk | rel_walk | rel_walk]. Qed.
  Lemma ep_none p : c_ep c = None -> rel Pep (process_config e p).
  Proof.
    intro N. unfold process_config. destruct (cf_sub_ p); [ | rel_walk | rel_walk | rel_walk].
    unfold cf_enterprise. rewrite N. rel_walk.
  Qed.
  Lemma ep_missing p w : p_ent (w_p w) = None -> fr Pep w (snd (process_config e p w)).
  Proof.
    intro N. unfold process_config. unfold bind at 1.
    assert (R1 : rel Pep (cf_authorise e p)) by rel_walk. specialize (R1 w).
    pose proof (reads_cf_authorise e p w) as (S & _).
    destruct (cf_authorise e p w) as [[u | s] w1]; [ | exact R1]. cbn [snd] in *.
    eapply fr_trans; [exact R1 | ].
    destruct (cf_sub_ p) eqn:Sub;
      [ | match goal with |- fr _ _ (snd (?m w1)) => assert (R : rel Pep m) by rel_walk; exact (R w1) end ..].
    assert (G : forall w2 r, get_attestation e Enterprise w1 = (Ok r, w2) -> r = None).
    { intros w2 r E. unfold get_attestation in E. apply map_status_ok in E. apply load_ok in E as (-> & _). now rewrite S. }
    assert (R3 : rel Pep (get_attestation e Enterprise)) by rel_walk. specialize (R3 w1).
    unfold cf_enterprise. destruct (c_ep c); [ | apply fr_refl].
    unfold bind, enable_enterprise_attestation, bind.
    destruct (get_attestation e Enterprise w1) as [[a | s] w2] eqn:E; [ | exact R3].
    rewrite (G _ _ eq_refl). exact R3.
  Qed.

  Lemma ep_message x ch w :
    (exists p cid, x = CConfig p /\ cf_sub_ p = CfEnterprise /\ ch = MainHid cid /\
       c_ep c <> None /\ p_ent (w_p w) <> None) \/
    fr Pep w (snd (process_parsed_command e x ch w)).
  Proof.
    assert (D : (exists p, x = CConfig p) \/ rel Pep (process_parsed_command e x ch)).
    { destruct x; try (right; rel_walk; fail); try (left; eauto; fail). right. rel_walk; cbn; discriminate. }
    destruct D as [[p ->] | D]; [ | right; apply D].
    destruct ch as [cid | cid]; [ | right; match goal with |- fr _ _ (snd (?m w)) => assert (R : rel Pep m) by rel_walk; exact (R w) end].
    assert (G : forall w1, preamble (CConfig p) (MainHid cid) w = (Ok tt, w1) ->
      fr Pep w1 (snd (process_config e p w1)) -> fr Pep w (snd (process_parsed_command e (CConfig p) (MainHid cid) w))).
    { intros w1 Q F. rewrite split_message. unfold bind.
      assert (R : rel Pep (preamble (CConfig p) (MainHid cid))) by (unfold preamble; rel_walk).
      specialize (R w). rewrite Q in *. cbn [process_fido_command]. eapply fr_trans; [exact R | exact F]. }
    destruct (preamble_same (CConfig p) (MainHid cid) w) as (w1 & Q & P1 & _).
    destruct (c_ep c) as [mode | ] eqn:Cep.
    2: { right. apply (G w1 Q). now apply ep_none. }
    destruct (p_ent (w_p w)) as [y | ] eqn:Ent.
    2: { right. apply (G w1 Q). apply ep_missing. congruence. }
    assert (Dec : cf_sub_ p = CfEnterprise \/ cf_sub_ p <> CfEnterprise) by (destruct (cf_sub_ p); auto; right; discriminate).
    destruct Dec as [Y | N]; [ | right; apply (G w1 Q); now apply ep_config].
    left. exists p, cid. repeat split; auto; discriminate.
  Qed.

  Lemma ep_op o w :
    (exists b cid p, enables o b cid p /\ c_ep c <> None /\ p_ent (w_p w) <> None) \/
    fr Pep w (snd (run_op e o w)).
  Proof.
    assert (OF : other_frame e Pep) by (split; try (cbn; auto; fail); intros; rel_walk).
    destruct (run_op_other e Pep o w OF) as [(b & ch & -> & ->) | F]; [ | auto].
    unfold process_command, bind, lift. destruct (parse_command c b) as [x | s] eqn:E; [ | right; apply fr_refl].
    destruct (ep_message x ch w) as [(p & cid & -> & Sub & -> & A & B) | F]; [ | auto].
    left. exists b, cid, p. unfold enables. auto.
  Qed.

  (** Enterprise attestation is on: a message switched it on, and it stayed on. *)
  Lemma switched h : p_ep (w_p (run e h)) = true ->
    exists h1 b cid p k h2, h = h1 ++ (OpMessage b (MainHid cid), k) :: h2 /\
      enables (OpMessage b (MainHid cid)) b cid p /\
      c_ep c <> None /\ p_ent (w_p (run e h1)) <> None /\ p_ep (w_p (run e h1)) = false /\
      (forall a z, h2 = a ++ z -> p_ep (w_p (run e (h1 ++ (OpMessage b (MainHid cid), k) :: a))) = true).
  Proof.
    induction h as [ | [o k] h IH] using rev_ind; [discriminate | ]. intro H.
    destruct (p_ep (w_p (run e h))) eqn:B.
    - destruct (IH eq_refl) as (h1 & b & cid & p & k0 & h2 & -> & E & A1 & A2 & A3 & A4).
      exists h1, b, cid, p, k0, (h2 ++ [(o, k)]). split; [now rewrite <- app_assoc | ]. split; [exact E | ].
      split; [exact A1 | ]. split; [exact A2 | ]. split; [exact A3 | ].
      intros a z X. destruct z as [ | y z] using rev_ind.
      + rewrite app_nil_r in X. rewrite <- X. rewrite <- app_assoc in H. exact H.
      + rewrite app_assoc in X. apply app_inj_tail in X as [X _]. exact (A4 _ _ X).
    - destruct (ep_op o (run e h)) as [(b & cid & p & E & A1 & A2) | F].
      + pose proof E as (-> & _). exists h, b, cid, p, k, []. split; [reflexivity | ]. split; [exact E | ].
        split; [exact A1 | ]. split; [exact A2 | ]. split; [exact B | ].
        intros a z X. symmetry in X. apply app_eq_nil in X as [-> _]. exact H.
      + rewrite run_app in H. pose proof (step_frame e _ _ o k (run_wf e h) F) as Q. cbn in Q. specialize (Q H). congruence.
  Qed.

  (** Nothing was stored, interrupted or not. *)
  Lemma step_nothing h o k :
    w_log (snd (run_op e o (run e h))) = w_log (run e h) -> w_p (snd (run_op e o (run e h))) = w_p (run e h) ->
    w_p (step e (run e h) (o, k)) = w_p (run e h).
  Proof.
    intros L P. unfold step. cbn [fst snd]. destruct k as [n | ]; [ | exact P].
    rewrite reboot_p. unfold lose_power. cbn [w_p]. rewrite L, Nat.sub_diag, Nat.min_0_r. cbn [skipn].
    symmetry. apply (run_wf e h).
  Qed.
End Attest.
