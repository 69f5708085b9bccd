(** Authorisation of credential management, configuration and large blob writes. *)
From Verif Require Import Base Facts Hid.Model U2f.Model Cbor.Model Ctap.Crypto Ctap.Types Ctap.Machine
  Ctap.Commands Ctap.Parse Ctap.System Ctap.Logic Ctap.History Ctap.Track Ctap.PinChange Ctap.TokenSpec
  Ctap.Token Ctap.Success Ctap.Auth.
From Coq Require Import Lia.

(** Everything a check looks at is the same. *)
Definition calm (w w' : world) : Prop :=
  w_p w' = w_p w /\ w_log w' = w_log w /\ v_token (w_v w') = v_token (w_v w) /\
  v_proto1 (w_v w') = v_proto1 (w_v w) /\ v_proto2 (w_v w') = v_proto2 (w_v w) /\ w_now w' = w_now w.
Lemma calm_refl w : calm w w.
Proof. unfold calm. auto 10. Qed.
Lemma calm_trans a b d : calm a b -> calm b d -> calm a d.
Proof.
  unfold calm. intros (A1 & A2 & A3 & A4 & A5 & A6) (B1 & B2 & B3 & B4 & B5 & B6).
  repeat split; congruence.
Qed.
Lemma still_calm w w' : still w w' -> calm w w'.
Proof. unfold still, calm. intros (A & -> & B & C & _). auto 10. Qed.

(** The store changes at most by the creation of the device's own keys. *)
Definition Pkeys : params := keep (set_master None) anyv (fun _ => False).
Definition untouched (w w' : world) : Prop :=
  set_master None (w_p w') = set_master None (w_p w) /\
  exists l, w_log w' = l ++ w_log w /\
    forall q, In (LWrite q) l -> set_master None q = set_master None (w_p w).
Lemma fr_untouched w w' : fr Pkeys w w' -> untouched w w'.
Proof.
  intro F. split; [exact (fr_p _ _ _ F) | ]. destruct (fr_log _ _ _ F) as (l & E & Fl).
  exists l. split; [exact E | ]. intros q Hq. rewrite Forall_forall in Fl. exact (Fl _ Hq).
Qed.
Lemma calm_untouched w w' : calm w w' -> untouched w w'.
Proof.
  intros (P & L & _). split; [congruence | ]. exists []. rewrite L. split; [reflexivity | ]. intros q [].
Qed.
Lemma untouched_trans a b d : untouched a b -> untouched b d -> untouched a d.
Proof.
  intros (P & l & L & H) (P' & l' & L' & H'). split; [congruence | ].
  exists (l' ++ l). split; [now rewrite L', L, app_assoc | ].
  intros q Hq. apply in_app_or in Hq as [Hq | Hq]; [ | auto]. rewrite <- P. auto.
Qed.

Section Gate.
  Variable e : env.
  Notation pr := (e_prims e).

  Lemma get_command_calm w :
    exists s w1, get_command w = (Ok s, w1) /\ calm w w1.
  Proof. unfold get_command, clear_timer. do 2 eexists. split; [reflexivity | ]. unfold calm. cbn. auto 10. Qed.

  (** A computation stops before it touches anything, or it passes and [Q] holds. *)
  Definition stops {A} (m : M status A) (w : world) : Prop :=
    exists s, fst (m w) = Err s /\ untouched w (snd (m w)).
  Definition gate {A} (m : M status A) (w : world) (Q : Prop) : Prop := stops m w \/ Q.
  Lemma gate_reads {A B} (m : M status A) (k : A -> M status B) w Q :
    reads m -> (forall a w1, m w = (Ok a, w1) -> still w w1 -> gate (k a) w1 Q) -> gate (bind m k) w Q.
  Proof.
    intros R K. specialize (R w). unfold gate, stops, bind in *. destruct (m w) as [[a | s] w1].
    - destruct (K a w1 eq_refl R) as [(s & E & U) | H]; [left; exists s; split; [exact E | ] | auto].
      eapply untouched_trans; [apply calm_untouched, still_calm, R | exact U].
    - left. exists s. split; [reflexivity | apply calm_untouched, still_calm, R].
  Qed.
  Lemma gate_bind {A B} (m : M status A) (k : A -> M status B) w Q : gate m w Q -> gate (bind m k) w Q.
  Proof.
    intros [(s & E & U) | H]; [left | right; exact H]. unfold stops, bind.
    destruct (m w) as [[a | s'] w1]; [discriminate | ]. exists s'. split; [reflexivity | exact U].
  Qed.
  Lemma gate_ok {A B} (m : M status A) (k : A -> M status B) w a w1 Q :
    m w = (Ok a, w1) -> calm w w1 -> gate (k a) w1 Q -> gate (bind m k) w Q.
  Proof.
    intros E C H. unfold gate, stops, bind in *. rewrite E. destruct H as [(s & A1 & U) | H]; [left | auto].
    exists s. split; [exact A1 | ]. eapply untouched_trans; [apply calm_untouched, C | exact U].
  Qed.
  Lemma gate_fail {A} s w Q : gate (@fail status A s) w Q.
  Proof. left. exists s. split; [reflexivity | apply calm_untouched, calm_refl]. Qed.
  Lemma gate_true {A} (m : M status A) w (Q : Prop) : Q -> gate m w Q.
  Proof. right. assumption. Qed.
  Lemma gate_frame {A B} (m : M status A) (k : A -> M status B) w Q :
    rel Pkeys m -> (forall a w1, m w = (Ok a, w1) -> fr Pkeys w w1 -> gate (k a) w1 Q) -> gate (bind m k) w Q.
  Proof.
    intros R K. specialize (R w). unfold gate, stops, bind in *. destruct (m w) as [[a | s] w1].
    - destruct (K a w1 eq_refl R) as [(s & E & U) | H]; [left; exists s; split; [exact E | ] | auto].
      eapply untouched_trans; [apply fr_untouched, R | exact U].
    - left. exists s. split; [reflexivity | apply fr_untouched, R].
  Qed.

  (** ** Credential management *)
  Lemma set_master_creds p q : set_master None q = set_master None p -> p_creds q = p_creds p.
  Proof. intro H. apply (f_equal p_creds) in H. exact H. Qed.

  Lemma check_rp_gate id (rest : M status (option cm_resp)) w (Q : Prop) :
    (t_rp (v_token (w_v w)) = None \/
     (exists k c, In (k, c) (p_creds (w_p w)) /\ cr_id c = id /\
        t_rp (v_token (w_v w)) = Some (cr_rp c)) -> Q) ->
    gate (do* check_rp_id_permissions e id in rest) w Q.
  Proof.
    intro H. unfold check_rp_id_permissions.
    destruct (t_rp (v_token (w_v w))) as [r | ] eqn:Er; [ | apply gate_true; auto].
    apply gate_bind. apply gate_reads; [reads_walk | ]. intros t w1 H1 _.
    apply gets_ok in H1 as [-> ->]. rewrite Er.
    apply gate_frame; [rel_walk | ]. intros x w2 H2 F.
    assert (V2 : w_v w2 = w_v w).
    { assert (R : rel (keep anyp (fun v : vol => v) anyE) (find_credential_item e id)) by rel_walk.
      specialize (R w). rewrite H2 in R. exact (fr_v _ _ _ R). }
    assert (HX : In x (p_creds (w_p w)) /\ cr_id (snd x) = id).
    { unfold find_credential_item in H2. apply bind_ok in H2 as (l & w3 & H3 & H2).
      unfold iter_credentials in H3. apply bind_ok in H3 as (? & w4 & H4 & H3).
      apply load_ok in H3 as (-> & _).
      assert (R : rel Pkeys (wrap_key e)) by rel_walk. specialize (R w). rewrite H4 in R.
      pose proof (set_master_creds _ _ (fr_p _ _ _ R)) as C. cbn in C. rewrite C in H2.
      destruct (filter _ (p_creds (w_p w))) as [ | y [ | ]] eqn:Ef; try discriminate.
      apply ret_ok in H2 as [-> _].
      assert (In y (filter (fun x => bytes_eqb (cr_id (snd x)) id) (p_creds (w_p w)))) as Hy
        by (rewrite Ef; left; reflexivity).
      apply filter_In in Hy as [Hy1 Hy2]. apply bytes_eqb_eq in Hy2. auto. }
    destruct HX as [HX1 HX2].
    unfold has_no_or_rp_id, gate, stops, bind, gets, guard. rewrite V2, Er.
    unfold rp_matches. rewrite Er.
    destruct (bytes_eqb (cr_rp (snd x)) r) eqn:Eb.
    - right. apply H. right. apply bytes_eqb_eq in Eb. exists (fst x), (snd x).
      rewrite <- surjective_pairing, Eb. auto.
    - left. eexists. split; [reflexivity | ]. apply calm_untouched, calm_refl.
  Qed.

  Lemma cred_mgmt_gate p ch w :
    cm_next (cm_sub_ p) = false ->
    gate (process_cred_mgmt e p ch) w
      (exists sg pp msg, cm_auth p = Some sg /\ cm_proto p = Some pp /\ cm_signed p msg /\
         checked e w PERM_CM msg sg pp /\
         forall g, (forall r, g = Some r -> t_rp (v_token (w_v w)) = Some r) ->
           cm_rp_ok pr p (p_creds (w_p w)) g).
  Proof.
    intro Hn. unfold process_cred_mgmt.
    destruct (get_command_calm w) as (s & w1 & E1 & C1).
    eapply gate_ok; [exact E1 | exact C1 | ].
    assert (exists w2, match cm_sub_ p, s with
        | CmRpsNext, Some (SEnumRps _) => ret tt
        | CmCredsNext, Some (SEnumCreds _) => ret tt
        | _, _ => st_clear
        end w1 = (Ok tt, w2) /\ calm w1 w2) as (w2 & E2 & C2).
    { destruct (cm_sub_ p); try discriminate Hn; (eexists; split; [reflexivity | ];
        unfold calm; cbn; auto 10). }
    eapply gate_ok; [exact E2 | exact C2 | ].
    pose proof (calm_trans _ _ _ C1 C2) as C. clear E1 E2 C1 C2 w1 s.
    apply gate_reads; [apply reads_cm_authorise | ]. intros u w3 H3 S3.
    apply cm_authorise_ok in H3 as (-> & sg & pp & msg & A1 & A2 & A3 & A4); [ | exact Hn].
    apply gate_bind.
    destruct C as (CP & CL & CT & C1 & C2 & _).
    assert (K : checked e w PERM_CM msg sg pp).
    { unfold checked, proto_of in *. rewrite CT in A4.
      destruct pp; rewrite ?C1, ?C2 in A4; exact A4. }
    assert (K' : (forall g, (forall r, g = Some r -> t_rp (v_token (w_v w2)) = Some r) ->
           cm_rp_ok pr p (p_creds (w_p w2)) g) -> exists sg pp msg, cm_auth p = Some sg /\ cm_proto p = Some pp /\ cm_signed p msg /\
         checked e w PERM_CM msg sg pp /\
         forall g, (forall r, g = Some r -> t_rp (v_token (w_v w)) = Some r) ->
           cm_rp_ok pr p (p_creds (w_p w)) g).
    { rewrite CP, CT. intro X. exists sg, pp, msg. auto. }
    assert (none : t_rp (v_token (w_v w2)) = None -> forall g, (forall r, g = Some r -> t_rp (v_token (w_v w2)) = Some r) -> g = None).
    { intros N [r | ] Hg; [ | reflexivity]. specialize (Hg r eq_refl). congruence. }
    unfold cm_rp_ok in K' |- *.
    destruct (cm_sub_ p); try discriminate Hn.
    - apply gate_reads; [reads_walk | ]. intros ? w3 H3 _. apply gate_true, K'.
      apply bind_ok in H3 as (? & ? & H4 & H3). apply gets_ok in H4 as [-> ->].
      apply guard_ok in H3 as [H3 _]. apply none. destruct (t_rp (v_token (w_v w2))); [discriminate | reflexivity].
    - apply gate_reads; [reads_walk | ]. intros ? w3 H3 _. apply gate_true, K'.
      apply bind_ok in H3 as (? & ? & H4 & H3). apply gets_ok in H4 as [-> ->].
      apply guard_ok in H3 as [H3 _]. apply none. destruct (t_rp (v_token (w_v w2))); [discriminate | reflexivity].
    - apply gate_reads; [reads_walk | ]. intros d w3 H3 _. apply lift_ok in H3 as [H3 ->].
      destruct (cm_data_ p) as [d' | ]; [ | discriminate]. injection H3 as ->.
      unfold cm_creds_begin.
      apply gate_reads; [reads_walk | ]. intros h w3 H3 _. apply lift_ok in H3 as [H3 ->].
      destruct (cd_hash d) as [h' | ] eqn:Eh; [ | discriminate]. injection H3 as ->.
      apply gate_reads; [reads_walk | ]. intros ? w3 H3 _. apply gate_true, K'.
      apply bind_ok in H3 as (? & ? & H4 & H3). apply gets_ok in H4 as [-> ->].
      apply guard_ok in H3 as [H3 _]. intros [r | ] Hg; [right | auto].
      unfold rp_hash_matches in H3. rewrite (Hg r eq_refl) in H3. apply bytes_eqb_eq in H3.
      exists r, d. subst h. auto.
    - apply gate_reads; [reads_walk | ]. intros d w3 H3 _. apply lift_ok in H3 as [H3 ->].
      destruct (cm_data_ p) as [d' | ]; [ | discriminate]. injection H3 as ->.
      unfold cm_delete.
      apply gate_reads; [reads_walk | ]. intros x w3 H3 _. apply lift_ok in H3 as [H3 ->].
      destruct (cd_cred d) as [x' | ] eqn:Ex; [ | discriminate]. injection H3 as ->.
      apply check_rp_gate. intro X. apply K'. intros [r | ] Hg; [ | auto]. specialize (Hg r eq_refl).
      destruct X as [X | (k & c & X1 & X2 & X3)]; [congruence | right].
      exists r, d, x, k, c. repeat split; auto. congruence.
    - apply gate_reads; [reads_walk | ]. intros d w3 H3 _. apply lift_ok in H3 as [H3 ->].
      destruct (cm_data_ p) as [d' | ]; [ | discriminate]. injection H3 as ->.
      unfold cm_update.
      apply gate_reads; [reads_walk | ]. intros x w3 H3 _. apply lift_ok in H3 as [H3 ->].
      destruct (cd_cred d) as [x' | ] eqn:Ex; [ | discriminate]. injection H3 as ->.
      apply gate_reads; [reads_walk | ]. intros u' w3 H3 _. apply lift_ok in H3 as [_ ->].
      apply check_rp_gate. intro X. apply K'. intros [r | ] Hg; [ | auto]. specialize (Hg r eq_refl).
      destruct X as [X | (k & c & X1 & X2 & X3)]; [congruence | right].
      exists r, d, x, k, c. repeat split; auto. congruence.
  Qed.

  (** ** Configuration *)
  Definition cf_signed (p : cf_params) (msg : bytes) : Prop :=
    match cf_data p with
    | None => msg = repeat 255%N 32 ++ [0x0D%N; cf_code (cf_sub_ p)]
    | Some d => exists b, cbor_write (minpin_to_cbor d) = Some b /\
        msg = repeat 255%N 32 ++ [0x0D%N; cf_code (cf_sub_ p)] ++ b
    end.
  Lemma reads_verify_auth msg sg p : reads (verify_auth e msg sg p).
  Proof.
    unfold verify_auth. apply reads_bind; [reads_walk | intro]. apply reads_bind; [reads_walk | intro].
    apply reads_bind; [reads_walk | intro]. destruct (verify_token _ _ _ _ _); reads_walk.
  Qed.
  Lemma reads_cf_authorise p : reads (cf_authorise e p).
  Proof.
    unfold cf_authorise. apply reads_bind; [reads_walk | intro]. apply reads_bind; [reads_walk | intro].
    destruct (_ || _); [ | reads_walk]. destruct (cf_auth p); [ | reads_walk].
    apply reads_bind; [reads_walk | intro]. apply reads_bind; [reads_walk | intro].
    apply reads_bind; [apply reads_verify_auth | intro]. reads_walk.
  Qed.
  Lemma cf_authorise_ok p w u w' :
    cf_authorise e p w = (Ok u, w') ->
    (p_pin (w_p w) = None /\ (cf_sub_ p = CfToggleUv \/ (c_enforce_uv (e_cfg e) || p_uv (w_p w)) = false)) \/
    exists sg pp msg, cf_auth p = Some sg /\ cf_proto p = Some pp /\ cf_signed p msg /\
      checked e w PERM_ACFG msg sg pp.
  Proof.
    unfold cf_authorise. intro H.
    apply bind_ok in H as (en & w1 & H1 & H).
    assert (S1 : still w w1 /\ (en = false -> cf_sub_ p = CfToggleUv \/ (c_enforce_uv (e_cfg e) || p_uv (w_p w)) = false)).
    { split; [eapply reads_ok; [ | exact H1]; reads_walk | ].
      destruct (cf_sub_ p); try (left; reflexivity);
      try (apply has_always_uv_ok in H1 as (-> & _); auto). }
    destruct S1 as [S1 Hen].
    apply bind_ok in H as (h & w2 & H2 & H). apply load_ok in H2 as (-> & P2 & V2 & _ & _).
    destruct S1 as (SP & SV & _). rewrite SP in *.
    destruct (p_pin (w_p w)) as [[hh n] | ]; cbn in H.
    - right. destruct (cf_auth p) as [sg | ]; [ | discriminate].
      apply bind_ok in H as (pp & w3 & H3 & H). apply lift_ok in H3 as [Hp ->].
      apply bind_ok in H as (msg & w3 & H3 & H).
      assert (Hm : cf_signed p msg /\ w3 = w2).
      { unfold cf_message in H3. unfold cf_signed. destruct (cf_data p) as [d | ].
        - apply bind_ok in H3 as (b & w4 & H4 & H3). apply write_cbor_ok in H4 as [H4 ->].
          apply ret_ok in H3 as [-> ->]. split; [ | reflexivity]. exists b. rewrite <- app_assoc. auto.
        - apply ret_ok in H3 as [-> ->]. auto. }
      destruct Hm as [Hm ->].
      apply bind_ok in H as (? & w4 & H4 & H). apply verify_auth_ok in H4 as (-> & Hu & Hs).
      apply has_permission_ok in H as (-> & Hperm).
      exists sg, pp, msg. split; [reflexivity | ].
      split; [destruct (cf_proto p); [injection Hp as ->; reflexivity | discriminate] | ].
      split; [exact Hm | ]. unfold checked. rewrite V2, SV in *. auto.
    - destruct en; [ | left; auto].
      right. destruct (cf_auth p) as [sg | ]; [ | discriminate].
      apply bind_ok in H as (pp & w3 & H3 & H). apply lift_ok in H3 as [Hp ->].
      apply bind_ok in H as (msg & w3 & H3 & H).
      assert (Hm : cf_signed p msg /\ w3 = w2).
      { unfold cf_message in H3. unfold cf_signed. destruct (cf_data p) as [d | ].
        - apply bind_ok in H3 as (b & w4 & H4 & H3). apply write_cbor_ok in H4 as [H4 ->].
          apply ret_ok in H3 as [-> ->]. split; [ | reflexivity]. exists b. rewrite <- app_assoc. auto.
        - apply ret_ok in H3 as [-> ->]. auto. }
      destruct Hm as [Hm ->].
      apply bind_ok in H as (? & w4 & H4 & H). apply verify_auth_ok in H4 as (-> & Hu & Hs).
      apply has_permission_ok in H as (-> & Hperm).
      exists sg, pp, msg. split; [reflexivity | ].
      split; [destruct (cf_proto p); [injection Hp as ->; reflexivity | discriminate] | ].
      split; [exact Hm | ]. unfold checked. rewrite V2, SV in *. auto.
  Qed.
  Lemma config_gate p w :
    (exists s, fst (process_config e p w) = Err s /\ still w (snd (process_config e p w))) \/
    (p_pin (w_p w) = None /\ (cf_sub_ p = CfToggleUv \/ (c_enforce_uv (e_cfg e) || p_uv (w_p w)) = false)) \/
    exists sg pp msg, cf_auth p = Some sg /\ cf_proto p = Some pp /\ cf_signed p msg /\
      checked e w PERM_ACFG msg sg pp.
  Proof.
    unfold process_config. match goal with |- context [bind _ ?k0] => generalize k0; intro k end.
    unfold bind.
    pose proof (reads_cf_authorise p w) as S. destruct (cf_authorise e p w) as [[u | s] w1] eqn:E.
    - right. exact (cf_authorise_ok _ _ _ _ E).
    - left. exists s. split; [reflexivity | exact S].
  Qed.

  (** ** Large blobs *)
  Lemma reads_lb_authorise p set : reads (lb_authorise e p set).
  Proof.
    unfold lb_authorise. apply reads_bind; [reads_walk | intro h]. apply reads_bind; [destruct h; reads_walk | intros []].
    - destruct (lb_auth p); [ | reads_walk].
      apply reads_bind; [reads_walk | intro].
      apply reads_bind; [apply reads_verify_auth | intro]. reads_walk.
    - reads_walk.
  Qed.
  Lemma lb_authorise_ok p set w u w' :
    lb_authorise e p set w = (Ok u, w') ->
    (p_pin (w_p w) = None /\ (c_enforce_uv (e_cfg e) || p_uv (w_p w)) = false) \/
    exists sg pp, lb_auth p = Some sg /\ lb_proto p = Some pp /\
      checked e w PERM_LBW (lb_message e (lb_offset p) set) sg pp.
  Proof.
    unfold lb_authorise. intro H.
    apply bind_ok in H as (h & w1 & H1 & H). apply load_ok in H1 as (-> & P1 & V1 & _).
    apply bind_ok in H as (need & w2 & H2 & H).
    assert (S2 : still w1 w2 /\ (need = false -> p_pin (w_p w) = None /\ (c_enforce_uv (e_cfg e) || p_uv (w_p w)) = false)).
    { split; [eapply reads_ok; [ | exact H2]; destruct (option_map _ _); reads_walk | ].
      destruct (p_pin (w_p w)); cbn in H2; [apply ret_ok in H2 as [-> _]; discriminate | ].
      apply has_always_uv_ok in H2 as (-> & _). rewrite P1. auto. }
    destruct S2 as [(SP & SV & _) Hn]. destruct need; [right | left; auto].
    destruct (lb_auth p) as [sg | ]; [ | discriminate].
    apply bind_ok in H as (pp & w3 & H3 & H). apply lift_ok in H3 as [Hp ->].
    apply bind_ok in H as (? & w4 & H4 & H). apply verify_auth_ok in H4 as (-> & Hu & Hs).
    apply has_permission_ok in H as (-> & Hperm).
    exists sg, pp. split; [reflexivity | ].
    split; [destruct (lb_proto p); [injection Hp as ->; reflexivity | discriminate] | ].
    unfold checked. rewrite SV, V1 in *. auto.
  Qed.
End Gate.
