(** Authorisation in histories: what must have happened before a command succeeds. *)
From Verif Require Import Base Facts Hid.Model U2f.Model Cbor.Model Ctap.Crypto Ctap.Types Ctap.Machine
  Ctap.Commands Ctap.Parse Ctap.System Ctap.Logic Ctap.History Ctap.Track Ctap.Pin Ctap.PinChange Ctap.TokenSpec
  Ctap.Token Ctap.Success Ctap.Auth Ctap.Gate Ctap.Answers.
From Coq Require Import Lia.

Section Use.
  Variable e : env.
  Notation pr := (e_prims e).

  Lemma main_answer b ch w r w' :
    run_op e (OpMessage b ch) w = (OutCtap (Ok r), w') -> (forall i, r <> RGetInfo i) ->
    exists x cid w1, ch = MainHid cid /\ parse_command (e_cfg e) b = Ok x /\ answer_of x r /\
      preamble x ch w = (Ok tt, w1) /\ process_fido_command e x ch w1 = (Ok r, w').
  Proof.
    intros H Hr. pose proof (message_ok _ _ _ _ _ _ H) as (y & u & Hy & Hpy & Hd).
    apply message_answer in H as (x & w1 & Hx & Hp & Ha & Hf).
    destruct ch as [cid | cid].
    - exists x, cid, w1. split; [reflexivity | ]. split; [exact Hx | ]. split; [exact Ha | ].
      split; [exact Hp | ]. apply Hf. eauto.
    - rewrite Hx in Hy. injection Hy as <-.
      destruct x; try discriminate Hd. destruct r; try destruct Ha. destruct (Hr r eq_refl).
  Qed.
  Lemma preamble_p x ch w w1 : preamble x ch w = (Ok tt, w1) ->
    w_p w1 = w_p w /\ w_log w1 = w_log w /\ w_now w1 = w_now w.
  Proof.
    intro H. destruct (preamble_same x ch w) as (w2 & Q & A & B & C & _).
    rewrite H in Q. injection Q as <-. auto.
  Qed.
  Lemma uv_authorised x ch w w1 perm cdh sg pp rp :
    tok_ok w -> preamble x ch w = (Ok tt, w1) -> uv_checked e w1 perm cdh sg pp rp ->
    authorised pr (w_log w) (w_now w) pp cdh sg perm (fun g => g = None \/ g = Some rp).
  Proof.
    intros HT Hp (_ & Hu & Hs & Hperm & _ & Hr). eapply authorised_here; eauto.
    intros [r | ] Hg; [right | left; reflexivity]. specialize (Hg r eq_refl).
    destruct Hr as [Hr | Hr]; congruence.
  Qed.
  Lemma checked_authorised x ch w w1 perm msg sg pp (rp_ok : option bytes -> Prop) :
    tok_ok w -> preamble x ch w = (Ok tt, w1) -> checked e w1 perm msg sg pp ->
    (forall g, (forall r, g = Some r -> t_rp (v_token (w_v w1)) = Some r) -> rp_ok g) ->
    authorised pr (w_log w) (w_now w) pp msg sg perm rp_ok.
  Proof. intros HT Hp (Hu & Hs & Hperm) Hr. eapply authorised_here; eauto. Qed.

  Lemma mc_answer b ch w r w' :
    run_op e (OpMessage b ch) w = (OutCtap (Ok (RMakeCredential r)), w') ->
    exists p w1, parse_command (e_cfg e) b = Ok (CMakeCredential p) /\
      preamble (CMakeCredential p) ch w = (Ok tt, w1) /\ mc_done e p w1 r w'.
  Proof.
    intro H. apply main_answer in H as (x & cid & w1 & -> & Hx & Ha & Hp & Hf); [ | discriminate].
    destruct x; try destruct Ha. apply make_credential_done in Hf as (mr & E & D). injection E as <-. eauto.
  Qed.
  Lemma ga_answer b ch w r w' :
    run_op e (OpMessage b ch) w = (OutCtap (Ok (RGetAssertion r)), w') ->
    exists p w1, parse_command (e_cfg e) b = Ok (CGetAssertion p) /\
      preamble (CGetAssertion p) ch w = (Ok tt, w1) /\ ga_done e p w1 r w'.
  Proof.
    intro H. apply main_answer in H as (x & cid & w1 & -> & Hx & Ha & Hp & Hf); [ | discriminate].
    destruct x; try destruct Ha. apply get_assertion_done in Hf as (mr & E & D). injection E as <-. eauto.
  Qed.

  (** ** One RP per token *)
  (** The command [b] succeeded with a token and for the RP ID [rp]. *)
  Definition used_for (b rp : bytes) : Prop :=
    match parse_command (e_cfg e) b with
    | Ok (CMakeCredential p) => mc_auth p <> None /\ rp_id (mc_rp p) = rp
    | Ok (CGetAssertion p) => ga_auth p <> None /\ ga_rp p = rp
    | _ => False
    end.
  (** The command [b], if it uses a token, accesses only the RP ID [rp]. *)
  Definition stays_with (creds : list (N * cred)) (rp b : bytes) : Prop :=
    match parse_command (e_cfg e) b with
    | Ok (CMakeCredential p) => mc_auth p <> None -> rp_id (mc_rp p) = rp
    | Ok (CGetAssertion p) => ga_auth p <> None -> ga_rp p = rp
    | Ok (CCredMgmt p) => cm_rp_ok pr p creds (Some rp)
    | _ => True
    end.
  Definition no_issue (w w' : world) : Prop :=
    forall l t a b, w_log w' = l ++ w_log w -> ~ In (LEv (EvIssue t a b)) l.

  Lemma fido_of b ch w r w' : run_op e (OpMessage b ch) w = (OutCtap (Ok r), w') ->
    forall x, parse_command (e_cfg e) b = Ok x -> x <> CGetInfo ->
    exists cid w1, ch = MainHid cid /\ preamble x ch w = (Ok tt, w1) /\
      process_fido_command e x ch w1 = (Ok r, w').
  Proof.
    intros H x Hx Hn. pose proof (message_ok _ _ _ _ _ _ H) as (y & w1 & Hy & Hp & Hd).
    rewrite Hx in Hy. injection Hy as <-. destruct ch as [cid | cid]; [eauto | ].
    destruct x; try discriminate Hd. congruence.
  Qed.
  Lemma used_bound b ch w r w' rp :
    run_op e (OpMessage b ch) w = (OutCtap (Ok r), w') -> used_for b rp ->
    t_rp (v_token (w_v w')) = Some rp.
  Proof.
    intros H U. pose proof (fido_of _ _ _ _ _ H) as F. unfold used_for in U.
    destruct (parse_command (e_cfg e) b) as [x | ]; [ | destruct U]. specialize (F x eq_refl).
    destruct x; try destruct U; destruct (F ltac:(discriminate)) as (cid & w1 & -> & Hp & Hf); cbn [process_fido_command] in Hf.
    - apply make_credential_done in Hf as (mr & -> & D). destruct (mc_auth p) as [sg | ] eqn:E; [ | congruence].
      destruct (mcd_auth _ _ _ _ _ D sg E) as (pp & _ & _ & ->). congruence.
    - apply get_assertion_done in Hf as (mr & -> & D). destruct (ga_auth p) as [sg | ] eqn:E; [ | congruence].
      destruct (gad_auth _ _ _ _ _ D sg E) as (pp & _ & _ & ->). congruence.
  Qed.
  Lemma preamble_shrinks x ch w w1 : preamble x ch w = (Ok tt, w1) -> shrinks (v_token (w_v w)) (v_token (w_v w1)).
  Proof.
    intro H. pose proof (preamble_tok x ch w) as R. rewrite H in R. exact (proj1 (fr_v _ _ _ R)).
  Qed.
  Lemma later_shrinks h2 w x ch w2 :
    no_issue w (fold_left (step e) h2 w) -> preamble x ch (fold_left (step e) h2 w) = (Ok tt, w2) ->
    shrinks (v_token (w_v w)) (v_token (w_v w2)).
  Proof.
    intros N Hp. destruct (age_history e h2 w) as (l & E & [(t & a & b & Hi) | S]).
    - destruct (N l t a b E Hi).
    - eapply shrinks_trans; [exact S | exact (preamble_shrinks _ _ _ _ Hp)].
  Qed.
  Lemma one_rp h2 b ch w r w1 rp b2 ch2 r2 w2 :
    run_op e (OpMessage b ch) w = (OutCtap (Ok r), w1) -> used_for b rp ->
    no_issue w1 (fold_left (step e) h2 w1) ->
    run_op e (OpMessage b2 ch2) (fold_left (step e) h2 w1) = (OutCtap (Ok r2), w2) ->
    stays_with (p_creds (w_p (fold_left (step e) h2 w1))) rp b2.
  Proof.
    intros H U N H2. pose proof (used_bound _ _ _ _ _ _ H U) as B.
    pose proof (fido_of _ _ _ _ _ H2) as F. unfold stays_with.
    destruct (parse_command (e_cfg e) b2) as [x | ]; [ | exact I]. specialize (F x eq_refl).
    assert (K : forall w3, preamble x ch2 (fold_left (step e) h2 w1) = (Ok tt, w3) ->
       t_use (v_token (w_v w3)) = true -> t_rp (v_token (w_v w3)) = Some rp).
    { intros w3 Hp Hu. destruct (later_shrinks _ _ _ _ _ N Hp) as [(S & _) | (_ & _ & _ & _ & S)]; [congruence | auto]. }
    destruct x; try exact I; destruct (F ltac:(discriminate)) as (cid & w3 & -> & Hp & Hf); cbn [process_fido_command] in Hf.
    - apply make_credential_done in Hf as (mr & -> & D). destruct (mc_auth p) as [sg | ] eqn:E; [intros _ | congruence].
      destruct (mcd_auth _ _ _ _ _ D sg E) as (pp & _ & (_ & Hu & _ & _ & _ & Hr) & _).
      rewrite (K _ Hp Hu) in Hr. destruct Hr as [Hr | Hr]; congruence.
    - apply get_assertion_done in Hf as (mr & -> & D). destruct (ga_auth p) as [sg | ] eqn:E; [intros _ | congruence].
      destruct (gad_auth _ _ _ _ _ D sg E) as (pp & _ & (_ & Hu & _ & _ & _ & Hr) & _).
      rewrite (K _ Hp Hu) in Hr. destruct Hr as [Hr | Hr]; congruence.
    - destruct (cm_next (cm_sub_ p)) eqn:En; [unfold cm_rp_ok; destruct (cm_sub_ p); try discriminate; exact I | ].
      destruct (cred_mgmt_gate e p (MainHid cid) w3 En) as [(s & E & _) | (sg & pp & msg & _ & _ & _ & (Hu & _) & Hr)].
      + rewrite Hf in E. discriminate.
      + destruct (preamble_p _ _ _ _ Hp) as (<- & _). apply Hr. intros r0 E. injection E as <-. exact (K _ Hp Hu).
  Qed.

  (** ** One presence per PIN entry *)
  Definition uv_bit (auth_data : bytes) : bool := N.testbit (nth 32 auth_data 0%N) 2.
  Definition up_bit (auth_data : bytes) : bool := N.testbit (nth 32 auth_data 0%N) 0.
  Definition auth_data_of (r : response) : option bytes :=
    match r with
    | RMakeCredential m => Some (mr_auth_data m)
    | RGetAssertion g => Some (gr_auth_data g)
    | _ => None
    end.
  Lemma flag_bits h f x (b0 b2 : bool) : length h = 32%nat ->
    N.testbit f 0 = b0 -> N.testbit f 2 = b2 ->
    up_bit (h ++ [f] ++ x) = b0 /\ uv_bit (h ++ [f] ++ x) = b2.
  Proof.
    intros Hl H0 H2. unfold up_bit, uv_bit. rewrite app_nth2 by lia.
    rewrite Hl. cbn. auto.
  Qed.
  Lemma mc_bits p w r w' : prims_ok pr -> mc_done e p w r w' ->
    up_bit (mr_auth_data r) = true /\ uv_bit (mr_auth_data r) = is_some (mc_auth p).
  Proof.
    intros O D. destruct (mcd_data _ _ _ _ _ D) as (f & rest & -> & H0 & H2).
    apply flag_bits; auto. apply O.
  Qed.
  Lemma ga_bits p w r w' : prims_ok pr -> ga_done e p w r w' ->
    up_bit (gr_auth_data r) = ga_up p /\ uv_bit (gr_auth_data r) = is_some (ga_auth p).
  Proof.
    intros O D. destruct (gad_data _ _ _ _ _ D) as (f & rest & -> & H0 & H2).
    apply flag_bits; auto. apply O.
  Qed.
  Lemma presence_clears b ch w r w' ad : prims_ok pr ->
    run_op e (OpMessage b ch) w = (OutCtap (Ok r), w') -> auth_data_of r = Some ad -> up_bit ad = true ->
    t_uv (v_token (w_v w')) = false.
  Proof.
    intros O H Ha Hu. destruct r as [m | g | | | | | | | | ]; try discriminate; injection Ha as <-.
    - apply mc_answer in H as (p & w1 & _ & _ & D). apply (mcd_token _ _ _ _ _ D).
    - apply ga_answer in H as (p & w1 & _ & _ & D). apply (gad_token _ _ _ _ _ D).
      destruct (ga_bits _ _ _ _ O D) as [<- _]. exact Hu.
  Qed.
  Lemma one_presence h2 b ch w r w1 ad b2 ch2 r2 w2 ad2 : prims_ok pr ->
    run_op e (OpMessage b ch) w = (OutCtap (Ok r), w1) -> auth_data_of r = Some ad -> up_bit ad = true ->
    no_issue w1 (fold_left (step e) h2 w1) ->
    run_op e (OpMessage b2 ch2) (fold_left (step e) h2 w1) = (OutCtap (Ok r2), w2) ->
    auth_data_of r2 = Some ad2 -> uv_bit ad2 = false.
  Proof.
    intros O H Ha Hu N H2 Ha2. pose proof (presence_clears _ _ _ _ _ _ O H Ha Hu) as B.
    assert (K : forall x w3, preamble x ch2 (fold_left (step e) h2 w1) = (Ok tt, w3) ->
       t_uv (v_token (w_v w3)) = false).
    { intros x w3 Hp. destruct (later_shrinks _ _ _ _ _ N Hp) as [(_ & _ & S) | (_ & _ & _ & S & _)]; [exact S | ].
      destruct (t_uv (v_token (w_v w3))); [ | reflexivity]. specialize (S eq_refl). congruence. }
    destruct r2 as [m | g | | | | | | | | ]; try discriminate; injection Ha2 as <-.
    - apply mc_answer in H2 as (p & w3 & _ & Hp & D). destruct (mc_bits _ _ _ _ O D) as [_ ->].
      destruct (mc_auth p) as [sg | ] eqn:E; [ | reflexivity].
      destruct (mcd_auth _ _ _ _ _ D sg E) as (pp & _ & (_ & _ & _ & _ & Huv & _) & _).
      rewrite (K _ _ Hp) in Huv. discriminate.
    - apply ga_answer in H2 as (p & w3 & _ & Hp & D). destruct (ga_bits _ _ _ _ O D) as [_ ->].
      destruct (ga_auth p) as [sg | ] eqn:E; [ | reflexivity].
      destruct (gad_auth _ _ _ _ _ D sg E) as (pp & _ & (_ & _ & _ & _ & Huv & _) & _).
      rewrite (K _ _ Hp) in Huv. discriminate.
  Qed.

  (** ** Configuration requests that fail *)
  Definition clean {A} (m : M status A) : Prop := forall w s w', m w = (Err s, w') -> w_p w' = w_p w.
  Lemma clean_reads {A} (m : M status A) : reads m -> clean m.
  Proof. intros R w s w' E. specialize (R w). rewrite E in R. apply R. Qed.
  Lemma clean_bind {A B} (m : M status A) (k : A -> M status B) :
    reads m -> (forall a, clean (k a)) -> clean (bind m k).
  Proof.
    intros R K w s w' E. specialize (R w). unfold bind in E. destruct (m w) as [[a | s'] w1].
    - rewrite (K a _ _ _ E). apply R.
    - injection E as _ <-. apply R.
  Qed.
  Definition surely {A} (m : M status A) : Prop := forall w, exists a w', m w = (Ok a, w').
  Lemma surely_bind {A B} (m : M status A) (k : A -> M status B) :
    surely m -> (forall a, surely (k a)) -> surely (bind m k).
  Proof. intros Hm Hk w. destruct (Hm w) as (a & w1 & E). unfold bind. rewrite E. apply Hk. Qed.
  Lemma surely_ret {A} (a : A) : surely (ret a).
  Proof. intro w. eexists _, _. reflexivity. Qed.
  Lemma surely_clean {A} (m : M status A) : surely m -> clean m.
  Proof. intros H w s w' E. destruct (H w) as (a & w1 & E1). congruence. Qed.
  Lemma surely_store f : nofault e -> surely (store e f).
  Proof. intros N w. unfold store. rewrite N. eauto. Qed.
  (** The request cannot exceed the number of RP IDs. *)
  Definition rps_fit (p : cf_params) : Prop :=
    match cf_data p with
    | Some d => match mp_rps d with
                | Some l => (length (add_defaults l (c_min_pin_rps (e_cfg e))) <= c_max_rp_ids (e_cfg e))%nat
                | None => True
                end
    | None => True
    end.
  Lemma config_clean p : nofault e -> rps_fit p -> clean (process_config e p).
  Proof.
    intros N Fit. unfold process_config. apply clean_bind; [apply reads_cf_authorise | intros _].
    assert (K : forall m : M status unit, clean m -> clean (do* m in ret RConfig)).
    { intros m H w s w' E. unfold bind in E. destruct (m w) as [[a | s'] w1] eqn:Em; [discriminate | ].
      injection E as _ <-. exact (H _ _ _ Em). }
    apply K. destruct (cf_sub_ p).
    - unfold cf_enterprise. destruct (c_ep _); [ | apply clean_reads; reads_walk].
      unfold enable_enterprise_attestation. apply clean_bind; [reads_walk | intros [a | ]].
      + apply clean_bind; [reads_walk | intros []]; [apply clean_reads; reads_walk | ].
        apply surely_clean, surely_store, N.
      + apply clean_reads; reads_walk.
    - unfold toggle_always_uv. destruct (c_enforce_uv _); [apply clean_reads; reads_walk | ].
      apply clean_bind; [reads_walk | intro]. apply surely_clean, surely_store, N.
    - unfold rps_fit in Fit. destruct (cf_data p) as [d | ]; [ | apply clean_reads; reads_walk].
      unfold cf_set_min_pin_length. apply clean_bind; [reads_walk | intro]. cbv zeta.
      apply clean_bind; [reads_walk | intro]. apply clean_bind; [reads_walk | intro].
      apply clean_bind; [reads_walk | intro]. apply surely_clean.
      apply surely_bind; [destruct (_ || _); [apply surely_store, N | apply surely_ret] | intro].
      apply surely_bind; [apply surely_store, N | intro].
      destruct (mp_rps d) as [l | ]; [ | apply surely_ret].
      unfold set_min_pin_length_rp_ids. destruct (Nat.ltb_spec (c_max_rp_ids (e_cfg e))
        (length (add_defaults l (c_min_pin_rps (e_cfg e))))); [lia | ].
      apply surely_store, N.
    - apply clean_reads; reads_walk.
  Qed.
End Use.
