(** Which commands start, continue and end an enumeration: property C51. *)
From Verif Require Import Base Facts Hid.Model U2f.Model Cbor.Model Ctap.Crypto Ctap.Types Ctap.Machine
  Ctap.Commands Ctap.Parse Ctap.System Ctap.Logic Ctap.History Ctap.Track Ctap.Pin Ctap.PinChange
  Ctap.TokenSpec Ctap.Token Ctap.Success Ctap.Auth Ctap.Gate Ctap.Answers Ctap.TokenUse.
From Coq Require Import Lia.

(** The three enumerations. *)
Inductive kind := KAssertion | KRps | KCreds.
(** The command that starts an enumeration, and the one that continues it. *)
Definition begins (k : kind) (x : command) : Prop :=
  match k, x with
  | KAssertion, CGetAssertion p => ga_allow p = None
  | KRps, CCredMgmt p => cm_sub_ p = CmRpsBegin
  | KCreds, CCredMgmt p => cm_sub_ p = CmCredsBegin
  | _, _ => False
  end.
Definition continues (k : kind) (x : command) : Prop :=
  match k, x with
  | KAssertion, CGetNextAssertion => True
  | KRps, CCredMgmt p => cm_sub_ p = CmRpsNext
  | KCreds, CCredMgmt p => cm_sub_ p = CmCredsNext
  | _, _ => False
  end.
(** What may happen between the start of an enumeration on a channel and its continuation: more
    continuations on that channel, and what is no CTAP2 command at all. *)
Definition harmless (e : env) (k : kind) (ch : channel) (o : op) : Prop :=
  match o with
  | OpMessage b c =>
      match parse_command (e_cfg e) b with
      | Ok x => continues k x /\ c = ch
      | Err _ => True
      end
  | OpVendor _ _ _ => False
  | OpU2f _ | OpTouch | OpTick _ | OpCompact _ => True
  end.

Notation st w := (v_st (w_v w)).
Definition kind_of (c : stateful_cmd) : option kind :=
  match c with
  | SReset => None
  | SGetAssertion _ _ => Some KAssertion
  | SEnumRps _ => Some KRps
  | SEnumCreds _ => Some KCreds
  end.
Definition shape (s : stateful) : timer * option channel * option (option kind) :=
  (sf_timer s, sf_chan s, option_map kind_of (sf_cmd s)).
Definition desc (s s' : stateful) : Prop := s' = stateful_clear \/ shape s' = shape s.
Lemma desc_refl s : desc s s.
Proof. right. reflexivity. Qed.
Lemma shape_clear s : shape s = shape stateful_clear -> s = stateful_clear.
Proof.
  unfold shape. destruct s as [t c ch]. cbn. intro H. apply pair_equal_spec in H as [H H3].
  apply pair_equal_spec in H as [H1 H2]. subst. destruct c; [discriminate | reflexivity].
Qed.
Lemma desc_trans a b d : desc a b -> desc b d -> desc a d.
Proof.
  intros [-> | H] [-> | H']; [now left | left; apply shape_clear, H' | now left | right; congruence].
Qed.
Definition Pst : params.
Proof.
  refine (mkPar (fun _ _ => True) (fun u v => desc (v_st u) (v_st v)) anyE _ _ _ _); auto.
  - intro v. apply desc_refl.
  - intros u v w. apply desc_trans.
Defined.
Ltac st_side :=
  intros; cbn;
  first [ exact Logic.I
        | apply desc_refl
        | left; reflexivity
        | match goal with |- desc _ (match ?x with _ => _ end) => destruct x end; st_side ].
Ltac st_walk := repeat (first [solve [auto with rel_db] | rel_step ltac:(try solve [st_side])]).

Lemma st_proto p v x : v_st (set_proto p x v) = v_st v.
Proof. destruct p; reflexivity. Qed.
Ltac st_fin := try (intro v; cbn; rewrite ?st_proto; apply desc_refl).

Lemma st_next_assertion : rel Pst next_assertion_credential.
Proof.
  unfold next_assertion_credential. apply rel_bind; [st_walk | intros _].
  intro w. unfold bind, gets. destruct (sf_cmd (st w)) as [[ | i keys | | ] | ] eqn:E; try apply fr_refl.
  destruct (rev keys); [apply fr_refl | ]. split; cbn; auto; try lia.
  - exists []. split; [reflexivity | constructor].
  - right. unfold shape. cbn. rewrite E. reflexivity.
Qed.
Lemma st_next_rp : rel Pst next_enumerate_rp.
Proof.
  unfold next_enumerate_rp. apply rel_bind; [st_walk | intros _].
  intro w. unfold bind, gets. destruct (sf_cmd (st w)) as [[ | i keys | | ] | ] eqn:E; try apply fr_refl.
  split; cbn; auto; try lia.
  - exists []. split; [reflexivity | constructor].
  - right. unfold shape. cbn. rewrite E. reflexivity.
Qed.
Lemma st_next_credential : rel Pst next_enumerate_credential.
Proof.
  unfold next_enumerate_credential. apply rel_bind; [st_walk | intros _].
  intro w. unfold bind, gets. destruct (sf_cmd (st w)) as [[ | i keys | | keys] | ] eqn:E; try apply fr_refl.
  destruct (rev keys); [apply fr_refl | ]. split; cbn; auto; try lia.
  - exists []. split; [reflexivity | constructor].
  - right. unfold shape. cbn. rewrite E. reflexivity.
Qed.
Local Hint Resolve st_next_assertion st_next_rp st_next_credential : rel_db.

(** ** Starting an enumeration *)
Definition fresh (k : kind) (ch : channel) (w w' : world) : Prop :=
  exists t, (w_now w <= t <= w_now w')%N /\ shape (st w') = ((t + 30000)%N, Some ch, Some (Some k)).
Definition started {A} (k : kind) (ch : channel) (m : M status A) : Prop :=
  forall w, let w' := snd (m w) in
    (w_now w <= w_now w')%N /\ (desc (st w) (st w') \/ fresh k ch w w').
Lemma started_rel {A} k ch (m : M status A) : rel Pst m -> started k ch m.
Proof. intros R w. split; [apply (fr_now _ _ _ (R w)) | left; apply (fr_v _ _ _ (R w))]. Qed.
Lemma started_bind {A B} k ch (m : M status A) (f : A -> M status B) :
  started k ch m -> (forall a, started k ch (f a)) -> started k ch (bind m f).
Proof.
  intros H K w. specialize (H w). unfold bind. destruct (m w) as [[a | s] w1]; [ | exact H].
  cbn [snd] in H. specialize (K a w1). destruct (f a w1) as [r w2]. cbn [snd] in *.
  destruct H as [N1 H], K as [N2 K]. split; [lia | ].
  destruct K as [K | (t & Ht & K)]; [ | right; exists t; split; [lia | exact K]].
  destruct H as [H | (t & Ht & H)]; [left; eapply desc_trans; eassumption | ].
  destruct K as [K | K]; [left; left; exact K | ].
  right. exists t. split; [lia | congruence].
Qed.
Lemma started_set k ch x : kind_of x = Some k -> started k ch (set_command x ch).
Proof.
  intros E w. cbn. split; [lia | ]. right. exists (w_now w). split; [cbn; lia | ].
  unfold shape. cbn. rewrite E. reflexivity.
Qed.
Ltac st_rel := solve [apply started_rel; st_walk; st_fin].
Lemma started_get_assertion e p ch : started KAssertion ch (process_get_assertion e p ch).
Proof.
  unfold process_get_assertion. cbv zeta.
  do 4 (apply started_bind; [st_rel | intro]).
  match goal with a : _ * _ |- _ => destruct a as [[r | ] keys] end; [ | st_rel].
  do 3 (apply started_bind; [st_rel | intro]).
  apply started_bind; [ | intro; st_rel].
  destruct keys; [st_rel | ].
  apply started_bind; [apply started_set; reflexivity | intro; st_rel].
Qed.
Lemma rel_bind_map {E A B C} P (m : M E A) (f : A -> B) (k : B -> M E C) :
  rel P m -> (forall a, rel P (k (f a))) -> rel P (bind (let* a := m in ret (f a)) k).
Proof.
  intros Hm Hk w. unfold bind, ret. specialize (Hm w). destruct (m w) as [[a | s] w1]; [ | exact Hm].
  eapply fr_trans; [exact Hm | apply Hk].
Qed.
Lemma allow_list_starts_nothing e p l ch : ga_allow p = Some l -> rel Pst (process_get_assertion e p ch).
Proof.
  intro Hl. unfold process_get_assertion, ga_select. cbv zeta. rewrite Hl.
  do 3 (apply rel_bind; [solve [st_walk; st_fin] | intro]).
  apply (rel_bind_map Pst _ (fun o => (o, []))); [st_walk | intros [r | ]]; [ | st_walk].
  do 4 (apply rel_bind; [solve [st_walk; st_fin] | intro]). st_walk; st_fin.
Qed.
(** credential_management.rs 253-273: the check of the state, before anything else. *)
Definition cm_front (p : cm_params) : M status unit :=
  let* s := get_command in
  match cm_sub_ p, s with
  | CmRpsNext, Some (SEnumRps _) => ret tt
  | CmCredsNext, Some (SEnumCreds _) => ret tt
  | _, _ => st_clear
  end.
Definition cm_rest (e : env) (p : cm_params) (ch : channel) : M status response :=
  do* cm_authorise e p in
  let* r := match cm_sub_ p with
            | CmMetadata => do* has_no_rp_id in cm_metadata e
            | CmRpsBegin => do* has_no_rp_id in cm_rps_begin e ch
            | CmRpsNext => cm_rps_next e
            | CmCredsBegin =>
                let* d := lift (ok_or_missing (cm_data_ p)) in cm_creds_begin e d ch
            | CmCredsNext => cm_creds_next e
            | CmDelete => let* d := lift (ok_or_missing (cm_data_ p)) in cm_delete e d
            | CmUpdate => let* d := lift (ok_or_missing (cm_data_ p)) in cm_update e d
            end in
  ret (RCredMgmt r).
Lemma cm_split e p ch w : process_cred_mgmt e p ch w = (do* cm_front p in cm_rest e p ch) w.
Proof.
  unfold process_cred_mgmt, cm_front, cm_rest, bind. destruct (get_command w) as [[s | ] w1]; [ | reflexivity].
  destruct (cm_sub_ p), s as [[ | | | ] | ]; reflexivity.
Qed.
Lemma cm_front_run p w : exists w1, cm_front p w = (Ok tt, w1) /\ w_p w1 = w_p w /\ w_log w1 = w_log w /\
  w_now w1 = w_now w /\ w_op w1 = w_op w /\ w_rng w1 = w_rng w /\ w_up w1 = w_up w /\
  (st w1 = stateful_clear \/
   st w1 = st w /\ (w_now w < sf_timer (st w))%N /\
   exists k, continues k (CCredMgmt p) /\ option_map kind_of (sf_cmd (st w)) = Some (Some k)).
Proof.
  unfold cm_front, get_command, clear_timer, bind, now, gets, mod_st, modify. cbn -[is_elapsed].
  unfold is_elapsed. destruct (sf_timer (st w) <=? w_now w)%N eqn:Et.
  - cbn. destruct (cm_sub_ p); (eexists; split; [reflexivity | cbn; auto 10]).
  - destruct (sf_cmd (st w)) as [[ | i ks | i | ks] | ] eqn:Ec; destruct (cm_sub_ p) eqn:Es;
      (eexists; split; [reflexivity | ]); cbn; do 6 (split; [reflexivity | ]);
      try (left; reflexivity); right; (split; [reflexivity | split; [lia | ]]).
    + exists KRps. auto.
    + exists KCreds. auto.
Qed.
Lemma started_cm e p ch (k : kind) :
  match k with KRps => cm_sub_ p = CmRpsBegin | KCreds => cm_sub_ p = CmCredsBegin | _ => False end ->
  started k ch (cm_rest e p ch).
Proof.
  intros Hk. unfold cm_rest.
  apply started_bind; [st_rel | intros _].
  apply started_bind; [ | intro; st_rel].
  destruct k; [destruct Hk | | ]; rewrite Hk.
  - apply started_bind; [st_rel | intros _]. unfold cm_rps_begin.
    apply started_bind; [st_rel | intro l]. cbv zeta.
    apply started_bind; [ | intros _; st_rel].
    destruct (1 <? _)%nat; [apply started_set; reflexivity | st_rel].
  - apply started_bind; [st_rel | intros d]. unfold cm_creds_begin.
    do 3 (apply started_bind; [st_rel | intro]). cbv zeta.
    destruct (rev _); [st_rel | ].
    apply started_bind; [st_rel | intro].
    apply started_bind; [ | intros _; st_rel].
    destruct (1 <? _)%nat; [apply started_set; reflexivity | st_rel].
Qed.

(** ** One operation *)
Definition running (k : kind) (ch : channel) (s : stateful) : Prop :=
  exists t, shape s = (t, Some ch, Some (Some k)).

Lemma st_preamble x ch w w1 : preamble x ch w = (Ok tt, w1) ->
  desc (st w) (st w1) /\ (w_now w <= w_now w1)%N /\
  (st w1 = stateful_clear \/
   keeps x (sf_cmd (st w)) = true /\ st w1 = st w /\ (w_now w < sf_timer (st w))%N /\
   forall c, sf_chan (st w) = Some c -> c = ch).
Proof.
  assert (R : rel Pst (preamble x ch)).
  { unfold preamble. st_walk. }
  intro H. split; [ | split].
  - pose proof (fr_v _ _ _ (R w)) as F. now rewrite H in F.
  - pose proof (fr_now _ _ _ (R w)) as F. now rewrite H in F.
  - unfold preamble in H.
    apply bind_ok in H as (? & w2 & H1 & H). unfold update_timeouts in H1.
    apply bind_ok in H1 as (n & w3 & H2 & H1). apply now_ok in H2 as [-> ->].
    apply modify_ok in H1 as (V1 & _ & N1 & _).
    apply bind_ok in H as (? & w4 & H2 & H). unfold clear_other_channels in H2.
    apply bind_ok in H2 as (? & w5 & H3 & H2). apply modify_ok in H3 as (V2 & _ & N2 & _).
    apply modify_ok in H2 as (V3 & _ & N3 & _).
    apply bind_ok in H as (s & w6 & H3 & H). unfold get_command in H3.
    apply bind_ok in H3 as (? & w7 & H4 & H3). unfold clear_timer in H4.
    apply bind_ok in H4 as (n & w8 & H5 & H4). apply now_ok in H5 as [-> ->].
    apply modify_ok in H4 as (V4 & _ & N4 & _). apply gets_ok in H3 as [-> ->].
    assert (E5 : v_st (w_v w5) = st w) by (rewrite V2, V1; reflexivity).
    assert (E4 : v_st (w_v w4) = match sf_chan (st w) with
                                 | Some x => if channel_eqb x ch then st w else stateful_clear
                                 | None => st w end).
    { rewrite V3. cbn [set_st v_st]. rewrite E5. reflexivity. }
    assert (E7 : v_st (w_v w7) = if is_elapsed (w_now w) (sf_timer (v_st (w_v w4)))
                                 then stateful_clear else v_st (w_v w4)).
    { rewrite V4. cbn [set_st v_st]. rewrite N3, N2, N1. reflexivity. }
    destruct (keeps x (sf_cmd (v_st (w_v w7)))) eqn:Ek.
    2: { apply modify_ok in H as (V5 & _). left. rewrite V5. reflexivity. }
    apply ret_ok in H as [_ ->]. unfold is_elapsed in E7.
    destruct (sf_timer (v_st (w_v w4)) <=? w_now w)%N eqn:En; [left; exact E7 | ].
    destruct (sf_chan (st w)) as [c | ] eqn:Ec.
    + destruct (channel_eqb c ch) eqn:Eb.
      * right. rewrite E7, E4 in *. repeat split; auto; [lia | ]. intros c' E. injection E as <-.
        destruct c, ch; cbn in Eb; try discriminate; apply bytes_eqb_eq in Eb; now subst.
      * left. now rewrite E7, E4.
    + right. rewrite E7, E4 in *. repeat split; auto; [lia | ]. discriminate.
Qed.

Lemma st_message e x ch w :
  let w' := snd (process_parsed_command e x ch w) in
  (w_now w <= w_now w')%N /\
  ((exists k cid, ch = MainHid cid /\ begins k x /\ fresh k ch w w') \/
   (desc (st w) (st w') /\
    forall k c, running k c (st w') -> c = ch /\ forall cid, ch = MainHid cid -> continues k x)).
Proof.
  cbv zeta. rewrite split_message. destruct (preamble_same x ch w) as (w1 & Q & _).
  pose proof (st_preamble x ch w w1 Q) as (D1 & N1 & C1).
  unfold bind. rewrite Q.
  assert (KC : forall k c, running k c (st w1) ->
            c = ch /\ match k with KAssertion => x = CGetNextAssertion
                      | _ => exists p, x = CCredMgmt p end).
  { intros k c (t & Hr). destruct C1 as [C1 | (K & E1 & _ & Hch)]; [rewrite C1 in Hr; discriminate | ].
    rewrite E1 in Hr. unfold shape in Hr. apply pair_equal_spec in Hr as [Hr H3].
    apply pair_equal_spec in Hr as [_ H2]. split; [apply Hch, H2 | ].
    destruct (sf_cmd (st w)) as [[ | | | ] | ]; cbn in H3; try discriminate; injection H3 as <-;
      destruct x; cbn in K; try discriminate; eauto. }
  assert (REL : forall w2 (m : M status response), rel Pst m ->
            desc (st w) (st w2) -> (w_now w <= w_now w2)%N ->
            (forall k c, running k c (st w2) -> c = ch /\ forall cid, ch = MainHid cid -> continues k x) ->
            (w_now w <= w_now (snd (m w2)))%N /\
            ((exists k cid, ch = MainHid cid /\ begins k x /\ fresh k ch w (snd (m w2))) \/
             (desc (st w) (st (snd (m w2))) /\
              forall k c, running k c (st (snd (m w2))) ->
                c = ch /\ forall cid, ch = MainHid cid -> continues k x))).
  { intros w2 m R Dw Nw HC. pose proof (fr_now _ _ _ (R w2)) as N2. pose proof (fr_v _ _ _ (R w2)) as D2. cbn in D2.
    split; [lia | ]. right. split; [eapply desc_trans; eassumption | ].
    intros k c (t & Hr). destruct D2 as [D2 | D2]; [rewrite D2 in Hr; discriminate | ].
    apply HC. exists t. congruence. }
  assert (NR : st w1 = stateful_clear -> forall k c, ~ running k c (st w1)).
  { intros Hc k c (t & Hr). rewrite Hc in Hr. discriminate. }
  destruct ch as [cid | cid].
  2: { apply REL; auto; [destruct x; cbn [process_vendor_command]; st_walk | ].
       intros k c Hr. split; [apply (KC _ _ Hr) | discriminate]. }
  assert (OTHER : match x with CGetAssertion _ | CCredMgmt _ => False | _ => True end ->
            forall k c, running k c (st w1) -> c = MainHid cid /\
              forall cid0, MainHid cid = MainHid cid0 -> continues k x).
  { intros Hx k c Hr. destruct (KC _ _ Hr) as [-> Hk]. split; [reflexivity | intros _ _].
    destruct k; [now subst x | | ]; destruct Hk as (p & ->); destruct Hx. }
  destruct x as [ | p | | | | | p | | | ]; cbn [process_fido_command];
    try (apply REL; auto; st_walk; st_fin; fail).
  - (* getAssertion *)
    destruct C1 as [C1 | (K & _)]; [ | destruct (sf_cmd (st w)) as [[ | | | ] | ]; discriminate].
    destruct (ga_allow p) as [l | ] eqn:El.
    { apply REL; auto; [eapply allow_list_starts_nothing, El | ]. intros k c Hr. destruct (NR C1 k c Hr). }
    destruct (started_get_assertion e p (MainHid cid) w1) as [N2 [D2 | (t & Ht & F)]];
      (split; [lia | ]).
    + right. split; [eapply desc_trans; eassumption | ]. intros k c (t & Hr). exfalso.
      destruct D2 as [D2 | D2]; [rewrite D2 in Hr; discriminate | ].
      apply (NR C1 k c). exists t. congruence.
    + left. exists KAssertion, cid. split; [reflexivity | ]. split.
      * exact El.
      * exists t. split; [lia | exact F].
  - (* credential management *)
    rewrite cm_split. destruct (cm_front_run p w1) as (w2 & Q2 & _ & _ & N2 & _ & _ & _ & C2).
    unfold bind at 1 2 3 4. rewrite Q2.
    assert (D2 : desc (st w) (st w2)).
    { destruct C2 as [C2 | (C2 & _)]; [left; exact C2 | rewrite C2; exact D1]. }
    assert (G : forall k, match k with KRps => cm_sub_ p = CmRpsBegin | KCreds => cm_sub_ p = CmCredsBegin
                          | _ => False end -> st w2 = stateful_clear ->
       (w_now w <= w_now (snd (cm_rest e p (MainHid cid) w2)))%N /\
       ((exists k cid0, MainHid cid = MainHid cid0 /\ begins k (CCredMgmt p) /\
           fresh k (MainHid cid) w (snd (cm_rest e p (MainHid cid) w2))) \/
        (desc (st w) (st (snd (cm_rest e p (MainHid cid) w2))) /\
         forall k c, running k c (st (snd (cm_rest e p (MainHid cid) w2))) ->
           c = MainHid cid /\ forall cid0, MainHid cid = MainHid cid0 -> continues k (CCredMgmt p)))).
    { intros k Hk Hc. destruct (started_cm e p (MainHid cid) k Hk w2) as [N3 [D3 | (t & Ht & F)]];
      (split; [lia | ]).
      - right. split; [eapply desc_trans; eassumption | ]. intros k' c (t & Hr). exfalso.
        destruct D3 as [D3 | D3]; [rewrite D3 in Hr; discriminate | ]. rewrite Hc in D3. rewrite D3 in Hr. discriminate.
      - left. exists k, cid. split; [reflexivity | ]. split; [destruct k; exact Hk | ].
        exists t. split; [lia | exact F]. }
    assert (RN : forall k c, running k c (st w2) -> c = MainHid cid /\
                   forall cid0, MainHid cid = MainHid cid0 -> continues k (CCredMgmt p)).
    { intros k c Hr. destruct C2 as [C2 | (C2 & _ & k' & Hk' & Es)].
      - destruct Hr as (t & Hr). rewrite C2 in Hr. discriminate.
      - rewrite C2 in Hr. split; [apply (KC _ _ Hr) | intros _ _].
        destruct Hr as (t & Hr). unfold shape in Hr. apply pair_equal_spec in Hr as [_ Hr].
        rewrite Es in Hr. injection Hr as <-. exact Hk'. }
    destruct (cm_sub_ p) eqn:Es;
      try (apply REL; [unfold cm_rest; rewrite Es; st_walk; st_fin | exact D2 | lia | exact RN]; fail).
    + apply (G KRps); [reflexivity | ]. destruct C2 as [C2 | (_ & _ & k & Hk & _)]; [exact C2 | ].
      destruct k; cbn in Hk; [destruct Hk | | ]; congruence.
    + apply (G KCreds); [reflexivity | ]. destruct C2 as [C2 | (_ & _ & k & Hk & _)]; [exact C2 | ].
      destruct k; cbn in Hk; [destruct Hk | | ]; congruence.
Qed.

Definition Pst_same : params := keep anyp v_st anyE.
Lemma st_step e o w :
  let w' := snd (run_op e o w) in
  (exists b cid x k, o = OpMessage b (MainHid cid) /\ parse_command (e_cfg e) b = Ok x /\ begins k x /\
     fresh k (MainHid cid) w w') \/
  (desc (st w) (st w') /\
   forall k c, running k c (st w') -> (exists cid, c = MainHid cid) -> harmless e k c o).
Proof.
  cbv zeta. destruct o as [b ch | b | ch b en | | d | n].
  - cbn [run_op harmless]. unfold process_command, bind, lift.
    destruct (parse_command (e_cfg e) b) as [x | s] eqn:Ex.
    + pose proof (st_message e x ch w) as H. destruct (process_parsed_command e x ch w) as [r w'].
      cbn [snd] in *. destruct H as [_ [(k & cid & -> & Hb & F) | (D & H)]].
      * left. exists b, cid, x, k. auto.
      * right. split; [exact D | ]. intros k c Hr (cid & ->). destruct (H _ _ Hr) as [E1 Hc].
        cbn [fst snd harmless]. split; [eapply Hc; eauto | congruence].
    + right. cbn [snd]. split; [apply desc_refl | ]. intros. exact I.
  - right. assert (R : rel Pst_same (u2f_process e b)) by rel_walk. specialize (R w).
    cbn [run_op]. destruct (u2f_process e b w) as [r w']. pose proof (fr_v _ _ _ R) as F. cbn in F.
    cbn [snd]. rewrite F. split; [apply desc_refl | intros; exact I].
  - right. cbn. split; [left; reflexivity | ]. intros k c (t & Hr). discriminate.
  - right. cbn. split; [apply desc_refl | auto].
  - right. cbn. split; [apply desc_refl | auto].
  - right. cbn. split; [apply desc_refl | auto].
Qed.

Lemma enum_history e h : forall k c t,
  shape (st (run e h)) = (t, c, Some (Some k)) ->
  exists cid b x h1 h2, c = Some (MainHid cid) /\
    h = h1 ++ (OpMessage b (MainHid cid), None) :: h2 /\
    parse_command (e_cfg e) b = Ok x /\ begins k x /\
    Forall (fun y => snd y = None /\ harmless e k (MainHid cid) (fst y)) h2 /\
    (w_now (run e h1) + 30000 <= t <= w_now (run e (h1 ++ [(OpMessage b (MainHid cid), None)])) + 30000)%N.
Proof.
  induction h as [ | y h IH] using rev_ind; intros k c t Hs; [discriminate | ].
  rewrite run_app in Hs. unfold step in Hs. destruct y as [o [n | ]]; cbn [fst snd] in Hs; [discriminate | ].
  destruct (st_step e o (run e h)) as [(b & cid & x & k' & -> & Hx & Hb & (t' & Ht & F)) | (D & H)].
  - rewrite F in Hs. apply pair_equal_spec in Hs as [Hs E3]. apply pair_equal_spec in Hs as [E1 E2].
    injection E3 as <-. subst t c. exists cid, b, x, h, []. rewrite run_app. unfold step. cbn [fst snd].
    repeat split; auto; lia.
  - destruct D as [D | D]; [rewrite D in Hs; discriminate | ]. rewrite D in Hs.
    destruct (IH k c t Hs) as (cid & b & x & h1 & h2 & -> & -> & Hx & Hb & Hf & Ht).
    exists cid, b, x, h1, (h2 ++ [(o, None)]). rewrite <- app_assoc. cbn [app].
    repeat split; auto; try apply Ht. apply Forall_app. split; [exact Hf | ]. constructor; [ | constructor].
    split; [reflexivity | ]. apply H; [exists t; congruence | eauto].
Qed.

Lemma clear_timer_clear w u w' : st w = stateful_clear -> clear_timer w = (Ok u, w') -> st w' = stateful_clear.
Proof.
  intros H E. unfold clear_timer in E. apply bind_ok in E as (n & w1 & E1 & E). apply now_ok in E1 as [-> ->].
  apply modify_ok in E as (V & _). rewrite V. clear V. cbn [set_st v_st]. rewrite H. destruct (is_elapsed _ _); reflexivity.
Qed.
(** A continuation that succeeds has found its enumeration. *)
Lemma next_running e x ch k w r w' :
  continues k x -> process_parsed_command e x ch w = (Ok r, w') ->
  exists t c, shape (st w) = (t, c, Some (Some k)) /\ (w_now w < t)%N /\ forall c', c = Some c' -> c' = ch.
Proof.
  intros Hk H. rewrite split_message in H. apply bind_ok in H as ([] & w1 & Q & H).
  pose proof (st_preamble x ch w w1 Q) as (D1 & N1 & C1).
  assert (E1 : st w1 = stateful_clear ->
     match ch with MainHid _ => process_fido_command e x ch | VendorHid _ => process_vendor_command e x end w1
       <> (Ok r, w')).
  { intros Hc E1. destruct ch as [cid | cid].
    2: { destruct x; cbn in Hk; destruct k; try contradiction; discriminate. }
    destruct k, x; cbn in Hk; try contradiction; cbn [process_fido_command] in E1.
    - unfold process_get_next_assertion, next_assertion_credential in E1.
      apply bind_ok in E1 as (a & w2 & E1 & _). apply bind_ok in E1 as (? & w3 & E2 & E1).
      apply (clear_timer_clear _ _ _ Hc) in E2.
      apply bind_ok in E1 as (s & w5 & E3 & E1). apply gets_ok in E3 as [-> ->]. rewrite E2 in E1. discriminate.
    - rewrite cm_split in E1. apply bind_ok in E1 as (? & w2 & E2 & E1).
      destruct (cm_front_run p w1) as (w2' & Q2 & _ & _ & _ & _ & _ & _ & C2). rewrite Q2 in E2.
      injection E2 as _ <-. assert (Hc2 : st w2' = stateful_clear) by (destruct C2 as [C2 | (C2 & _)]; congruence).
      clear C2. unfold cm_rest in E1. apply bind_ok in E1 as (? & w3 & E2 & E1).
      unfold cm_authorise in E2. rewrite Hk in E2. apply ret_ok in E2 as [_ ->]. rewrite Hk in E1.
      apply bind_ok in E1 as (a & w3 & E2 & _). unfold cm_rps_next, next_enumerate_rp in E2.
      apply bind_ok in E2 as (i & w4 & E2 & _). apply bind_ok in E2 as (? & w5 & E3 & E2).
      apply (clear_timer_clear _ _ _ Hc2) in E3.
      apply bind_ok in E2 as (s & w7 & E4 & E2). apply gets_ok in E4 as [-> ->]. rewrite E3 in E2. discriminate.
    - rewrite cm_split in E1. apply bind_ok in E1 as (? & w2 & E2 & E1).
      destruct (cm_front_run p w1) as (w2' & Q2 & _ & _ & _ & _ & _ & _ & C2). rewrite Q2 in E2.
      injection E2 as _ <-. assert (Hc2 : st w2' = stateful_clear) by (destruct C2 as [C2 | (C2 & _)]; congruence).
      clear C2. unfold cm_rest in E1. apply bind_ok in E1 as (? & w3 & E2 & E1).
      unfold cm_authorise in E2. rewrite Hk in E2. apply ret_ok in E2 as [_ ->]. rewrite Hk in E1.
      apply bind_ok in E1 as (a & w3 & E2 & _). unfold cm_creds_next, next_enumerate_credential in E2.
      apply bind_ok in E2 as (i & w4 & E2 & _). apply bind_ok in E2 as (? & w5 & E3 & E2).
      apply (clear_timer_clear _ _ _ Hc2) in E3.
      apply bind_ok in E2 as (s & w7 & E4 & E2). apply gets_ok in E4 as [-> ->]. rewrite E3 in E2. discriminate. }
  destruct C1 as [C1 | (K & Es & Hn & Hc)]; [destruct (E1 C1 H) | ].
  exists (sf_timer (st w)), (sf_chan (st w)). split; [ | auto].
  unfold shape. f_equal.
  destruct (sf_cmd (st w)) as [c | ] eqn:Ec.
  2: { exfalso. destruct x; discriminate. }
  assert (Rn : kind_of c = Some k \/ kind_of c <> Some k)
    by (destruct (kind_of c) as [k' | ]; [destruct k', k; (left; reflexivity) || (right; discriminate) | right; discriminate]).
  destruct Rn as [Rn | Rn]; [cbn; now rewrite Rn | ]. exfalso.
  (* another enumeration is running: credential management clears it *)
  destruct k, x; cbn in Hk; try contradiction; destruct c; cbn in K, Rn; try discriminate; try congruence.
  all: destruct ch as [cid | cid]; [ | discriminate]; cbn [process_fido_command] in H; rewrite cm_split in H;
    apply bind_ok in H as (? & w2 & H2 & H);
    destruct (cm_front_run p w1) as (w2' & Q2 & _ & _ & _ & _ & _ & _ & C2); rewrite Q2 in H2;
    injection H2 as _ <-;
    (assert (Hc2 : st w2' = stateful_clear) by
      (destruct C2 as [C2 | (_ & _ & k & Hk2 & E2)]; [exact C2 | ]; exfalso; rewrite Es, Ec in E2;
       cbn in E2; injection E2 as <-; cbn in Hk2; congruence));
    apply bind_ok in H as (? & w3 & E2 & H); unfold cm_authorise in E2; rewrite Hk in E2;
    apply ret_ok in E2 as [_ ->]; rewrite Hk in H; apply bind_ok in H as (a & w3 & E2 & _).
  - unfold cm_rps_next, next_enumerate_rp in E2.
    apply bind_ok in E2 as (i & w4 & E2 & _). apply bind_ok in E2 as (? & w5 & E3 & E2).
    apply (clear_timer_clear _ _ _ Hc2) in E3.
    apply bind_ok in E2 as (s & w7 & E4 & E2). apply gets_ok in E4 as [-> ->]. rewrite E3 in E2. discriminate.
  - unfold cm_creds_next, next_enumerate_credential in E2.
    apply bind_ok in E2 as (i & w4 & E2 & _). apply bind_ok in E2 as (? & w5 & E3 & E2).
    apply (clear_timer_clear _ _ _ Hc2) in E3.
    apply bind_ok in E2 as (s & w7 & E4 & E2). apply gets_ok in E4 as [-> ->]. rewrite E3 in E2. discriminate.
Qed.
