(** The minimum PIN length: property C26. *)
From Verif Require Import Base Facts Hid.Model U2f.Model Cbor.Model Ctap.Crypto Ctap.Types Ctap.Machine
  Ctap.Commands Ctap.Parse Ctap.System Ctap.Logic Ctap.History Ctap.Track Ctap.PinChange.
From Coq Require Import Lia.

Section MinPin.
  Variable e : env.

  (** ** The minimum only grows *)
  Section Grows.
    Variable w0 : world.
    Definition Amin (l : list item) (p : pers) : Prop := (minlen_of e (w_p w0) <= minlen_of e p)%N.
    Definition Pmin : params := keep p_minlen anyv anyE.
    Lemma Amin_mono l l' p : Amin l p -> Amin (l' ++ l) p.
    Proof. auto. Qed.
    Lemma Amin_frame l p q : Amin l p -> Rp Pmin p q -> Amin l q.
    Proof. unfold Amin, minlen_of. cbn. intros H ->. exact H. Qed.
    Notation T := (Tr Amin w0).
    Lemma min_rel {E B} (m : M E B) : rel Pmin m -> hoare T m (fun _ => T).
    Proof. apply Tr_rel; [exact Amin_mono | exact Amin_frame]. Qed.

    Lemma set_min_grows d : hoare T (cf_set_min_pin_length e d) (fun _ => T).
    Proof.
      unfold cf_set_min_pin_length.
      eapply hoare_bind with (Mid := fun stored w => T w /\ stored = minlen_of e (w_p w)).
      { intros w Hw. pose proof (min_rel (min_pin_length e) ltac:(rel_walk) w Hw) as Q.
        destruct (min_pin_length e w) as [[n | s] w'] eqn:E; cbn [fst snd] in *; [ | exact Q].
        split; [exact Q | ]. apply load_ok in E as (-> & -> & _). reflexivity. }
      intro stored. cbv zeta. set (new := match mp_len d with Some n => n | None => stored end).
      set (I := fun w => T w /\ stored = minlen_of e (w_p w)).
      assert (HI : forall E B (m : M E B), rel Pmin m -> hoare I m (fun _ => I)).
      { intros E B m R w [H1 H2]. split; [apply (min_rel m R w H1) | ].
        pose proof (fr_p _ _ _ (R w)) as F. cbn in F. unfold minlen_of in *. rewrite F. exact H2. }
      assert (Pre : forall B D (m : M status B) (k : B -> M status D), rel Pmin m ->
                (forall b, hoare I (k b) (fun _ => T)) -> hoare I (bind m k) (fun _ => T)).
      { intros B D m k R Hk. eapply hoare_bind with (Mid := fun _ => I); [ | exact Hk].
        eapply hoare_post; [apply (HI _ _ m R) | ]. intros [] w H; [exact H | apply H]. }
      eapply hoare_bind with (Mid := fun _ w => (stored <= new)%N /\ I w).
      { intros w Hw. destruct (new <? stored)%N eqn:En; cbn; [apply Hw | ]. split; [lia | exact Hw]. }
      intros _. apply hoare_fact. intro Hn.
      apply Pre; [rel_walk | intros _]. apply Pre; [rel_walk | intro old].
      apply Pre; [rel_walk | intros _].
      eapply hoare_bind with (Mid := fun _ => T).
      { eapply hoare_post; [apply Tr_store | ].
        - exact Amin_mono.
        - intros w [H _]. exact H.
        - intros w l [_ HS] _ H. unfold Amin in *. cbn. lia.
        - intros [] w H; exact H. }
      intros _. apply min_rel. rel_walk.
    Qed.
    Lemma config_grows p : hoare T (process_config e p) (fun _ => T).
    Proof.
      unfold process_config. apply hoare_seq; [apply min_rel; rel_walk | intros _].
      apply hoare_seq; [ | intros _; apply min_rel; rel_walk].
      destruct (cf_sub_ p); try (apply min_rel; rel_walk; fail).
      destruct (cf_data p); [apply set_min_grows | apply min_rel; rel_walk].
    Qed.
    Lemma message_grows x ch : x <> CReset -> hoare T (process_parsed_command e x ch) (fun _ => T).
    Proof.
      intro Hx. unfold process_parsed_command.
      do 3 (apply hoare_seq; [apply min_rel; rel_walk | intro]).
      apply hoare_seq; [apply min_rel; destruct (keeps x a1); rel_walk | intros _].
      destruct ch; [ | apply min_rel; destruct x; rel_walk].
      destruct x; cbn [process_fido_command]; try contradiction; try apply config_grows;
        apply min_rel; rel_walk.
    Qed.
  End Grows.

  Theorem min_pin_monotone o w l1 p l2 :
    w_log (snd (run_op e o w)) = l1 ++ LWrite p :: l2 ++ w_log w ->
    (minlen_of e (w_p w) <= minlen_of e p)%N \/
    exists b cid, o = OpMessage b cid /\ parse_command (e_cfg e) b = Ok CReset.
  Proof.
    intro E.
    assert (OF : other_frame e Pmin) by (split; try reflexivity; intros; rel_walk).
    assert (H : Tr (Amin w) w (snd (run_op e o w)) \/
                exists b cid, o = OpMessage b cid /\ parse_command (e_cfg e) b = Ok CReset).
    { assert (T0 : Tr (Amin w) w w) by (apply Tr_start; apply N.le_refl).
      destruct (run_op_other e Pmin o w OF) as [(b & ch & -> & ER) | F].
      - rewrite ER. unfold process_command, bind, lift.
        destruct (parse_command (e_cfg e) b) as [x | s] eqn:Ep; [ | left; exact T0].
        assert (D : x = CReset \/ x <> CReset) by (destruct x; (left; reflexivity) || (right; discriminate)).
        destruct D as [-> | D]; [right; eauto | left]. apply message_grows; assumption.
      - left. eapply Tr_frame; [apply Amin_mono | apply Amin_frame | exact F | exact T0]. }
    destruct H as [H | H]; [left | right; exact H]. eapply Tr_use in H; [ | exact E]. exact H.
  Qed.

  (** ** A PIN that is too short is marked *)
  Definition marked (p : pers) : Prop :=
    forall h n, p_pin p = Some (h, n) -> (n < minlen_of e p)%N -> p_force p = true.
  Section Marked.
    Variable w0 : world.
    Definition Amk (l : list item) (p : pers) : Prop := marked p.
    Definition Pmk : params := keep (fun p => (p_pin p, p_minlen p, p_force p)) anyv anyE.
    Lemma Amk_mono l l' p : Amk l p -> Amk (l' ++ l) p.
    Proof. auto. Qed.
    Lemma Amk_frame l p q : Amk l p -> Rp Pmk p q -> Amk l q.
    Proof.
      unfold Amk, marked, minlen_of. cbn. intros H F.
      apply pair_equal_spec in F as [F F3]. apply pair_equal_spec in F as [F1 F2].
      rewrite F1, F2, F3. exact H.
    Qed.
    Notation T := (Tr Amk w0).
    Lemma mk_rel {E B} (m : M E B) : rel Pmk m -> hoare T m (fun _ => T).
    Proof. apply Tr_rel; [exact Amk_mono | exact Amk_frame]. Qed.
    Lemma mk_store f : (forall p, marked p -> marked (f p)) -> hoare T (store e f) (fun _ => T).
    Proof.
      intro H. apply Tr_store; [exact Amk_mono | auto | ]. intros w l _ _ Hm. apply H. exact Hm.
    Qed.

    Lemma new_pin_marked s enc : hoare T (check_and_store_new_pin e s enc) (fun _ => T).
    Proof.
      unfold check_and_store_new_pin. apply hoare_seq; [apply mk_rel; rel_walk | intro pin].
      apply hoare_then with (J := fun n w => n = minlen_of e (w_p w)).
      { intros w Hw. split; [apply (mk_rel (min_pin_length e)); [rel_walk | exact Hw] | ].
        intros n Hn. destruct (min_pin_length e w) as [y w'] eqn:E. cbn in Hn |- *. subst y.
        apply load_ok in E as (-> & -> & _). reflexivity. }
      intro n. cbv zeta.
      eapply hoare_bind with (Mid := fun _ w => (n <= code_points pin)%N /\
                                                (T w /\ n = minlen_of e (w_p w))).
      { intros w Hw. set (b := negb _). destruct b eqn:Eb; cbn; [ | apply Hw].
        split; [ | exact Hw]. unfold b in Eb. apply Bool.negb_true_iff, Bool.orb_false_iff in Eb. lia. }
      intros _. apply hoare_fact. intro Hn.
      apply Tr_store; [exact Amk_mono | intros w [H _]; exact H | ].
      intros w l [_ Hm] _ _. intros h k Hk Hlt. cbn in Hk. injection Hk as _ <-.
      unfold minlen_of in Hlt, Hm. cbn in Hlt. lia.
    Qed.
    Lemma set_min_marked d : hoare T (cf_set_min_pin_length e d) (fun _ => T).
    Proof.
      unfold cf_set_min_pin_length. apply hoare_seq; [apply mk_rel; rel_walk | intro stored].
      cbv zeta. set (new := match mp_len d with Some n => n | None => stored end).
      apply hoare_seq; [apply mk_rel; rel_walk | intros _].
      apply hoare_seq; [apply mk_rel; rel_walk | intros _].
      apply hoare_then with (J := fun old w => old = option_map snd (p_pin (w_p w))).
      { intros w Hw. split; [apply (mk_rel (pin_code_point_length e)); [rel_walk | exact Hw] | ].
        intros n Hn. destruct (pin_code_point_length e w) as [y w'] eqn:E. cbn in Hn |- *. subst y.
        apply load_ok in E as (-> & -> & _). reflexivity. }
      intro old.
      set (J := fun w => forall h n, p_pin (w_p w) = Some (h, n) -> (n < new)%N -> p_force (w_p w) = true).
      eapply hoare_bind with (Mid := fun _ w => T w /\ J w).
      { set (force := _ || _). destruct force eqn:Ef.
        - intros w [Hw _].
          assert (Q : T (snd (force_pin_change e w))).
          { apply mk_store; [ | exact Hw]. intros p _ h n _ _. reflexivity. }
          destruct (force_pin_change e w) as [[u | s] w'] eqn:E; cbn [fst snd] in *; [ | exact Q].
          split; [exact Q | ]. apply store_ok in E as (E & _). intros h n _ _. rewrite E. reflexivity.
        - intros w [Hw ->]. cbn. split; [exact Hw | ]. intros h n Hp Hlt.
          unfold force in Ef. rewrite Hp in Ef. cbn in Ef.
          apply Bool.orb_false_iff in Ef as [_ Ef]. lia. }
      intros _.
      apply hoare_bind with (Mid := fun _ => T).
      { eapply hoare_post; [apply Tr_store | ].
        - exact Amk_mono.
        - intros w [H _]. exact H.
        - intros w l [_ HJ] _ _. intros h n Hp Hlt. cbn in *. eapply HJ; eauto.
        - intros [] w H; exact H. }
      intros _. apply mk_rel. rel_walk.
    Qed.
    Ltac mk := first [apply mk_rel; rel_walk; fail
                     | apply mk_store; let H := fresh in intros ? H; exact H].
    Lemma client_pin_marked p : hoare T (process_client_pin e p) (fun _ => T).
    Proof.
      unfold process_client_pin. apply hoare_seq; [mk | intros _].
      apply hoare_seq; [ | intro; mk].
      destruct (pi_sub p); try mk.
      - unfold process_set_pin. do 6 (apply hoare_seq; [mk | intro]).
        apply hoare_seq; [apply mk_rel; destruct (shared_verify _ _ _ _); rel_walk | intro].
        apply hoare_seq; [apply new_pin_marked | intro]. mk.
      - unfold process_change_pin. do 7 (apply hoare_seq; [mk | intro]).
        apply hoare_seq; [apply mk_rel; destruct (shared_verify _ _ _ _); rel_walk | intro].
        apply hoare_seq; [mk | intro].
        apply hoare_seq; [apply new_pin_marked | intro]. mk.
    Qed.
    Lemma reset_marked : hoare T (process_reset e) (fun _ => T).
    Proof.
      unfold process_reset. apply hoare_seq; [mk | intros [[] | ]]; try mk.
      apply hoare_seq; [mk | intro].
      apply hoare_seq; [ | intro; mk].
      unfold storage_reset. apply hoare_seq; [ | intro; mk].
      apply mk_store. intros p _ h n H. discriminate H.
    Qed.
    Lemma config_marked p : hoare T (process_config e p) (fun _ => T).
    Proof.
      unfold process_config. apply hoare_seq; [mk | intros _].
      apply hoare_seq; [ | intros _; mk].
      destruct (cf_sub_ p); try mk. destruct (cf_data p); [apply set_min_marked | mk].
    Qed.
    Lemma message_marked x ch : hoare T (process_parsed_command e x ch) (fun _ => T).
    Proof.
      unfold process_parsed_command.
      do 3 (apply hoare_seq; [mk | intro]).
      apply hoare_seq; [apply mk_rel; destruct (keeps x a1); rel_walk | intros _].
      destruct ch; [ | apply mk_rel; destruct x; rel_walk].
      destruct x; cbn [process_fido_command]; first [apply config_marked | apply client_pin_marked
        | apply reset_marked | mk].
    Qed.
  End Marked.

  Lemma run_op_marked o w : marked (w_p w) -> Tr Amk w (snd (run_op e o w)).
  Proof.
    intro H.
    assert (OF : other_frame e Pmk) by (split; try reflexivity; intros; rel_walk).
    assert (T0 : Tr Amk w w) by (apply Tr_start; exact H).
    destruct (run_op_other e Pmk o w OF) as [(b & ch & -> & ER) | F].
    - rewrite ER. unfold process_command, bind, lift.
      destruct (parse_command (e_cfg e) b) as [x | s] eqn:Ep; [ | exact T0].
      apply message_marked. exact T0.
    - eapply Tr_frame; [apply Amk_mono | apply Amk_frame | exact F | exact T0].
  Qed.

  Fixpoint all_writes (Q : pers -> Prop) (log : list item) : Prop :=
    match log with
    | [] => Q pers_init
    | LWrite p :: l => Q p /\ all_writes Q l
    | LEv _ :: l => all_writes Q l
    end.
  Lemma all_writes_last (Q : pers -> Prop) log : all_writes Q log -> Q (last_write log).
  Proof. induction log as [ | [p | ev] l IH]; cbn; [auto | tauto | exact IH]. Qed.
  Lemma all_writes_suffix (Q : pers -> Prop) l l' : all_writes Q (l ++ l') -> all_writes Q l'.
  Proof. induction l as [ | [p | ev] l IH]; cbn; [auto | intros [_ H]; auto | auto]. Qed.
  Lemma all_writes_app (Q : pers -> Prop) l l' :
    (forall l1 p l2, l = l1 ++ LWrite p :: l2 -> Q p) -> all_writes Q l' -> all_writes Q (l ++ l').
  Proof.
    intros H H'. induction l as [ | [p | ev] l IH]; cbn; [exact H' | split | ].
    - apply (H [] p l). reflexivity.
    - apply IH. intros l1 q l2 ->. apply (H (LWrite p :: l1) q l2). reflexivity.
    - apply IH. intros l1 q l2 ->. apply (H (LEv ev :: l1) q l2). reflexivity.
  Qed.
  (** A property of the persistent state that every write of every operation preserves holds of
      every write of every history. *)
  Theorem writes_invariant (Q : pers -> Prop) :
    Q pers_init ->
    (forall o w, Q (w_p w) -> Tr (fun _ => Q) w (snd (run_op e o w))) ->
    forall h, all_writes Q (w_log (run e h)).
  Proof.
    intros H0 Ho h. apply (history_invariant e (all_writes Q) (fun _ => True)); auto.
    - apply all_writes_suffix.
    - intros o w W H _. split; [ | exact I].
      assert (Qw : Q (w_p w)) by (rewrite W; now apply all_writes_last).
      destruct (Ho o w Qw) as (l & S & Hl & _). rewrite S. apply all_writes_app; assumption.
  Qed.
  Lemma run_writes (Q : pers -> Prop) h : all_writes Q (w_log (run e h)) -> Q (w_p (run e h)).
  Proof. intro H. rewrite (run_wf e h). now apply all_writes_last. Qed.

  Theorem short_pin_marked h : marked (w_p (run e h)).
  Proof.
    apply run_writes. apply writes_invariant.
    - intros k n H. discriminate H.
    - apply run_op_marked.
  Qed.

  (** ** While a change is forced, no token is issued *)
  Definition no_issue (ev : event) : Prop := match ev with EvIssue _ _ _ => False | _ => True end.
  Definition Pni : params := keep anyp anyv no_issue.
  Definition forced (w : world) : Prop := p_force (w_p w) = true.

  Definition NI (w0 w : world) : Prop :=
    exists l, since w0 w l /\ forall t a b, ~ In (LEv (EvIssue t a b)) l.
  Lemma NI_frame w0 P w w' :
    (forall ev, okE P ev -> no_issue ev) -> fr P w w' -> NI w0 w -> NI w0 w'.
  Proof.
    intros HP F (l & S & H). destruct (fr_log _ _ _ F) as (k & E & Fk).
    exists (k ++ l). split; [unfold since in *; now rewrite E, S, app_assoc | ].
    intros t a b Hin. apply in_app_or in Hin as [Hin | Hin]; [ | exact (H t a b Hin)].
    rewrite Forall_forall in Fk. specialize (Fk _ Hin). cbn in Fk. exact (HP _ Fk).
  Qed.
  Definition Pf : params := keep p_force anyv no_issue.
  Lemma forced_no_issue_token w0 p :
    hoare (fun w => NI w0 w /\ forced w) (process_get_pin_token e p) (fun _ => NI w0).
  Proof.
    set (I := fun w => NI w0 w /\ forced w).
    assert (HI : forall E B (m : M E B), rel Pf m -> hoare I m (fun _ => I)).
    { intros E B m R w [H1 H2]. split.
      - eapply NI_frame; [ | apply R | exact H1]. auto.
      - pose proof (fr_p _ _ _ (R w)) as F. cbn in F. unfold forced in *. congruence. }
    assert (Pre : forall B D (m : M status B) (k : B -> M status D), rel Pf m ->
              (forall b, hoare I (k b) (fun _ => NI w0)) -> hoare I (bind m k) (fun _ => NI w0)).
    { intros B D m k R Hk. eapply hoare_bind with (Mid := fun _ => I); [ | exact Hk].
      eapply hoare_post; [apply (HI _ _ m R) | ]. intros [] w H; [exact H | apply H]. }
    unfold process_get_pin_token.
    do 2 (apply Pre; [rel_walk | intro]).
    apply Pre; [destruct (pi_perms p), (pi_rp p); rel_walk | intro].
    do 4 (apply Pre; [rel_walk | intro]).
    eapply hoare_bind with (Mid := fun f w => I w /\ f = true).
    { intros w Hw. pose proof (HI _ _ (has_force_pin_change e) ltac:(rel_walk) w Hw) as Q.
      destruct (has_force_pin_change e w) as [[f | s] w'] eqn:E; cbn [fst snd] in *; [ | apply Q].
      split; [exact Q | ]. apply load_ok in E as (-> & _). apply Hw. }
    intro f. apply hoare_fact_r. intros ->.
    eapply hoare_bind with (Mid := fun _ _ => False); [ | intros _ w []].
    intros w Hw. apply Hw.
  Qed.

  Theorem forced_no_issue o w l :
    p_force (w_p w) = true -> w_log (snd (run_op e o w)) = l ++ w_log w ->
    forall t a b, ~ In (LEv (EvIssue t a b)) l.
  Proof.
    intros Hf E.
    assert (N0 : NI w w) by (exists []; split; [reflexivity | auto]).
    assert (H : NI w (snd (run_op e o w))).
    { assert (OF : other_frame e Pni) by (split; try reflexivity; intros; rel_walk).
      destruct (run_op_other e Pni o w OF) as [(b & ch & -> & ER) | F].
      2: { eapply NI_frame; [ | exact F | exact N0]. auto. }
      rewrite ER. clear ER E. unfold process_command, bind, lift.
      destruct (parse_command (e_cfg e) b) as [x | s] eqn:Ep; [ | exact N0].
      assert (Fr : rel Pni (process_parsed_command e x ch) -> NI w (snd (process_parsed_command e x ch w))).
      { intro R. eapply NI_frame; [ | apply R | exact N0]. auto. }
      cbn [fst snd]. rewrite split_message. unfold bind.
      destruct (preamble_same x ch w) as (w1 & Q & Qp & Ql & _). rewrite Q.
      assert (N1 : NI w w1) by (exists []; split; [exact Ql | auto]).
      assert (F1 : forced w1) by (unfold forced; now rewrite Qp).
      destruct ch; cbn [snd].
      2: { eapply NI_frame; [ | | exact N1]; [ | destruct x; cbn [process_vendor_command];
             match goal with |- fr ?P _ (snd (?m _)) => assert (R : rel Pni m) by rel_walk; apply R end]. auto. }
      assert (Main : forall B (m : M status B), rel Pni m -> NI w (snd (m w1))).
      { intros B m R. eapply NI_frame; [ | apply R | exact N1]. auto. }
      destruct x; cbn [process_fido_command]; try (apply Main; rel_walk; fail).
      unfold process_client_pin.
      assert (HC : hoare (fun w' => NI w w' /\ forced w') (process_client_pin e p) (fun _ => NI w)).
      { unfold process_client_pin.
        eapply hoare_bind with (Mid := fun _ w' => NI w w' /\ forced w').
        { intros w' Hw. destruct (guard _ _ w') as [[u | s] w2] eqn:Eg.
          - apply guard_ok in Eg as [_ ->]. exact Hw.
          - unfold guard in Eg. destruct (negb _); [discriminate | ].
            cbn in *. injection Eg as _ <-. apply Hw. }
        intros _.
        eapply hoare_bind with (Mid := fun _ => NI w); [ | intro; apply hoare_ret; auto].
        assert (NIpost : forall m : M status (option pin_resp),
                   hoare (fun w' => NI w w' /\ forced w') m (fun _ => NI w) ->
                   hoare (fun w' => NI w w' /\ forced w') m
                     (fun y w' => match y with Ok _ => NI w w' | Err _ => NI w w' end)).
        { intros m H. eapply hoare_post; [exact H | ]. intros [] w' Hw; exact Hw. }
        assert (NIrel : forall m : M status (option pin_resp), rel Pni m ->
                   hoare (fun w' => NI w w' /\ forced w') m (fun _ => NI w)).
        { intros m R w' [Hw _]. eapply NI_frame; [ | apply R | exact Hw]. auto. }
        destruct (pi_sub p); apply NIpost; try (apply NIrel; rel_walk; fail).
        - apply forced_no_issue_token.
        - unfold process_token_with_permissions.
          assert (Pre : forall B D (m : M status B) (k : B -> M status D), rel Pf m ->
            (forall b, hoare (fun w' => NI w w' /\ forced w') (k b) (fun _ => NI w)) ->
            hoare (fun w' => NI w w' /\ forced w') (bind m k) (fun _ => NI w)).
          { intros B D m k R Hk.
            eapply hoare_bind with (Mid := fun _ w' => NI w w' /\ forced w'); [ | exact Hk].
            intros w' [H1 H2]. assert (Q' : NI w (snd (m w')) /\ forced (snd (m w'))).
            { split.
              - eapply NI_frame; [ | apply R | exact H1]. auto.
              - pose proof (fr_p _ _ _ (R w')) as F. cbn in F. unfold forced in *. congruence. }
            destruct (fst (m w')); [exact Q' | apply Q']. }
          do 3 (apply Pre; [rel_walk | intro]).
          eapply hoare_bind with (Mid := fun _ => NI w).
          + eapply hoare_post; [apply forced_no_issue_token | ]. intros [] w' Hw; exact Hw.
          + intro. intros w' Hw.
            match goal with |- NI w (snd (?m w')) => assert (R : rel Pni m) by rel_walk end.
            eapply NI_frame; [ | apply R | exact Hw]. auto. }
      apply HC. auto. }
    destruct H as (l' & S & H). unfold since in S. rewrite S in E. apply app_inv_tail in E. subst l'.
    exact H.
  Qed.
End MinPin.
