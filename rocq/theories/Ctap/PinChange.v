(** When the PIN, the minimum PIN length and the forced PIN change are written: C24 and C26. *)
From Verif Require Import Base Facts Hid.Model U2f.Model Cbor.Model Ctap.Crypto Ctap.Types Ctap.Machine
  Ctap.Commands Ctap.Parse Ctap.System Ctap.Logic Ctap.History Ctap.Track.
From Coq Require Import Lia.

Lemma until_zero_length l : (length (until_zero l) <= length l)%nat.
Proof. induction l as [ | x l IH]; cbn; [lia | ]. destruct (x =? 0)%N; cbn; lia. Qed.

Lemma verify_pin_compares e p s enc w w' :
  verify_pin_hash_enc e p s enc w = (Ok tt, w') ->
  exists l, w_log w' = l ++ w_log w /\ In (LEv (EvCompare true)) l.
Proof.
  unfold verify_pin_hash_enc. intro H. apply bind_ok in H as (h & w1 & H1 & H).
  apply load_ok in H1 as (-> & _ & _ & _ & L1 & _).
  destruct (option_map fst (p_pin (w_p w))) as [h | ]; [ | discriminate].
  apply bind_ok in H as (m & w2 & H2 & H). apply gets_ok in H2 as [_ ->].
  apply bind_ok in H as (u & w3 & H3 & H). apply guard_ok in H3 as [_ ->].
  apply bind_ok in H as (u' & w4 & H4 & H).
  assert (R : rel trivial (decr_pin_retries e)) by rel_walk.
  destruct (fr_log _ _ _ (R w1)) as (l & E & _). rewrite H4 in E. cbn in E.
  apply bind_ok in H as (d & w5 & H5 & H).
  assert (Dw : w5 = w4).
  { unfold shared_decrypt_m in H5. destruct (shared_decrypt _ _ _); [ | discriminate].
    apply ret_ok in H5. tauto. }
  subst w5.
  apply bind_ok in H as (u2 & w6 & H6 & H). apply emit_ok in H6 as (_ & _ & _ & EL & _).
  apply bind_ok in H as (u3 & w7 & H7 & H).
  destruct (bytes_eqb h d).
  - apply ret_ok in H7 as [_ ->].
    apply bind_ok in H as (u4 & w8 & H8 & H). apply store_ok in H8 as (_ & _ & _ & ES & _).
    apply modify_ok in H as (_ & _ & _ & EM & _).
    eexists (_ :: _ :: l). rewrite EM, ES, EL, E, L1. split; [reflexivity | right; left; reflexivity].
  - exfalso. inv_run.
Qed.

Section Change.
  Variable e : env.
  Variable w0 : world.
  Notation pin0 := (p_pin (w_p w0)).

  Section One.
    Variable C : option (bytes * N) -> list item -> Prop.
    Hypothesis C_mono : forall pin l l', C pin l -> C pin (l' ++ l).
    Definition A24 (l : list item) (p : pers) : Prop := p_pin p = pin0 \/ C (p_pin p) l.
    Lemma A24_mono l l' p : A24 l p -> A24 (l' ++ l) p.
    Proof. unfold A24. intros [H | H]; [left; exact H | right; apply C_mono, H]. Qed.
    Definition Pp : params := keep p_pin anyv anyE.
    Lemma A24_frame l p q : A24 l p -> Rp Pp p q -> A24 l q.
    Proof. unfold A24. cbn. intros H ->. exact H. Qed.
    Notation T := (Tr A24 w0).
    Lemma T_rel {E B} (m : M E B) : rel Pp m -> hoare T m (fun _ => T).
    Proof. apply Tr_rel; [exact A24_mono | exact A24_frame]. Qed.

    (** The minimum length in force is still the one at the start. *)
    Definition Tm (w : world) : Prop := T w /\ minlen_of e (w_p w) = minlen_of e (w_p w0).
    Definition Pm : params := keep (fun p => (p_pin p, p_minlen p)) anyv anyE.
    Lemma Tm_rel {E B} (m : M E B) : rel Pm m -> hoare Tm m (fun _ => Tm).
    Proof.
      intros R w [Hw Hm]. split.
      - eapply Tr_frame; [exact A24_mono | | apply R | exact Hw].
        intros l p q H F. cbn in F. apply pair_equal_spec in F as [F _]. eapply A24_frame; [exact H | exact F].
      - pose proof (fr_p _ _ _ (R w)) as F. cbn in F. apply pair_equal_spec in F as [_ F].
        unfold minlen_of in *. rewrite F. exact Hm.
    Qed.

    (** A new PIN is stored where [C] allows it. *)
    Lemma new_pin_T (J : world -> Prop) s enc :
      (forall w w', fr Pm w w' -> J w -> J w') ->
      (forall w l pin, J w -> since w0 w l -> (minlen_of e (w_p w0) <= code_points pin)%N ->
         (length pin <= 63)%nat ->
         C (Some (firstn 16 (sha256 (e_prims e) pin), code_points pin)) l) ->
      hoare (fun w => Tm w /\ J w) (check_and_store_new_pin e s enc) (fun _ => T).
    Proof.
      intros FJ HC. set (I := fun w => Tm w /\ J w).
      assert (FI : forall E B (m : M E B), rel Pm m -> hoare I m (fun _ => I)).
      { intros E B m R w [H1 H2]. split; [apply (Tm_rel m R w H1) | eapply FJ; [apply R | exact H2]]. }
      assert (IT : forall w, I w -> T w) by (intros w [[H _] _]; exact H).
      unfold check_and_store_new_pin.
      eapply hoare_bind with (Mid := fun pin w => I w /\ (length pin <= 64)%nat).
      { intros w Hw. pose proof (FI _ _ (decrypt_pin e s enc) ltac:(rel_walk) w Hw) as Q.
        destruct (decrypt_pin e s enc w) as [[pin | s0] w'] eqn:E; cbn [fst snd] in *;
          [ | now apply IT].
        split; [exact Q | ]. unfold decrypt_pin in E. inv_run.
        match goal with H : Nat.eqb _ _ = true |- _ => apply Nat.eqb_eq in H; rename H into HL end.
        pose proof (until_zero_length a). lia. }
      intro pin. apply hoare_fact_r. intro HL.
      eapply hoare_bind with (Mid := fun n w => I w /\ n = minlen_of e (w_p w0)).
      { intros w Hw. pose proof (FI _ _ (min_pin_length e) ltac:(rel_walk) w Hw) as Q.
        destruct (min_pin_length e w) as [[n | s0] w'] eqn:E; cbn [fst snd] in *; [ | now apply IT].
        split; [exact Q | ]. apply load_ok in E as (-> & _). apply Hw. }
      intro n. apply hoare_fact_r. intros ->. cbv zeta.
      eapply hoare_bind with (Mid := fun _ w => ((minlen_of e (w_p w0) <= code_points pin)%N /\
                                                 (length pin <= 63)%nat) /\ I w).
      { intros w Hw. set (b := negb _).
        destruct b eqn:Eb; cbn; [ | now apply IT]. split; [ | exact Hw].
        unfold b in Eb. apply Bool.negb_true_iff in Eb. apply Bool.orb_false_iff in Eb as [E1 E2].
        apply Nat.eqb_neq in E2. lia. }
      intros _. apply hoare_fact. intros [Hmin H63].
      apply Tr_store; [exact A24_mono | exact IT | ].
      intros w l [_ HJ] S _. right. cbn. eapply HC; eauto.
    Qed.
  End One.

  (** ** setPIN *)
  Definition Cnew (D : list item -> Prop) (pin' : option (bytes * N)) (l : list item) : Prop :=
    exists pin, pin' = Some (firstn 16 (sha256 (e_prims e) pin), code_points pin) /\
      (minlen_of e (w_p w0) <= code_points pin)%N /\ (length pin <= 63)%nat /\ D l.
  Definition Dset (_ : list item) : Prop := pin0 = None.
  Definition Dchange (l : list item) : Prop := In (LEv (EvCompare true)) l.
  Lemma Cset_mono pin l l' : Cnew Dset pin l -> Cnew Dset pin (l' ++ l).
  Proof. auto. Qed.
  Lemma Cchange_mono pin l l' : Cnew Dchange pin l -> Cnew Dchange pin (l' ++ l).
  Proof.
    intros (p & H1 & H2 & H3 & H4). exists p. repeat split; auto.
    apply in_or_app. right. exact H4.
  Qed.
  Lemma start_Tm C : Tm C w0.
  Proof. split; [apply Tr_start; left; reflexivity | reflexivity]. Qed.

  Lemma set_pin_T p : Tr (A24 (Cnew Dset)) w0 (snd (process_set_pin e p w0)).
  Proof.
    set (T := Tr (A24 (Cnew Dset)) w0).
    assert (H : hoare (fun w => Tm (Cnew Dset) w /\ p_pin (w_p w) = pin0) (process_set_pin e p)
                  (fun _ => T)).
    { set (I := fun w => Tm (Cnew Dset) w /\ p_pin (w_p w) = pin0).
      assert (FI : forall w w', fr Pm w w' -> p_pin (w_p w) = pin0 -> p_pin (w_p w') = pin0).
      { intros w w' F H. pose proof (fr_p _ _ _ F) as Q. cbn in Q.
        apply pair_equal_spec in Q as [Q _]. congruence. }
      assert (HI : forall E B (m : M E B), rel Pm m -> hoare I m (fun _ => I)).
      { intros E B m R w [H1 H2].
        split; [apply (Tm_rel _ Cset_mono m R w H1) | eapply FI; [apply R | exact H2]]. }
      assert (IT : forall w, I w -> T w) by (intros w [[H _] _]; exact H).
      assert (Pre : forall B D (m : M status B) (k : B -> M status D), rel Pm m ->
                (forall b, hoare I (k b) (fun _ => T)) -> hoare I (bind m k) (fun _ => T)).
      { intros B D m k R Hk. eapply hoare_bind with (Mid := fun _ => I); [ | exact Hk].
        eapply hoare_post; [apply (HI _ _ m R) | ]. intros [] w H; auto. }
      unfold process_set_pin. do 3 (apply Pre; [rel_walk | intro]).
      eapply hoare_bind with (Mid := fun h w => I w /\ (h = None -> pin0 = None)).
      { intros w Hw. pose proof (HI _ _ (pin_hash e) ltac:(rel_walk) w Hw) as Q.
        destruct (pin_hash e w) as [[h | s0] w'] eqn:E; cbn [fst snd] in *; [ | now apply IT].
        split; [exact Q | ]. apply load_ok in E as (-> & _).
        destruct Hw as [_ <-]. destruct (p_pin (w_p w)); [discriminate | auto]. }
      intro h.
      eapply hoare_bind with (Mid := fun _ w => pin0 = None /\ I w).
      { intros w [Hw Hh]. destruct h; cbn; [now apply IT | auto]. }
      intros _. apply hoare_fact. intro H0.
      apply Pre; [rel_walk | intro s].
      apply Pre; [destruct (shared_verify _ _ _ _); rel_walk | intros _].
      eapply hoare_bind with (Mid := fun _ => T).
      { eapply hoare_post; [apply (new_pin_T (Cnew Dset) Cset_mono (fun w => p_pin (w_p w) = pin0)) | ].
        - exact FI.
        - intros w l pin _ _ H1 H2. exists pin. repeat split; auto.
        - intros [] w H; exact H. }
      intros _. apply (T_rel _ Cset_mono). rel_walk. }
    apply H. split; [apply start_Tm | reflexivity].
  Qed.

  (** ** changePIN *)
  Lemma change_pin_T p : Tr (A24 (Cnew Dchange)) w0 (snd (process_change_pin e p w0)).
  Proof.
    set (T := Tr (A24 (Cnew Dchange)) w0).
    set (I := Tm (Cnew Dchange)).
    assert (HI : forall E B (m : M E B), rel Pm m -> hoare I m (fun _ => I)).
    { intros E B m R. apply (Tm_rel _ Cchange_mono m R). }
    assert (IT : forall w, I w -> T w) by (intros w [H _]; exact H).
    assert (Pre : forall B D (m : M status B) (k : B -> M status D), rel Pm m ->
              (forall b, hoare I (k b) (fun _ => T)) -> hoare I (bind m k) (fun _ => T)).
    { intros B D m k R Hk. eapply hoare_bind with (Mid := fun _ => I); [ | exact Hk].
      eapply hoare_post; [apply (HI _ _ m R) | ]. intros [] w H; auto. }
    assert (H : hoare I (process_change_pin e p) (fun _ => T)).
    { unfold process_change_pin. do 6 (apply Pre; [rel_walk | intro]).
      apply Pre; [rel_walk | intro s].
      apply Pre; [destruct (shared_verify _ _ _ _); rel_walk | intros _].
      set (J := fun w => exists l, since w0 w l /\ In (LEv (EvCompare true)) l).
      assert (FJ : forall w w', fr Pm w w' -> J w -> J w').
      { intros w w' F (l & S & Hl). destruct (fr_log _ _ _ F) as (k & E & _).
        exists (k ++ l). unfold since in *. split; [now rewrite E, S, app_assoc | ].
        apply in_or_app. auto. }
      eapply hoare_bind with (Mid := fun _ w => I w /\ J w).
      { intros w Hw. pose proof (HI _ _ (verify_pin_hash_enc e (pi_proto p) s b2) ltac:(rel_walk) w Hw) as Q.
        destruct (verify_pin_hash_enc e (pi_proto p) s b2 w) as [[[] | s0] w'] eqn:E; cbn [fst snd] in *;
          [ | now apply IT].
        split; [exact Q | ]. apply verify_pin_compares in E as (l & E & Hl).
        destruct Hw as [(l0 & S & _) _]. exists (l ++ l0). unfold since in *.
        split; [now rewrite E, S, app_assoc | ]. apply in_or_app. auto. }
      intros _.
      eapply hoare_bind with (Mid := fun _ => T).
      { eapply hoare_post; [apply (new_pin_T (Cnew Dchange) Cchange_mono J) | ].
        - exact FJ.
        - intros w l pin (l' & S' & Hl) S H1 H2. exists pin. repeat split; auto.
          unfold since in *. rewrite S in S'. apply app_inv_tail in S'. subst l'. exact Hl.
        - intros [] w H; exact H. }
      intros _. apply (T_rel _ Cchange_mono). rel_walk. }
    apply H. apply start_Tm.
  Qed.

  (** ** Reset *)
  Definition Creset (pin' : option (bytes * N)) (l : list item) : Prop :=
    pin' = None /\ In (LEv EvPresence) l.
  Lemma Creset_mono pin l l' : Creset pin l -> Creset pin (l' ++ l).
  Proof. intros [H1 H2]. split; [exact H1 | apply in_or_app; auto]. Qed.
  Lemma reset_T : Tr (A24 Creset) w0 (snd (process_reset e w0)).
  Proof.
    set (T := Tr (A24 Creset) w0).
    assert (H : hoare T (process_reset e) (fun _ => T)).
    { unfold process_reset. apply hoare_seq; [apply (T_rel _ Creset_mono); rel_walk | ].
      intros [[] | ]; try (apply hoare_fail; auto).
      apply hoare_then with (J := fun _ w => exists l, since w0 w l /\ In (LEv EvPresence) l).
      { intros w Hw. split; [apply (T_rel _ Creset_mono (check_user_presence e)); [rel_walk | exact Hw] | ].
        intros [] Ha. destruct (check_user_presence e w) as [y w'] eqn:E. cbn in Ha. subst y.
        apply check_user_presence_ok in E as (_ & _ & _ & _ & E & _).
        destruct Hw as (l & S & _). exists (LEv EvPresence :: l). unfold since in *. cbn.
        split; [now rewrite E, S | auto]. }
      intros _.
      eapply hoare_bind with (Mid := fun _ => T).
      { unfold storage_reset.
        eapply hoare_bind with (Mid := fun _ => T).
        - eapply hoare_post; [apply Tr_store | ].
          + exact (A24_mono _ Creset_mono).
          + intros w [Hw _]. exact Hw.
          + intros w l [_ (l' & S' & Hl)] S _. unfold since in *. rewrite S in S'.
            apply app_inv_tail in S'. subst l'. right. split; [reflexivity | exact Hl].
          + intros [] w Hw; exact Hw.
        - intros _. eapply hoare_post; [apply (T_rel _ Creset_mono); rel_walk | ].
          intros [] w Hw; exact Hw. }
      intros _. apply (T_rel _ Creset_mono). rel_walk. }
    apply H. apply Tr_start. left. reflexivity.
  Qed.
End Change.

(** ** All operations *)

(** Commands other than those three keep the PIN. *)
Definition sets_pin (x : command) : bool :=
  match x with
  | CClientPin q => match pi_sub q with PsSetPin | PsChangePin => true | _ => false end
  | CReset => true
  | _ => false
  end.
Lemma keeps_pin e x ch : sets_pin x = false -> rel Pp (process_parsed_command e x ch).
Proof.
  intro H. unfold process_parsed_command.
  do 3 (apply rel_bind; [rel_walk | intro]).
  apply rel_bind; [destruct (keeps x a1); rel_walk | intro].
  destruct ch; [ | destruct x; rel_walk].
  destruct x; cbn [process_fido_command]; try discriminate H; try (rel_walk; fail).
  unfold process_client_pin. apply rel_bind; [rel_walk | intro].
  apply rel_bind; [ | intro; rel_walk].
  cbn in H. destruct (pi_sub p); try discriminate H; rel_walk.
Qed.

(** The part of a message that precedes the command itself changes volatile state only. *)
Definition preamble (x : command) (ch : channel) : M status unit :=
  do* update_timeouts in
  do* clear_other_channels ch in
  let* s := get_command in
  if keeps x s then ret tt else st_clear.
Lemma split_message e x ch w :
  process_parsed_command e x ch w =
  (do* preamble x ch in
   match ch with
   | MainHid _ => process_fido_command e x ch
   | VendorHid _ => process_vendor_command e x
   end) w.
Proof.
  unfold process_parsed_command, preamble, bind.
  destruct (update_timeouts w) as [[] w1]; [ | reflexivity].
  destruct (clear_other_channels ch w1) as [[] w2]; [ | reflexivity].
  destruct (get_command w2) as [[s | ] w3]; [ | reflexivity].
  reflexivity.
Qed.
Lemma preamble_same x ch w :
  exists w1, preamble x ch w = (Ok tt, w1) /\ w_p w1 = w_p w /\ w_log w1 = w_log w /\
             w_now w1 = w_now w /\ w_up w1 = w_up w /\ w_rng w1 = w_rng w /\ w_op w1 = w_op w.
Proof.
  unfold preamble. destruct (keeps x (sf_cmd (v_st (w_v (snd (get_command (snd (clear_other_channels ch (snd (update_timeouts w)))))))))) eqn:E.
  - eexists. split; [cbn; cbn in E; rewrite E; reflexivity | cbn; auto 10].
  - eexists. split; [cbn; cbn in E; rewrite E; reflexivity | cbn; auto 10].
Qed.

Theorem pin_changes e o w l1 p l2 :
  w_log (snd (run_op e o w)) = l1 ++ LWrite p :: l2 ++ w_log w ->
  p_pin p <> p_pin (w_p w) ->
  exists b cid, o = OpMessage b (MainHid cid) /\
    ((parse_command (e_cfg e) b = Ok CReset /\ p_pin p = None /\ In (LEv EvPresence) l2) \/
     exists q pin, parse_command (e_cfg e) b = Ok (CClientPin q) /\
       p_pin p = Some (firstn 16 (sha256 (e_prims e) pin), code_points pin) /\
       (minlen_of e (w_p w) <= code_points pin)%N /\ (length pin <= 63)%nat /\
       (pi_sub q = PsSetPin /\ p_pin (w_p w) = None \/
        pi_sub q = PsChangePin /\ In (LEv (EvCompare true)) l2)).
Proof.
  intros E Hp.
  assert (Frame : fr Pp w (snd (run_op e o w)) -> False).
  { intro F. destruct (fr_log _ _ _ F) as (l & El & Fl). rewrite El in E.
    change (LWrite p :: l2 ++ w_log w) with ((LWrite p :: l2) ++ w_log w) in E.
    rewrite app_assoc in E. apply app_inv_tail in E. subst l.
    rewrite Forall_forall in Fl. specialize (Fl (LWrite p) ltac:(apply in_or_app; right; left; reflexivity)).
    cbn in Fl. contradiction. }
  assert (OF : other_frame e Pp) by (split; try reflexivity; intros; rel_walk).
  destruct (run_op_other e Pp o w OF) as [(b & ch & -> & ER) | F]; [ | exfalso; auto].
  rewrite ER in E, Frame. clear ER.
  unfold process_command, bind, lift in *.
  destruct (parse_command (e_cfg e) b) as [x | s] eqn:Ep.
  2: { exfalso. apply Frame. apply fr_refl. }
  destruct (sets_pin x) eqn:Ex.
  2: { exfalso. apply Frame. now apply keeps_pin. }
  destruct ch as [cid | cid].
  2: { exfalso. apply Frame. unfold process_parsed_command.
       assert (R : rel Pp (process_parsed_command e x (VendorHid cid))).
       { unfold process_parsed_command. do 3 (apply rel_bind; [rel_walk | intro]).
         apply rel_bind; [destruct (keeps x a1); rel_walk | intro]. destruct x; rel_walk. }
       apply R. }
  exists b, cid. split; [reflexivity | ].
  rewrite split_message in E. unfold bind in E.
  destruct (preamble_same x (MainHid cid) w) as (w1 & Q & Qp & Ql & _). rewrite Q in E.
  destruct x as [ | | | q | | | | | | ]; try discriminate Ex; cbn [process_fido_command] in E.
  - right. exists q.
    assert (Sub : pi_sub q = PsSetPin \/ pi_sub q = PsChangePin)
      by (cbn in Ex; destruct (pi_sub q); try discriminate Ex; auto).
    assert (Hrun : snd (process_client_pin e q w1) = w1 \/
      snd (process_client_pin e q w1) = snd (process_set_pin e q w1) /\ pi_sub q = PsSetPin \/
      snd (process_client_pin e q w1) = snd (process_change_pin e q w1) /\ pi_sub q = PsChangePin).
    { unfold process_client_pin, bind. destruct (guard _ _ w1) as [[u | s] w2] eqn:Eg.
      - apply guard_ok in Eg as [_ ->]. right.
        destruct Sub as [-> | ->]; [left | right]; (split; [ | reflexivity]);
          [destruct (process_set_pin e q w1) as [[] ?] | destruct (process_change_pin e q w1) as [[] ?]];
          reflexivity.
      - left. cbn. unfold guard in Eg. destruct (negb _); [discriminate | ]. injection Eg as _ <-. reflexivity. }
    destruct Hrun as [Hr | [[Hr Hs] | [Hr Hs]]]; rewrite Hr in E.
    + exfalso. rewrite Ql in E. apply (f_equal (@length _)) in E.
      rewrite !app_length in E. cbn in E. rewrite app_length in E. lia.
    + rewrite <- Ql in E. pose proof (set_pin_T e w1 q) as T.
      eapply Tr_use in T; [ | exact E]. rewrite <- Qp in *.
      destruct T as [T | (pin & T1 & T2 & T3 & T4)]; [contradiction | ].
      exists pin. repeat split; auto.
    + rewrite <- Ql in E. pose proof (change_pin_T e w1 q) as T.
      eapply Tr_use in T; [ | exact E]. rewrite <- Qp in *.
      destruct T as [T | (pin & T1 & T2 & T3 & T4)]; [contradiction | ].
      exists pin. repeat split; auto.
  - left. rewrite <- Ql in E. pose proof (reset_T e w1) as T.
    eapply Tr_use in T; [ | exact E]. rewrite <- Qp in Hp.
    destruct T as [T | [T1 T2]]; [contradiction | auto].
Qed.
