(** The signature counter along histories. *)
From Verif Require Import Base Facts Hid.Model U2f.Model Cbor.Model Ctap.Crypto Ctap.Types Ctap.Machine
  Ctap.Commands Ctap.Parse Ctap.System Ctap.Logic Ctap.History Ctap.Track Ctap.Pin Ctap.PinChange
  Ctap.TokenSpec Ctap.Token Ctap.Success Ctap.Auth Ctap.Gate Ctap.Answers Ctap.TokenUse Ctap.Reset Ctap.Keys.
From Coq Require Import List Lia.
Import ListNotations.

Section Counter.
  Variable e : env.
  Let cnt (w : world) : N := counter_of (w_p w).

  (** From [c0] the counter moves at most once. *)
  Definition moved (c0 : N) (p q : pers) : Prop :=
    counter_of q = counter_of p \/ (counter_of p = c0 /\ counted e c0 (counter_of q)).
  Definition Pmove (c0 : N) : params.
  Proof.
    refine (mkPar (moved c0) (fun _ _ => True) anyE _ _ _ _); unfold moved; auto.
    intros p q r [A | [A1 A2]] [B | [B1 B2]].
    - left. congruence.
    - right. split; congruence.
    - right. split; [exact A1 | now rewrite B].
    - right. auto.
  Defined.

  Lemma fr_moved c0 w w' : fr Pcnt w w' -> fr (Pmove c0) w w'.
  Proof.
    intros [(l & E & F) p v n u r W]. split; auto; try exact I.
    - exists l. split; [exact E | ]. eapply Forall_impl; [ | exact F]. intros [q | ev]; cbn; auto. intro H. now left.
    - now left.
  Qed.

  (** Operations that keep the counter may come first. *)
  Lemma moved_bind {E A B} c0 (m : M E A) (k : A -> M E B) w :
    cnt w = c0 -> rel Pcnt m -> (forall a w1, cnt w1 = c0 -> fr (Pmove c0) w1 (snd (k a w1))) ->
    fr (Pmove c0) w (snd (bind m k w)).
  Proof.
    intros H R K. unfold bind. specialize (R w). destruct (m w) as [[a | s] w1]; cbn [snd] in *.
    - eapply fr_trans; [apply fr_moved, R | ]. apply K. pose proof (fr_p _ _ _ R) as Q. cbn in Q. unfold cnt in *. congruence.
    - apply fr_moved, R.
  Qed.
  Lemma moved_after {E A B} c0 (m : M E A) (k : A -> M E B) w :
    fr (Pmove c0) w (snd (m w)) -> (forall a, rel Pcnt (k a)) -> fr (Pmove c0) w (snd (bind m k w)).
  Proof.
    intros H R. unfold bind. destruct (m w) as [[a | s] w1]; cbn [snd] in *; [ | exact H].
    eapply fr_trans; [exact H | apply fr_moved, R].
  Qed.
  Lemma moved_map {E A} c0 x (f : status -> E) (m : M status A) w :
    fr (Pmove c0) w (snd (m w)) -> fr (Pmove c0) w (snd (map_status x f m w)).
  Proof. unfold map_status. destruct (m w) as [[a | s] w1]; [auto | destruct s; auto]. Qed.
  Lemma moved_keep {E A} c0 (m : M E A) w : rel Pcnt m -> fr (Pmove c0) w (snd (m w)).
  Proof. intro R. apply fr_moved, R. Qed.

  Lemma increment_moves c0 w : cnt w = c0 -> fr (Pmove c0) w (snd (increment_counter e w)).
  Proof.
    intro H. unfold increment_counter. destruct (c_counter (e_cfg e)) eqn:C; [ | apply fr_refl].
    apply moved_bind; [exact H | rel_walk | ]. clear w H. intros b w H.
    unfold incr_global_signature_counter. unfold bind.
    assert (R : rel (Pmove c0) (global_signature_counter e)) by rel_walk. specialize (R w).
    destruct (global_signature_counter e w) as [[n | s] w1] eqn:E; [ | exact R]. cbn [snd] in R.
    eapply fr_trans; [exact R | ]. apply load_ok in E as (-> & P & _). apply fr_store.
    right. unfold cnt in H. rewrite P. split; [exact H | ]. unfold counted. rewrite C. exists (of_be b mod 8 + 1)%N.
    split; [pose proof (N.mod_lt (of_be b) 8 ltac:(discriminate)); lia | ]. rewrite H. reflexivity.
  Qed.

  Lemma ga_moves p ch c0 w : cnt w = c0 -> fr (Pmove c0) w (snd (process_get_assertion e p ch w)).
  Proof.
    intro H. unfold process_get_assertion. apply moved_bind; [exact H | rel_walk | ]. clear w H. intros ? w H. cbv zeta.
    apply moved_bind; [exact H | rel_walk | ]. clear w H. intros ? w H.
    apply moved_bind; [exact H | rel_walk | ]. clear w H. intros ? w H.
    apply moved_bind; [exact H | rel_walk | ]. clear w H. intros [[r | ] keys] w H; [ | apply fr_refl].
    apply moved_bind; [exact H | rel_walk | ]. clear w H. intros ? w H.
    apply moved_after; [now apply increment_moves | intros ?; rel_walk].
  Qed.

  Lemma u2f_auth_moves c a kh fl c0 w : cnt w = c0 -> fr (Pmove c0) w (snd (u2f_authenticate e c a kh fl w)).
  Proof.
    intro H. unfold u2f_authenticate. apply moved_bind; [exact H | rel_walk | ]. clear w H. intros o w H.
    destruct (match o with Some _ => _ | None => None end) as [s | ]; [ | apply fr_refl].
    apply moved_bind; [exact H | rel_walk | ]. clear w H. intros ? w H.
    apply moved_after; [apply moved_map; now apply increment_moves | intros ?; rel_walk].
  Qed.
  Lemma u2f_moves b c0 w : cnt w = c0 -> fr (Pmove c0) w (snd (u2f_process e b w)).
  Proof.
    intro H. unfold u2f_process. apply moved_bind; [exact H | rel_walk | ]. clear w H. intros ? w H.
    apply moved_bind; [exact H | rel_walk | ]. clear w H. intros ? w H.
    apply moved_bind; [exact H | rel_walk | ]. clear w H. intros x w H.
    destruct x; try (apply moved_keep; rel_walk; fail).
    apply moved_bind; [exact H | rel_walk | ]. clear w H. intros ? w H. now apply u2f_auth_moves.
  Qed.

  Lemma command_moves x ch c0 w : x <> CReset -> cnt w = c0 -> fr (Pmove c0) w (snd (process_parsed_command e x ch w)).
  Proof.
    intros N H. rewrite split_message. apply moved_bind; [exact H | unfold preamble; rel_walk | ]. clear w H. intros ? w H.
    destruct ch as [cid | cid]; [ | apply moved_keep; rel_walk].
    destruct x; try congruence; try (apply moved_keep; rel_walk; fail).
    cbn [process_fido_command]. now apply ga_moves.
  Qed.

  Lemma op_moves o w :
    match o with OpMessage b _ => parse_command (e_cfg e) b <> Ok CReset | _ => True end ->
    fr (Pmove (cnt w)) w (snd (run_op e o w)).
  Proof.
    intro H. destruct o as [b ch | b | ch b en | | d | k]; cbn [run_op].
    - assert (R : fr (Pmove (cnt w)) w (snd (process_command e b ch w))).
      { unfold process_command, bind, lift. destruct (parse_command (e_cfg e) b) as [x | s] eqn:E.
        - apply command_moves; [congruence | reflexivity].
        - apply fr_refl. }
      destruct (process_command e b ch w); exact R.
    - pose proof (u2f_moves b _ w eq_refl) as R. destruct (u2f_process e b w); exact R.
    - eapply fr_trans; [apply (fr_write _ (set_atts b en (w_p w))); now left | ].
      assert (R : rel (Pmove (cnt w)) (after_vendor_response ch)) by rel_walk. apply R.
    - apply (rel_modify (E := status) (Pmove (cnt w))). intro v. exact I.
    - split; cbn; auto; try lia; [exists []; split; [reflexivity | constructor] | now left].
    - apply fr_write. now left.
  Qed.

  Lemma step_moves w x :
    wf w -> match fst x with OpMessage b _ => parse_command (e_cfg e) b <> Ok CReset | _ => True end ->
    wf (step e w x) /\ (cnt (step e w x) = cnt w \/ counted e (cnt w) (cnt (step e w x))).
  Proof.
    intros W H. destruct x as [o k]. pose proof (op_moves o w H) as F. split.
    - unfold step. cbn [fst snd]. destruct k; [reflexivity | apply (fr_wf _ _ _ F W)].
    - destruct (step_frame e _ w o k W F) as [Q | [_ Q]]; auto.
  Qed.

  Lemma history_moves h : forall w, wf w -> no_reset e h -> (cnt w + 8 * N.of_nat (length h) < 2 ^ 32)%N ->
    (cnt w <= cnt (fold_left (step e) h w) <= cnt w + 8 * N.of_nat (length h))%N.
  Proof.
    induction h as [ | x h IH]; intros w W N B; [cbn; lia | ]. cbn [fold_left]. inversion N; subst.
    destruct (step_moves w x W H1) as [W' M]. cbn [length] in B.
    assert (R : (cnt w <= cnt (step e w x) <= cnt w + 8)%N).
    { destruct M as [-> | M]; [lia | ]. unfold counted in M. destruct (c_counter (e_cfg e)); [ | lia].
      destruct M as (i & Hi & ->). rewrite N.mod_small by lia. lia. }
    specialize (IH _ W' H2). cbn [length]. lia.
  Qed.

  (** The counter fits 32 bits. *)
  Definition P32 : params.
  Proof.
    refine (mkPar (fun p q => counter_of p < 2 ^ 32 -> counter_of q < 2 ^ 32)%N (fun _ _ => True) anyE _ _ _ _); auto.
  Defined.
  Lemma incr_32 n : rel P32 (incr_global_signature_counter e n).
  Proof.
    unfold incr_global_signature_counter. intro w. unfold bind.
    assert (R : rel P32 (global_signature_counter e)) by rel_walk. specialize (R w).
    destruct (global_signature_counter e w) as [[m | s] w1]; [ | exact R]. cbn [snd] in R.
    eapply fr_trans; [exact R | ]. apply fr_store. intros _. cbn. apply N.mod_lt. discriminate.
  Qed.
  Hint Resolve incr_32 : rel_db.
  Lemma op_32 o w : fr P32 w (snd (run_op e o w)).
  Proof.
    destruct o as [b ch | b | ch b en | | d | k]; cbn [run_op].
    - assert (R : rel P32 (process_command e b ch)).
      { unfold process_command. apply rel_bind; [rel_walk | intro x]. destruct x; rel_walk; try (cbn; auto); now intros.
}
      specialize (R w). destruct (process_command e b ch w); exact R.
    - assert (R : rel P32 (u2f_process e b)) by rel_walk. specialize (R w). destruct (u2f_process e b w); exact R.
    - eapply fr_trans; [apply (fr_write _ (set_atts b en (w_p w))); cbn; auto | ].
      assert (R : rel P32 (after_vendor_response ch)) by rel_walk. apply R.
    - apply (rel_modify (E := status) P32). intro v. exact I.
    - split; cbn; auto; try lia; exists []; split; [reflexivity | constructor].
    - apply fr_write. cbn. auto.
  Qed.
  Lemma counter_32 h : (cnt (run e h) < 2 ^ 32)%N.
  Proof.
    induction h as [ | [o k] h IH] using rev_ind; [unfold cnt, run, start; cbn [fold_left]; rewrite reboot_p; reflexivity | ].
    rewrite run_app. exact (step_frame e P32 _ o k (run_wf e h) (op_32 o _) IH).
  Qed.

  (** What the answers carry. *)
  Lemma u2f_auth_counter c a kh fl w r w' :
    u2f_authenticate e c a kh fl w = (Ok r, w') ->
    counted e (cnt w) (cnt w') /\ exists sg, r = UP_FLAG :: be_bytes 4 (cnt w') ++ sg.
  Proof.
    intro H. unfold u2f_authenticate in H. apply bind_ok in H as (o & w1 & H1 & H).
    assert (Q1 : cnt w1 = cnt w).
    { assert (R : rel Pcnt (to_sw SW_WRONG_DATA (unwrap_credential e kh a))) by rel_walk.
      specialize (R w). rewrite H1 in R. exact (fr_p _ _ _ R). }
    destruct (match o with Some _ => _ | None => None end) as [s | ]; [ | apply fail_ok in H; contradiction].
    apply bind_ok in H as (? & w2 & H2 & H). apply guard_ok in H2 as [_ ->].
    apply bind_ok in H as (? & w3 & H3 & H). apply map_status_ok in H3. apply increment_counter_ok in H3 as (C3 & _).
    apply bind_ok in H as (ad & w4 & H4 & H). apply map_status_ok in H4. apply generate_auth_data_ok in H4 as [-> (P4 & _)].
    apply bind_ok in H as (sg & w5 & H5 & H). apply ret_ok in H as [-> ->].
    assert (Q5 : cnt w5 = cnt w4).
    { assert (R : rel (E := sw) Pcnt (to_sw SW_INTERNAL_EXCEPTION (sign_and_encode e (so_key s) ((a ++ [UP_FLAG] ++ be_bytes 4 (counter_of (w_p w3))) ++ c)))) by rel_walk.
      specialize (R w4). rewrite H5 in R. exact (fr_p _ _ _ R). }
    unfold cnt in *. split; [congruence | ]. exists sg. rewrite skipn_app, Nat.sub_diag, skipn_all, Q5, P4. reflexivity.
  Qed.
End Counter.
