(** Which command an answer belongs to, and the touches that U2F answers need. *)
From Verif Require Import Base Facts Hid.Model U2f.Model Cbor.Model Ctap.Crypto Ctap.Types Ctap.Machine
  Ctap.Commands Ctap.Parse Ctap.System Ctap.Logic Ctap.History Ctap.Track Ctap.PinChange Ctap.TokenSpec
  Ctap.Token Ctap.Success Ctap.Auth.
From Coq Require Import Lia.

Definition answers (m : M status response) (K : response -> Prop) : Prop :=
  forall w r w', m w = (Ok r, w') -> K r.
Lemma answers_bind {A} (m : M status A) (k : A -> M status response) K :
  (forall a, answers (k a) K) -> answers (bind m k) K.
Proof. intros H w r w' E. apply bind_ok in E as (a & w1 & _ & E). exact (H a w1 r w' E). Qed.
Lemma answers_ret r (K : response -> Prop) : K r -> answers (ret r) K.
Proof. intros H w r' w' E. apply ret_ok in E as [-> _]. exact H. Qed.
Lemma answers_fail s K : answers (fail s) K.
Proof. intros w r w' E. discriminate. Qed.
Ltac answers_step :=
  lazymatch goal with
  | |- answers (bind _ _) _ => apply answers_bind; intros ?
  | |- answers (ret _) _ => apply answers_ret
  | |- answers (fail _) _ => apply answers_fail
  | |- answers (match ?x with _ => _ end) _ => destruct x
  | |- answers (let _ := _ in _) _ => cbv zeta
  | |- answers ((fun _ => _) _) _ => cbv beta
  end.
Ltac answers_walk := repeat answers_step.

(** The command that an answer answers. *)
Definition answer_of (x : command) (r : response) : Prop :=
  match x, r with
  | CMakeCredential _, RMakeCredential _ | CGetAssertion _, RGetAssertion _
  | CGetNextAssertion, RGetNextAssertion _ | CGetInfo, RGetInfo _ | CClientPin _, RClientPin _
  | CReset, RReset | CCredMgmt _, RCredMgmt _ | CSelection, RSelection
  | CLargeBlobs _, RLargeBlobs _ | CConfig _, RConfig => True
  | _, _ => False
  end.
Lemma fido_answers e x ch : answers (process_fido_command e x ch) (answer_of x).
Proof.
  destruct x; cbn [process_fido_command];
    solve [lazymatch goal with |- answers ?m _ => let h := head m in unfold h end; answers_walk; exact I].
Qed.
Lemma message_answer e b ch w r w' :
  run_op e (OpMessage b ch) w = (OutCtap (Ok r), w') ->
  exists x w1, parse_command (e_cfg e) b = Ok x /\ preamble x ch w = (Ok tt, w1) /\ answer_of x r /\
    ((exists cid, ch = MainHid cid) -> process_fido_command e x ch w1 = (Ok r, w')).
Proof.
  intro H. apply message_ok in H as (x & w1 & Hx & Hp & H).
  exists x, w1. split; [exact Hx | ]. split; [exact Hp | ]. destruct ch.
  - split; [exact (fido_answers e x _ _ _ _ H) | auto].
  - split; [ | intros (? & ?); discriminate].
    destruct x; try discriminate. cbn in H. exact (fido_answers e CGetInfo (VendorHid cid) _ _ _ H).
Qed.

(** ** Touches *)
Definition wants_touch (b : bytes) : Prop :=
  match u2f_parse b with
  | Ok (U2fRegister _ _) | Ok (U2fAuthenticate _ _ _ EnforceUpAndSign) => True
  | _ => False
  end.
Definition Pup : params := keep anyp v_up anyE.

Lemma consume_run w : exists b, fst (consume_up (w_now w) (v_up (w_v w))) = b /\
  fst (consume w) = Ok b /\ v_up (w_v (snd (consume w))) = snd (consume_up (w_now w) (v_up (w_v w))).
Proof.
  unfold consume, bind, now, gets. destruct (consume_up (w_now w) (v_up (w_v w))) as [b s]. exists b.
  cbn. auto.
Qed.
Lemma bind_cases {E A B} (m : M E A) (k : A -> M E B) w :
  (exists a w1, m w = (Ok a, w1) /\ bind m k w = k a w1) \/
  (exists s w1, m w = (Err s, w1) /\ bind m k w = (Err s, w1)).
Proof. unfold bind. destruct (m w) as [[a | s] w1]; eauto 6. Qed.
(** What a U2F message does to the touch state. *)
Lemma touch_gate {B} (m : M sw B) w : rel Pup m ->
  (has_up (v_up (w_v w)) <=? w_now w)%N = false /\
    has_up (v_up (w_v (snd ((let* ok := consume in do* guard ok SW_COND_USE_NOT_SATISFIED in m) w)))) = 0%N \/
  has_up (v_up (w_v (snd ((let* ok := consume in do* guard ok SW_COND_USE_NOT_SATISFIED in m) w)))) =
    has_up (v_up (w_v w)) /\
    exists s, fst ((let* ok := consume in do* guard ok SW_COND_USE_NOT_SATISFIED in m) w) = Err s.
Proof.
  intro R. destruct (consume_run w) as (b & Eb & E1 & V1).
  unfold bind at 1 3 5. destruct (consume w) as [[b' | ] w1]; cbn [fst snd] in *; [ | discriminate].
  injection E1 as ->. unfold consume_up, is_elapsed in *.
  destruct (has_up (v_up (w_v w)) <=? w_now w)%N; cbn [negb fst snd] in *; subst b.
  - right. cbn. rewrite V1. split; [reflexivity | eauto].
  - left. split; [reflexivity | ]. unfold bind, guard, ret. cbn [fst snd].
    specialize (R w1). destruct (m w1) as [r w2]. pose proof (fr_v _ _ _ R) as Q. cbn in Q |- *. rewrite Q, V1. reflexivity.
Qed.
Lemma u2f_touch e b w r w' : u2f_process e b w = (r, w') ->
  (wants_touch b /\ (has_up (v_up (w_v w)) <=? w_now w)%N = false /\ has_up (v_up (w_v w')) = 0%N) \/
  (has_up (v_up (w_v w')) = has_up (v_up (w_v w)) /\ (wants_touch b -> exists s, r = Err s)).
Proof.
  unfold u2f_process. intro H.
  match type of H with bind ?m ?k w = _ => destruct (bind_cases m k w) as [(a & w1 & E1 & E2) | (s & w1 & E1 & E2)];
    assert (R1 : rel Pup m) by rel_walk; specialize (R1 w); rewrite E1 in R1 end;
  rewrite E2 in H; pose proof (fr_v _ _ _ R1) as Q1; cbn in Q1.
  2: { injection H as <- <-. right. rewrite Q1. eauto. }
  assert (N1 : w_now w1 = w_now w).
  { assert (R : reads (to_sw SW_INTERNAL_EXCEPTION (has_always_uv e))) by (unfold to_sw; reads_walk).
    specialize (R w). rewrite E1 in R. destruct R as (_ & _ & R & _). exact R. }
  clear E1 E2 R1. unfold bind at 1 in H.
  destruct (negb a); cbn [guard ret fail] in H; [ | injection H as <- <-; right; rewrite Q1; eauto].
  unfold bind at 1 in H. unfold lift at 1 in H. unfold wants_touch.
  destruct (u2f_parse b) as [x | s].
  2: { injection H as <- <-. right. rewrite Q1. eauto. }
  destruct x as [c a' | c a' kh fl | | ].
  - pose proof (touch_gate (u2f_register e c a') w1 ltac:(rel_walk)) as T. rewrite H in T.
    cbn [fst snd] in T. rewrite Q1, N1 in T. destruct T as [[T1 T2] | [T1 (s & ->)]]; [left; auto | right; eauto].
  - destruct fl.
    + right. unfold bind, ret in H.
      assert (R : rel Pup (u2f_authenticate e c a' kh CheckOnly)) by rel_walk. specialize (R w1). rewrite H in R.
      pose proof (fr_v _ _ _ R) as Q. cbn in Q. rewrite Q, Q1. split; [reflexivity | intros []].
    + pose proof (touch_gate (u2f_authenticate e c a' kh EnforceUpAndSign) w1 ltac:(rel_walk)) as T.
      assert (EB : forall (k : M sw bytes) w, bind (let* ok := consume in guard ok SW_COND_USE_NOT_SATISFIED) (fun _ => k) w
         = (let* ok := consume in do* guard ok SW_COND_USE_NOT_SATISFIED in k) w).
      { intros k u. unfold bind. destruct (consume u) as [[[] | ] u1]; reflexivity. }
      rewrite EB in H. rewrite H in T.
      cbn [fst snd] in T. rewrite Q1, N1 in T. destruct T as [[T1 T2] | [T1 (s & ->)]]; [left; auto | right; eauto].
    + right. unfold bind, ret in H.
      assert (R : rel Pup (u2f_authenticate e c a' kh DontEnforceUpAndSign)) by rel_walk. specialize (R w1). rewrite H in R.
      pose proof (fr_v _ _ _ R) as Q. cbn in Q. rewrite Q, Q1. split; [reflexivity | intros []].
  - injection H as <- <-. right. rewrite Q1. split; [reflexivity | intros []].
  - injection H as <- <-. right. rewrite Q1. split; [reflexivity | intros []].
Qed.

(** [h] ends with a touch at time [t], followed by operations without power loss among which no
    U2F message used the touch. *)
Definition unused_touch (e : env) (h : list (op * option nat)) (t : N) : Prop :=
  exists h1 h2, h = h1 ++ (OpTouch, None) :: h2 /\ w_now (run e h1) = t /\
    Forall (fun x => snd x = None) h2 /\
    forall h3 b h4, h2 = h3 ++ (OpU2f b, None) :: h4 -> wants_touch b ->
      exists s, fst (run_op e (OpU2f b) (run e (h1 ++ (OpTouch, None) :: h3))) = OutU2f (Err s).

Lemma unused_more e h t o :
  unused_touch e h t ->
  (forall b, o = OpU2f b -> wants_touch b ->
     exists s, fst (run_op e (OpU2f b) (run e h)) = OutU2f (Err s)) ->
  unused_touch e (h ++ [(o, None)]) t.
Proof.
  intros (h1 & h2 & -> & Ht & F & H) Ho. exists h1, (h2 ++ [(o, None)]).
  split; [now rewrite <- app_assoc | ]. split; [exact Ht | ].
  split; [apply Forall_app; auto | ].
  intros h3 b h4 E W. destruct (@exists_last _ ((OpU2f b, None) :: h4) ltac:(discriminate)) as (h5 & y & E5).
  rewrite E5, app_assoc in E. apply app_inj_tail in E as [E Ey]. subst y.
  destruct h5 as [ | z h5].
  - destruct h4; [ | discriminate]. injection E5 as <-. rewrite app_nil_r in E. subst h3.
    apply (Ho b eq_refl W).
  - injection E5 as <- E5. eapply H; [exact E | exact W].
Qed.
Lemma run_app e h x : run e (h ++ [x]) = step e (run e h) x.
Proof. unfold run. now rewrite fold_left_app. Qed.

Definition Pup2 : params.
Proof.
  refine (mkPar (fun _ _ => True) (fun u v => v_up v = v_up u \/ v_up v = up_init) anyE _ _ _ _);
    intuition congruence.
Defined.
Lemma fido_up e x ch : rel Pup2 (process_fido_command e x ch).
Proof. destruct x; rel_walk; intro v; try destruct (pi_proto p); cbn; auto. Qed.
Lemma message_up e b ch w :
  v_up (w_v (snd (run_op e (OpMessage b ch) w))) = v_up (w_v w) \/
  v_up (w_v (snd (run_op e (OpMessage b ch) w))) = up_init.
Proof.
  cbn [run_op]. unfold process_command. unfold bind at 1 2. unfold lift at 1 2.
  destruct (parse_command (e_cfg e) b) as [x | s]; [right | left; reflexivity].
  unfold process_parsed_command.
  match goal with |- context [bind update_timeouts (fun _ => bind _ (fun _ => ?k))] =>
    assert (Rk : rel Pup2 k); [ | set (kk := k) in *; clearbody kk] end.
  { apply rel_bind; [rel_walk | intro]. apply rel_bind; [rel_walk | intros _].
    destruct ch; [apply fido_up | destruct x; rel_walk]. }
  unfold clear_other_channels, update_timeouts, mod_token, clear_old_channels, mod_st.
  unfold bind, now, modify. cbn [fst snd].
  match goal with |- context [kk ?u] => set (w1 := u) end.
  specialize (Rk w1). destruct (kk w1) as [r w2]. pose proof (fr_v _ _ _ Rk) as Q. cbn in Q |- *. destruct Q; auto.
Qed.

Theorem touch_reachable e h :
  (0 < has_up (v_up (w_v (run e h))))%N ->
  exists t, has_up (v_up (w_v (run e h))) = (t + 30000)%N /\ unused_touch e h t.
Proof.
  induction h as [ | [o c] h IH] using rev_ind.
  - cbn. intro H. inversion H.
  - rewrite run_app. unfold step. cbn [fst snd]. destruct c as [n | ].
    { unfold reboot. intro H. exfalso. revert H. unfold boot, bind, proto_new, draw, now, modify, ret. cbn.
      intro H. inversion H. }
    destruct o as [b ch | b | ch ba en | | d | n].
    + destruct (message_up e b ch (run e h)) as [-> | ->]; [ | cbn; intro H; inversion H].
      intro H. destruct (IH H) as (t & E & U). exists t. split; [exact E | ].
      apply unused_more; [exact U | ]. discriminate.
    + cbn [run_op]. destruct (u2f_process e b (run e h)) as [r w'] eqn:E. cbn [snd].
      destruct (u2f_touch e b _ _ _ E) as [(_ & _ & ->) | (-> & Hw)]; [intro H; inversion H | ].
      intro H. destruct (IH H) as (t & Et & U). exists t. split; [exact Et | ].
      apply unused_more; [exact U | ]. intros b' Eb W. injection Eb as <-. cbn [run_op]. rewrite E.
      destruct (Hw W) as (s & ->). cbn. eauto.
    + cbn. intro H. inversion H.
    + cbn [run_op snd modify]. cbn [w_v set_up v_up]. unfold grant_up.
      destruct (negb _) eqn:En.
      * intros _. cbn [has_up]. exists (w_now (run e h)). split; [reflexivity | ].
        exists h, []. split; [reflexivity | ]. split; [reflexivity | ]. split; [constructor | ].
        intros h3 b h4 E. destruct h3; discriminate.
      * intro H. destruct (IH H) as (t & E & U). exists t. split; [exact E | ].
        apply unused_more; [exact U | discriminate].
    + intro H. destruct (IH H) as (t & E & U). exists t. split; [exact E | ].
      apply unused_more; [exact U | discriminate].
    + intro H. destruct (IH H) as (t & E & U). exists t. split; [exact E | ].
      apply unused_more; [exact U | discriminate].
Qed.
