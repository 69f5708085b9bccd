(** The PIN/UV auth token: its state agrees with the log.  Basis of C25, C27, C34, C38 and C40. *)
From Verif Require Import Base Facts Hid.Model U2f.Model Cbor.Model Ctap.Crypto Ctap.Types Ctap.Machine
  Ctap.Commands Ctap.Parse Ctap.System Ctap.Logic Ctap.History Ctap.Track Ctap.PinChange Ctap.TokenSpec.
From Coq Require Import Lia.

Definition shrinks (t t' : token) : Prop :=
  (t_use t' = false /\ t_perms t' = 0%N /\ t_uv t' = false) \/
  (t_use t' = t_use t /\ t_timer t' = t_timer t /\ N.land (t_perms t') (t_perms t) = t_perms t' /\
   (t_uv t' = true -> t_uv t = true) /\ (forall r, t_rp t = Some r -> t_rp t' = Some r)).
Lemma shrinks_refl t : shrinks t t.
Proof. right. rewrite N.land_diag. auto 10. Qed.
Lemma shrinks_trans a b d : shrinks a b -> shrinks b d -> shrinks a d.
Proof.
  intros [(A1 & A2 & A3) | (A1 & A2 & A3 & A4 & A5)] [(B1 & B2 & B3) | (B1 & B2 & B3 & B4 & B5)];
    try (left; auto; fail).
  - left. rewrite B1, A1. split; [reflexivity | ]. rewrite A2, N.land_0_r in B3.
    split; [auto | ]. destruct (t_uv d); [ | reflexivity]. rewrite B4 in A3; [discriminate | reflexivity].
  - right. rewrite B1, B2. repeat split; auto. rewrite <- B3, <- N.land_assoc, A3. reflexivity.
Qed.

Definition quiet_token (ev : event) : Prop :=
  match ev with EvIssue _ _ _ | EvGrant _ _ | EvRenew _ _ | EvBoot => False | _ => True end.
Definition Ptok : params.
Proof.
  refine (mkPar (fun _ _ => True)
    (fun u v => shrinks (v_token u) (v_token v) /\ pp_token (v_proto1 v) = pp_token (v_proto1 u) /\
                pp_token (v_proto2 v) = pp_token (v_proto2 u)) quiet_token _ _ _ _).
  - auto.
  - auto.
  - intro. split; [apply shrinks_refl | auto].
  - intros u v w (A1 & A2 & A3) (B1 & B2 & B3). split; [eapply shrinks_trans; eassumption | ].
    split; congruence.
Defined.

Lemma tok_clear_flags : rel Ptok clear_token_flags.
Proof.
  apply rel_modify. intro v. cbn. split; [right; cbn | auto].
  rewrite N.land_comm, N.land_assoc, N.land_diag. repeat split; auto. discriminate.
Qed.
Lemma tok_update_timeouts : rel Ptok update_timeouts.
Proof.
  apply rel_bind; [apply rel_now | intro n]. apply rel_modify. intro v. cbn.
  destruct (t_use (v_token v) && is_elapsed n (t_timer (v_token v))).
  - split; [left | ]; cbn; auto.
  - split; [apply shrinks_refl | auto].
Qed.
Lemma tok_ensure_rp_id rp : rel Ptok (ensure_rp_id rp).
Proof.
  intro w. unfold ensure_rp_id, bind, gets. cbn. destruct (t_rp (v_token (w_v w))) as [r | ] eqn:E.
  - apply rel_guard.
  - split; cbn; try lia; auto.
    + exists []. split; [reflexivity | constructor].
    + split; [ | auto]. right. cbn. rewrite N.land_diag. repeat split; auto.
      intros r H. rewrite E in H. discriminate H.
Qed.
Lemma tok_regenerate e p : rel Ptok (regenerate e p).
Proof.
  apply rel_bind; [apply rel_draw | intro k]. apply rel_modify. intro v.
  destruct p; cbn; (split; [apply shrinks_refl | auto]).
Qed.
Lemma Ptok_same u v : v_token v = v_token u -> pp_token (v_proto1 v) = pp_token (v_proto1 u) ->
  pp_token (v_proto2 v) = pp_token (v_proto2 u) -> Rv Ptok u v.
Proof. intros H1 H2 H3. cbn. rewrite H1, H2, H3. split; [apply shrinks_refl | auto]. Qed.
Lemma tok_modify {E} f :
  (forall v, v_token (f v) = v_token v /\ v_proto1 (f v) = v_proto1 v /\ v_proto2 (f v) = v_proto2 v) ->
  rel (E := E) Ptok (modify f).
Proof.
  intro H. apply rel_modify. intro v. destruct (H v) as (H1 & H2 & H3).
  apply Ptok_same; congruence.
Qed.
Ltac tok_side := intros; first [exact Logic.I | apply Ptok_same; reflexivity].

(** The same without the end of a token. *)
Definition bound (t t' : token) : Prop :=
  t_use t' = t_use t /\ t_timer t' = t_timer t /\ N.land (t_perms t') (t_perms t) = t_perms t' /\
  (t_uv t' = true -> t_uv t = true) /\ (forall r, t_rp t = Some r -> t_rp t' = Some r).
Lemma bound_refl t : bound t t.
Proof. unfold bound. rewrite N.land_diag. auto 10. Qed.
Definition Ptok1 : params.
Proof.
  refine (mkPar (fun _ _ => True)
    (fun u v => bound (v_token u) (v_token v) /\ pp_token (v_proto1 v) = pp_token (v_proto1 u) /\
                pp_token (v_proto2 v) = pp_token (v_proto2 u)) quiet_token _ _ _ _).
  - auto.
  - auto.
  - intro. split; [apply bound_refl | auto].
  - intros u v w ((A1 & A2 & A3 & A4 & A5) & A6 & A7) ((B1 & B2 & B3 & B4 & B5) & B6 & B7).
    split; [ | split; congruence]. unfold bound. rewrite B1, B2. repeat split; auto.
    rewrite <- B3, <- N.land_assoc, A3. reflexivity.
Defined.
Lemma tok1_clear_flags : rel Ptok1 clear_token_flags.
Proof.
  apply rel_modify. intro v. cbn. split; [unfold bound; cbn | auto].
  rewrite N.land_comm, N.land_assoc, N.land_diag. repeat split; auto. discriminate.
Qed.
Lemma tok1_ensure_rp_id rp : rel Ptok1 (ensure_rp_id rp).
Proof.
  intro w. unfold ensure_rp_id, bind, gets. cbn. destruct (t_rp (v_token (w_v w))) as [r | ] eqn:E.
  - apply rel_guard.
  - split; cbn; try lia; auto.
    + exists []. split; [reflexivity | constructor].
    + split; [ | auto]. unfold bound. cbn. rewrite N.land_diag. repeat split; auto.
      intros r H. rewrite E in H. discriminate H.
Qed.
Lemma tok1_regenerate e p : rel Ptok1 (regenerate e p).
Proof.
  apply rel_bind; [apply rel_draw | intro k]. apply rel_modify. intro v.
  destruct p; cbn; (split; [apply bound_refl | auto]).
Qed.
Lemma Ptok1_same u v : v_token v = v_token u -> pp_token (v_proto1 v) = pp_token (v_proto1 u) ->
  pp_token (v_proto2 v) = pp_token (v_proto2 u) -> Rv Ptok1 u v.
Proof. intros H1 H2 H3. cbn. rewrite H1, H2, H3. split; [apply bound_refl | auto]. Qed.
Lemma fr_tok1 w w' : fr Ptok1 w w' -> fr Ptok w w'.
Proof.
  intros [(l & E & F) p v n u r W]. split; auto.
  - exists l. split; [exact E | ]. eapply Forall_impl; [ | exact F]. intros [q | ev]; cbn; auto.
  - destruct v as (S & P1 & P2). split; [right; exact S | auto].
Qed.
Ltac tok1_side := intros; first [exact Logic.I | apply Ptok1_same; reflexivity].
Ltac tok1_walk := repeat
  lazymatch goal with
  | |- rel _ clear_token_flags => apply tok1_clear_flags
  | |- rel _ (ensure_rp_id _) => apply tok1_ensure_rp_id
  | |- rel _ (regenerate _ _) => apply tok1_regenerate
  | |- _ => rel_step ltac:(try tok1_side)
  end.
Ltac tok_walk := repeat
  lazymatch goal with
  | |- rel _ clear_token_flags => apply tok_clear_flags
  | |- rel _ update_timeouts => apply tok_update_timeouts
  | |- rel _ (ensure_rp_id _) => apply tok_ensure_rp_id
  | |- rel _ (regenerate _ _) => apply tok_regenerate
  | |- _ => rel_step ltac:(try tok_side)
  end.

Section Token.
  Variable e : env.

  (** The state of a token that is in use agrees with the log. *)
  Definition tok_ok (w : world) : Prop :=
    t_use (v_token (w_v w)) = true ->
    exists t handed perms rp,
      last_issue (w_log w) = Some t /\ t_timer (v_token (w_v w)) = (t + 30000)%N /\
      token_values (w_log w) =
        Some (handed, pp_token (v_proto1 (w_v w)), pp_token (v_proto2 (w_v w))) /\
      last_grant (w_log w) = Some (perms, rp) /\
      N.land (t_perms (v_token (w_v w))) perms = t_perms (v_token (w_v w)) /\
      (forall r, rp = Some r -> t_rp (v_token (w_v w)) = Some r).

  Lemma quiet_log l p log :
    Forall (item_ok Ptok p) l ->
    last_issue (l ++ log) = last_issue log /\ token_values (l ++ log) = token_values log /\
    last_grant (l ++ log) = last_grant log.
  Proof.
    intro H. induction H as [ | i l Hi H IH]; [auto | ].
    destruct i as [q | ev]; [exact IH | ]. destruct ev; cbn in *; try exact IH; destruct Hi.
  Qed.
  Lemma tok_frame w w' : fr Ptok w w' -> tok_ok w -> tok_ok w'.
  Proof.
    intros F H Hu. destruct (fr_log _ _ _ F) as (l & E & Fl).
    destruct (quiet_log l (w_p w) (w_log w) Fl) as (Q1 & Q2 & Q3). rewrite E, Q1, Q2, Q3.
    destruct (fr_v _ _ _ F) as (S & P1 & P2). rewrite P1, P2.
    destruct S as [(S & _) | (S1 & S2 & S3 & _ & S5)]; [congruence | ].
    destruct H as (t & hd & perms & rp & H1 & H2 & H3 & H4 & H5 & H6); [congruence | ].
    exists t, hd, perms, rp. rewrite S2. repeat split; auto.
    - rewrite <- S3, <- N.land_assoc, H5. reflexivity.
  Qed.
  Lemma tok_rel {E B} (m : M E B) : rel Ptok m -> hoare tok_ok m (fun _ => tok_ok).
  Proof. intros R w H. eapply tok_frame; [apply R | exact H]. Qed.

  (** Replacing the token values when the PIN changes. *)
  Lemma renew_ok : hoare tok_ok
    (do* reset_token e V1 in
     do* reset_token e V2 in
     let* p1 := gets v_proto1 in
     let* p2 := gets v_proto2 in
     do* emit (EvRenew (pp_token p1) (pp_token p2)) in
     ret (E := status) (@None pin_resp)) (fun _ => tok_ok).
  Proof.
    intros w H Hu. cbn in Hu. destruct (H Hu) as (t & hd & perms & rp & H1 & H2 & H3 & H4 & H5 & H6).
    exists t, false, perms, rp. cbn. auto 10.
  Qed.
  (** Issuing a token. *)
  Lemma issue_ok {B} (k : M status B) : rel Ptok k -> hoare tok_ok
    (do* reset_token e V1 in
     do* reset_token e V2 in
     let* n := now in
     let* p1 := gets v_proto1 in
     let* p2 := gets v_proto2 in
     do* emit (EvIssue n (pp_token p1) (pp_token p2)) in
     do* begin_using in
     do* set_permissions 3 None in k) (fun _ => tok_ok).
  Proof.
    intro R.
    eapply hoare_bind with (Mid := fun _ _ => True); [intros ? ?; exact Logic.I | intro].
    eapply hoare_bind with (Mid := fun _ _ => True); [intros ? ?; exact Logic.I | intro].
    eapply hoare_bind with (Mid := fun n w1 => w_now w1 = n); [intros ? ?; reflexivity | intro n].
    eapply hoare_bind with (Mid := fun p1 w1 => w_now w1 = n /\ v_proto1 (w_v w1) = p1);
      [intros ? ?; split; [assumption | reflexivity] | intro p1].
    eapply hoare_bind with (Mid := fun p2 w1 => (w_now w1 = n /\ v_proto1 (w_v w1) = p1) /\
                                                v_proto2 (w_v w1) = p2);
      [intros ? ?; split; [assumption | reflexivity] | intro p2].
    intros w1 ((Hn & H1) & H2).
    cbv [bind now emit begin_using set_permissions mod_token modify].
    eapply tok_frame; [apply R | ]. intros _. cbn [w_log w_v v_token v_proto1 v_proto2 set_token].
    exists n, true, 3%N, None. rewrite H1, H2. repeat split; try discriminate. now rewrite Hn.
  Qed.
  Lemma token_ok p : hoare tok_ok (process_get_pin_token e p) (fun _ => tok_ok).
  Proof.
    unfold process_get_pin_token.
    do 2 (apply hoare_seq; [apply tok_rel; tok_walk | intro]).
    apply hoare_seq; [apply tok_rel; destruct (pi_perms p), (pi_rp p); tok_walk | intro].
    do 6 (apply hoare_seq; [apply tok_rel; tok_walk | intro]).
    apply issue_ok. tok_walk.
  Qed.
  Lemma token_grants p w r w' :
    process_get_pin_token e p w = (Ok r, w') -> exists g, last_grant (w_log w') = Some g.
  Proof.
    unfold process_get_pin_token. intro H.
    do 9 (apply bind_ok in H as (? & ? & _ & H)).
    rename x14 into w1 || idtac.
    repeat match type of H with
           | bind (reset_token _ _) _ _ = _ => apply bind_ok in H as (? & ? & _ & H)
           | bind (gets _) _ _ = _ => apply bind_ok in H as (? & ? & _ & H)
           | bind now _ _ = _ => apply bind_ok in H as (? & ? & _ & H)
           | bind (emit (EvIssue _ _ _)) _ _ = _ => apply bind_ok in H as (? & ? & _ & H)
           | bind begin_using _ _ = _ => apply bind_ok in H as (? & ? & _ & H)
           end.
    apply bind_ok in H as (u & w2 & HS & H).
    apply bind_ok in HS as (? & ? & HE & HS). apply emit_ok in HE as (_ & _ & _ & HL & _).
    apply modify_ok in HS as (_ & _ & _ & HS & _). rewrite HL in HS.
    match type of H with ?k _ = _ =>
      assert (R : rel Ptok k) by tok_walk; pose proof (fr_log _ _ _ (R w2)) as (l & E & Fl) end.
    rewrite H in E. cbn in E.
    destruct (quiet_log l (w_p w2) (w_log w2) Fl) as (_ & _ & Q). rewrite E, Q, HS. cbn. eauto.
  Qed.
  Lemma grant_ok perms rp (k : option pin_resp) :
    hoare (fun w => tok_ok w /\ exists g, last_grant (w_log w) = Some g)
      (do* set_permissions perms rp in ret (E := status) k) (fun _ => tok_ok).
  Proof.
    intros w [H _] Hu. cbn in Hu. destruct (H Hu) as (t & hd & perms0 & rp0 & H1 & H2 & H3 & H4 & H5 & H6).
    exists t, hd, perms, rp. cbn. rewrite N.land_diag. auto 10.
  Qed.
  Lemma client_pin_ok p : hoare tok_ok (process_client_pin e p) (fun _ => tok_ok).
  Proof.
    unfold process_client_pin. apply hoare_seq; [apply tok_rel; tok_walk | intro].
    apply hoare_seq; [ | intro; apply tok_rel; tok_walk].
    destruct (pi_sub p); try (apply tok_rel; tok_walk; fail).
    - unfold process_change_pin. do 7 (apply hoare_seq; [apply tok_rel; tok_walk | intro]).
      apply hoare_seq; [apply tok_rel; destruct (shared_verify _ _ _ _); tok_walk | intro].
      do 2 (apply hoare_seq; [apply tok_rel; tok_walk | intro]).
      apply renew_ok.
    - apply token_ok.
    - unfold process_token_with_permissions.
      do 3 (apply hoare_seq; [apply tok_rel; tok_walk | intro]).
      eapply hoare_bind with (Mid := fun _ w => tok_ok w /\ exists g, last_grant (w_log w) = Some g);
        [ | intro; apply grant_ok].
      intros w Hw.
      match goal with |- context [process_get_pin_token e ?q w] => pose proof (token_ok q w Hw) as Q;
        pose proof (token_grants q w) as G; destruct (process_get_pin_token e q w) as [[r | s] w'] end;
      cbn in *; [split; [exact Q | eapply G; reflexivity] | exact Q].
  Qed.
  Lemma reset_ok : hoare tok_ok (process_reset e) (fun _ => tok_ok).
  Proof.
    unfold process_reset. apply hoare_seq; [apply tok_rel; tok_walk | intros s].
    destruct s as [s | ]; [destruct s | ].
    2-5: apply tok_rel; apply rel_fail.
    do 2 (apply hoare_seq; [apply tok_rel; tok_walk | intro]).
    unfold client_pin_reset.
    eapply hoare_bind with (Mid := fun _ w => t_use (v_token (w_v w)) = false).
    2: { intros _ w H Hu. cbn in Hu. congruence. }
    do 5 (eapply hoare_bind with (Mid := fun _ _ => True); [intros ? ?; exact Logic.I | intro]).
    intros w _. reflexivity.
  Qed.
  Lemma preamble_tok x ch : rel Ptok (preamble x ch).
  Proof.
    unfold preamble. do 3 (apply rel_bind; [tok_walk | intro]).
    destruct (keeps x a1); tok_walk.
  Qed.
  Lemma other_tok : other_frame e Ptok.
  Proof.
    split; intros; try (tok_walk; fail); try exact Logic.I.
    - tok_side.
  Qed.
  (** The messages that neither issue, grant, replace nor drop a token. *)
  Lemma fido_tok x ch : (forall p, x <> CClientPin p) -> x <> CReset -> rel Ptok (process_fido_command e x ch).
  Proof. destruct x; intros H1 H2; cbn [process_fido_command]; try congruence; tok_walk. Qed.

  Lemma run_op_tok o w : tok_ok w -> tok_ok (snd (run_op e o w)).
  Proof.
    intro H. destruct (run_op_other e Ptok o w other_tok) as [(b & ch & -> & ER) | F].
    2: eapply tok_frame; eassumption.
    rewrite ER. unfold process_command, bind, lift.
    destruct (parse_command (e_cfg e) b) as [x | s] eqn:Ep; [ | exact H].
    rewrite split_message. unfold bind.
    destruct (preamble_same x ch w) as (w1 & Q & Qp & Ql & Qn). rewrite Q.
    assert (H1 : tok_ok w1).
    { pose proof (preamble_tok x ch w) as F. rewrite Q in F. eapply tok_frame; eassumption. }
    destruct ch.
    - destruct x; first [apply client_pin_ok; exact H1 | apply reset_ok; exact H1
              | eapply tok_frame; [apply fido_tok; discriminate | exact H1]].
    - assert (R : rel Ptok (process_vendor_command e x)) by (destruct x; tok_walk).
      eapply tok_frame; [apply R | exact H1].
  Qed.
  Theorem reachable_tok h : tok_ok (run e h).
  Proof.
    apply (history_invariant e (fun _ => True) tok_ok); auto.
    - intros w _ _ Hu. discriminate Hu.
    - intros o w _ _ H. split; [exact I | now apply run_op_tok].
  Qed.

  (** ** What a successful check of a MAC means *)
  Lemma verify_token_ok pr p k msg sg : verify_token pr p k msg sg = MacOk -> sg = authenticate pr p k msg.
  Proof.
    destruct p; cbn; unfold verify_v1, verify_v2.
    - destruct (negb _); [discriminate | ]. destruct (bytes_eqb _ sg) eqn:E; [ | discriminate].
      apply bytes_eqb_eq in E. auto.
    - destruct (negb _); [discriminate | ]. destruct (bytes_eqb _ sg) eqn:E; [ | discriminate].
      apply bytes_eqb_eq in E. auto.
  Qed.
  Lemma verify_auth_ok msg sg p w u w' :
    verify_auth e msg sg p w = (Ok u, w') ->
    w' = w /\ t_use (v_token (w_v w)) = true /\
    sg = authenticate (e_prims e) p (pp_token (proto_of p (w_v w))) msg.
  Proof.
    unfold verify_auth. intro H.
    apply bind_ok in H as (t & w1 & H1 & H). apply gets_ok in H1 as [-> ->].
    apply bind_ok in H as (? & w1 & H1 & H). apply guard_ok in H1 as [Hu ->].
    apply bind_ok in H as (pp & w1 & H1 & H). apply gets_ok in H1 as [-> ->].
    destruct (verify_token _ _ _ _ _) eqn:E; try discriminate.
    apply ret_ok in H as [_ ->]. apply verify_token_ok in E. auto.
  Qed.
  Lemma has_permission_ok perm w u w' :
    has_permission perm w = (Ok u, w') -> w' = w /\ N.land perm (t_perms (v_token (w_v w))) <> 0%N.
  Proof.
    unfold has_permission. intro H.
    apply bind_ok in H as (t & w1 & H1 & H). apply gets_ok in H1 as [-> ->].
    apply guard_ok in H as [H ->]. split; [reflexivity | ]. destruct (N.eqb_spec (N.land perm (t_perms (v_token (w_v w)))) 0); [discriminate | assumption].
  Qed.

  (** The token state and the token values are the same in two worlds with the same log. *)
  Definition tok_same (w w' : world) : Prop :=
    v_token (w_v w') = v_token (w_v w) /\ v_proto1 (w_v w') = v_proto1 (w_v w) /\
    v_proto2 (w_v w') = v_proto2 (w_v w).

  Lemma preamble_token x ch w w1 :
    preamble x ch w = (Ok tt, w1) -> t_use (v_token (w_v w1)) = true ->
    tok_same w w1 /\ w_log w1 = w_log w /\ w_p w1 = w_p w /\ w_now w1 = w_now w /\
    (w_now w < t_timer (v_token (w_v w)))%N.
  Proof.
    unfold preamble. intro H.
    apply bind_ok in H as (? & w2 & H1 & H). apply bind_ok in H as (? & w3 & H2 & H).
    apply bind_ok in H as (s & w4 & H3 & H).
    apply bind_ok in H1 as (n & ? & H0 & H1). apply now_ok in H0 as [-> ->].
    apply modify_ok in H1 as (V1 & P1 & N1 & L1 & _).
    apply bind_ok in H2 as (? & ? & H0 & H2). apply modify_ok in H0 as (V2 & P2 & N2 & L2 & _).
    apply modify_ok in H2 as (V3 & P3 & N3 & L3 & _).
    apply bind_ok in H3 as (? & w5 & H0 & H3).
    apply bind_ok in H0 as (n & ? & H0 & H5). apply now_ok in H0 as [-> ->].
    apply modify_ok in H5 as (V4 & P4 & N4 & L4 & _). apply gets_ok in H3 as [-> ->].
    assert (D : tok_same w5 w1 /\ w_log w1 = w_log w5 /\ w_p w1 = w_p w5 /\ w_now w1 = w_now w5).
    { destruct (keeps _ _).
      - apply ret_ok in H as [_ ->]. unfold tok_same. auto 10.
      - apply modify_ok in H as (V5 & P5 & N5 & L5 & _). unfold tok_same. rewrite V5. auto 10. }
    destruct D as ((D1 & D2 & D3) & D4 & D5 & D6).
    unfold tok_same. rewrite D1, D2, D3, D4, D5, D6.
    rewrite V4, V3, V2, V1. cbn. rewrite L4, L3, L2, L1, P4, P3, P2, P1, N4, N3, N2, N1.
    intro Hu. destruct (t_use (v_token (w_v w)) && is_elapsed (w_now w) (t_timer (v_token (w_v w)))) eqn:E;
      [discriminate Hu | ].
    repeat split; auto. rewrite Hu in E. cbn in E. unfold is_elapsed in E. apply N.leb_gt in E. exact E.
  Qed.
End Token.
