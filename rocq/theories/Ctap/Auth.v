(** Authorisation of credential management, configuration and large blob writes, and the lifetime of
    tokens over histories. *)
From Verif Require Import Base Facts Hid.Model U2f.Model Cbor.Model Ctap.Crypto Ctap.Types Ctap.Machine
  Ctap.Commands Ctap.Parse Ctap.System Ctap.Logic Ctap.History Ctap.Track Ctap.PinChange Ctap.TokenSpec
  Ctap.Token Ctap.Success.
From Coq Require Import Lia.

Section Auth.
  Variable e : env.
  Notation pr := (e_prims e).

  (** ** Tokens only lose power until the next one is issued *)
  Definition issues (l : list item) : Prop := exists t a b, In (LEv (EvIssue t a b)) l.
  Definition aging (w w' : world) : Prop :=
    exists l, w_log w' = l ++ w_log w /\ (issues l \/ shrinks (v_token (w_v w)) (v_token (w_v w'))).
  Lemma issues_app l l' : issues l \/ issues l' -> issues (l ++ l').
  Proof. intros [(t & a & b & H) | (t & a & b & H)]; exists t, a, b; apply in_or_app; auto. Qed.
  Lemma aging_trans a b d : aging a b -> aging b d -> aging a d.
  Proof.
    intros (l & E & H) (l' & E' & H'). exists (l' ++ l). split; [now rewrite E', E, app_assoc | ].
    destruct H as [H | H]; [left; apply issues_app; auto | ].
    destruct H' as [H' | H']; [left; apply issues_app; auto | ].
    right. eapply shrinks_trans; eassumption.
  Qed.
  Definition Page : params.
  Proof.
    refine (mkPar (fun _ _ => True) (fun u v => shrinks (v_token u) (v_token v)) anyE _ _ _ _).
    - auto.
    - auto.
    - intro. apply shrinks_refl.
    - intros u v w. apply shrinks_trans.
  Defined.
  Lemma fr_aging w w' : fr Page w w' -> aging w w'.
  Proof.
    intro F. destruct (fr_log _ _ _ F) as (l & E & _). exists l. split; [exact E | right].
    exact (fr_v _ _ _ F).
  Qed.
  Lemma tok_age w w' : fr Ptok w w' -> fr Page w w'.
  Proof.
    intros [(l & E & F) p v n u r W]. split; auto.
    - exists l. split; [exact E | ]. eapply Forall_impl; [ | exact F]. intros [q | ev]; cbn; auto; intros; exact Logic.I.
    - destruct v as (S & _). exact S.
  Qed.
  Lemma grow_aging w w' : aging w w' -> exists l, w_log w' = l ++ w_log w.
  Proof. intros (l & E & _). eauto. Qed.

  Lemma age_rel {E A} (m : M E A) w : rel Ptok m -> aging w (snd (m w)).
  Proof. intro R. apply fr_aging, tok_age, R. Qed.
  Lemma age_bind {E A B} (m : M E A) (k : A -> M E B) w :
    aging w (snd (m w)) -> (forall a w1, aging w1 (snd (k a w1))) -> aging w (snd (bind m k w)).
  Proof.
    intros Hm Hk. unfold bind. destruct (m w) as [[a | s] w1]; [ | exact Hm].
    eapply aging_trans; [exact Hm | apply Hk].
  Qed.
  (** The same for a computation that issues a token if it succeeds. *)
  Definition strong {E A} (m : M E A) (w : world) : Prop :=
    exists l, w_log (snd (m w)) = l ++ w_log w /\
      (issues l \/ (shrinks (v_token (w_v w)) (v_token (w_v (snd (m w)))) /\ exists s, fst (m w) = Err s)).
  Lemma strong_aging {E A} (m : M E A) w : strong m w -> aging w (snd (m w)).
  Proof. intros (l & E1 & [H | [H _]]); exists l; auto. Qed.
  Lemma strong_bind {E A B} (m : M E A) (k : A -> M E B) w :
    aging w (snd (m w)) -> (forall a w1, strong (k a) w1) -> strong (bind m k) w.
  Proof.
    intros (l & E1 & H) Hk. unfold strong, bind. destruct (m w) as [[a | s] w1] eqn:Em; cbn [fst snd] in *.
    - destruct (Hk a w1) as (l' & E' & H'). exists (l' ++ l).
      split; [now rewrite E', E1, app_assoc | ].
      destruct H as [H | H]; [left; apply issues_app; auto | ].
      destruct H' as [H' | [H' Hs]]; [left; apply issues_app; auto | ].
      right. split; [eapply shrinks_trans; eassumption | exact Hs].
    - exists l. split; [exact E1 | ]. destruct H as [H | H]; [auto | right; eauto].
  Qed.
  Lemma age_reset_token p w : aging w (snd (reset_token e p w)).
  Proof. exists []. split; [reflexivity | right]. destruct p; cbn; apply shrinks_refl. Qed.
  Lemma age_emit {E} ev w : aging w (snd (emit (E := E) ev w)).
  Proof. exists [LEv ev]. split; [reflexivity | right]. cbn. apply shrinks_refl. Qed.
  Lemma strong_issue {B} n a b (k : M status B) w :
    rel trivial k -> strong (bind (emit (EvIssue n a b)) (fun _ => k)) w.
  Proof.
    intro R. destruct (fr_log _ _ _ (R (snd (emit (E := status) (EvIssue n a b) w)))) as (l & E1 & _).
    exists (l ++ [LEv (EvIssue n a b)]). split.
    - rewrite <- app_assoc. exact E1.
    - left. exists n, a, b. apply in_or_app. right. left. reflexivity.
  Qed.
  Lemma strong_get_token p w : strong (process_get_pin_token e p) w.
  Proof.
    unfold process_get_pin_token.
    do 2 (apply strong_bind; [apply age_rel; tok_walk | intros]).
    apply strong_bind; [apply age_rel; destruct (pi_perms p), (pi_rp p); tok_walk | intros].
    do 6 (apply strong_bind; [apply age_rel; tok_walk | intros]).
    do 2 (apply strong_bind; [apply age_reset_token | intros]).
    do 3 (apply strong_bind; [apply age_rel; tok_walk | intros]).
    apply strong_issue. rel_walk.
  Qed.
  Lemma age_client_pin p w : aging w (snd (process_client_pin e p w)).
  Proof.
    unfold process_client_pin. apply age_bind; [apply age_rel; tok_walk | intros _ w1].
    apply age_bind; [ | intros; apply age_rel; tok_walk].
    destruct (pi_sub p); try (apply age_rel; tok_walk; fail).
    - unfold process_change_pin. do 7 (apply age_bind; [apply age_rel; tok_walk | intros]).
      apply age_bind; [apply age_rel; destruct (shared_verify _ _ _ _); tok_walk | intros].
      do 2 (apply age_bind; [apply age_rel; tok_walk | intros]).
      do 2 (apply age_bind; [apply age_reset_token | intros]).
      do 2 (apply age_bind; [apply age_rel; tok_walk | intros]).
      apply age_bind; [apply age_emit | intros]. apply age_rel; tok_walk.
    - apply strong_aging, strong_get_token.
    - unfold process_token_with_permissions.
      do 3 (apply age_bind; [apply age_rel; tok_walk | intros]).
      match goal with |- aging ?w0 (snd (bind (process_get_pin_token e ?q) ?k ?w0)) =>
        set (q0 := q); set (k0 := k); generalize w0; intro w9 end.
      pose proof (strong_get_token q0 w9) as (l & E & H). unfold bind.
      destruct (process_get_pin_token e q0 w9) as [[r | s] w8] eqn:Eq; cbn [fst snd] in *.
      + assert (R : rel trivial (k0 r)) by (unfold k0; rel_walk).
        destruct (fr_log _ _ _ (R w8)) as (l' & E' & _).
        exists (l' ++ l). split; [now rewrite E', E, app_assoc | left]. apply issues_app. right.
        destruct H as [H | (_ & s & H)]; [exact H | discriminate].
      + exists l. split; [exact E | ]. destruct H as [H | [H _]]; auto.
  Qed.
  Lemma age_reset w : aging w (snd (process_reset e w)).
  Proof.
    unfold process_reset. apply age_bind; [apply age_rel; tok_walk | intros s w1].
    destruct s as [s | ]; [destruct s | ].
    2-5: apply age_rel; tok_walk.
    do 2 (apply age_bind; [apply age_rel; tok_walk | intros]).
    apply age_bind; [ | intros; apply age_rel; tok_walk].
    unfold client_pin_reset.
    apply age_bind; [apply age_rel; tok_walk | intros].
    apply age_bind; [apply age_reset_token | intros].
    apply age_bind; [apply age_rel; tok_walk | intros].
    apply age_bind; [apply age_reset_token | intros].
    apply age_bind; [apply age_rel; tok_walk | intros].
    exists []. split; [reflexivity | right]. left. cbn. auto.
  Qed.
  Lemma age_op o w : aging w (snd (run_op e o w)).
  Proof.
    destruct (run_op_other e Ptok o w (other_tok e)) as [(b & ch & -> & ER) | F].
    2: now apply fr_aging, tok_age.
    rewrite ER. unfold process_command.
    apply age_bind; [apply age_rel; tok_walk | intros x w1].
    rewrite split_message. apply age_bind; [apply age_rel, preamble_tok | intros _ w2].
    destruct ch.
    - destruct x; try (apply age_rel, fido_tok; discriminate); [apply age_client_pin | apply age_reset].
    - destruct x; apply age_rel; tok_walk.
  Qed.
  Lemma age_step x w : aging w (step e w x).
  Proof.
    destruct x as [o [n | ]]; unfold step; cbn [fst snd]; [ | apply age_op].
    destruct (lose_power_ext n w (snd (run_op e o w)) (run_op_log e o w)) as (l & E).
    exists (LEv EvBoot :: l). split; [rewrite reboot_log, E; reflexivity | ].
    right. left. cbn. auto.
  Qed.
  Theorem age_history h w : aging w (fold_left (step e) h w).
  Proof.
    revert w. induction h as [ | x h IH]; intro w; cbn [fold_left].
    - exists []. split; [reflexivity | right; apply shrinks_refl].
    - eapply aging_trans; [apply age_step | apply IH].
  Qed.

  (** ** Credential management *)
  Definition cm_signed (p : cm_params) (msg : bytes) : Prop :=
    match cm_data_ p with
    | None => msg = [cm_code (cm_sub_ p)]
    | Some d => exists b, cbor_write (cm_data_to_cbor d) = Some b /\ msg = cm_code (cm_sub_ p) :: b
    end.
  Definition cm_next (s : cm_sub) : bool := match s with CmRpsNext | CmCredsNext => true | _ => false end.
  Definition checked (w : world) (perm : N) (msg sg : bytes) (pp : pin_proto) : Prop :=
    t_use (v_token (w_v w)) = true /\
    sg = authenticate pr pp (pp_token (proto_of pp (w_v w))) msg /\
    N.land perm (t_perms (v_token (w_v w))) <> 0%N.
  Lemma write_cbor_ok v w b w' : write_cbor v w = (Ok b, w') -> cbor_write v = Some b /\ w' = w.
  Proof.
    unfold write_cbor. destruct (cbor_write v); intro H; [ | discriminate].
    apply ret_ok in H as [-> ->]. auto.
  Qed.
  Lemma cm_authorise_ok p w u w' :
    cm_next (cm_sub_ p) = false -> cm_authorise e p w = (Ok u, w') ->
    w' = w /\ exists sg pp msg, cm_auth p = Some sg /\ cm_proto p = Some pp /\ cm_signed p msg /\
      checked w PERM_CM msg sg pp.
  Proof.
    intros Hn H. unfold cm_authorise in H.
    assert (H' : match cm_auth p with
        | None => fail PUAT_REQUIRED
        | Some auth =>
            let* pp := lift (ok_or_missing (cm_proto p)) in
            let* msg := cm_message p in
            do* verify_auth e msg auth pp in
            has_permission PERM_CM
        end w = (Ok u, w')) by (destruct (cm_sub_ p); try discriminate Hn; exact H).
    clear H. destruct (cm_auth p) as [sg | ]; [ | discriminate].
    apply bind_ok in H' as (pp & w1 & H1 & H). apply lift_ok in H1 as [Hp ->].
    apply bind_ok in H as (msg & w1 & H1 & H).
    assert (Hm : cm_signed p msg /\ w1 = w).
    { unfold cm_message in H1. unfold cm_signed. destruct (cm_data_ p) as [d | ].
      - apply bind_ok in H1 as (b & w2 & H2 & H1). apply write_cbor_ok in H2 as [H2 ->].
        apply ret_ok in H1 as [-> ->]. eauto.
      - apply ret_ok in H1 as [-> ->]. auto. }
    destruct Hm as [Hm ->].
    apply bind_ok in H as (? & w2 & H2 & H). apply verify_auth_ok in H2 as (-> & Hu & Hs).
    apply has_permission_ok in H as (-> & Hperm).
    split; [reflexivity | ]. exists sg, pp, msg. split; [reflexivity | ].
    split; [destruct (cm_proto p); [injection Hp as ->; reflexivity | discriminate] | ].
    split; [exact Hm | ]. unfold checked. auto.
  Qed.
  Lemma reads_cm_authorise p : reads (cm_authorise e p).
  Proof.
    assert (R : reads (match cm_auth p with
        | None => fail PUAT_REQUIRED
        | Some auth =>
            let* pp := lift (ok_or_missing (cm_proto p)) in
            let* msg := cm_message p in
            do* verify_auth e msg auth pp in
            has_permission PERM_CM
        end)).
    { destruct (cm_auth p); [ | reads_walk].
      apply reads_bind; [reads_walk | intro]. apply reads_bind; [reads_walk | intro].
      apply reads_bind; [ | intro; reads_walk]. unfold verify_auth.
      apply reads_bind; [reads_walk | intro]. apply reads_bind; [reads_walk | intro].
      apply reads_bind; [reads_walk | intro]. destruct (verify_token _ _ _ _ _); reads_walk. }
    unfold cm_authorise. destruct (cm_sub_ p); try exact R; intro; apply still_refl.
  Qed.
End Auth.
