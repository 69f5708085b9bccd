(** The deletion of a stored credential succeeds: total correctness of the credential management
    subcommand deleteCredential. *)
From Verif Require Import Base Facts Hid.Model U2f.Model Cbor.Model Ctap.Crypto Ctap.Types Ctap.Machine
  Ctap.Commands Ctap.Parse Ctap.System Ctap.Logic Ctap.History Ctap.Track Ctap.Pin Ctap.PinChange
  Ctap.Success Ctap.Auth Ctap.Creds Ctap.Enumerate Ctap.Owner Ctap.Works Ctap.Resident Ctap.ResetPossible.
From Coq Require Import Lia List.
Import ListNotations.
Open Scope list_scope.

Section Delete.
  Variable e : env.
  Notation pr := (e_prims e).
  Hypothesis NF : nofault e.
  Hypothesis K : prims_ok pr.

  (** What only the state of an enumeration differs in. *)
  Definition unmoved (w w1 : world) : Prop :=
    w_p w1 = w_p w /\ v_token (w_v w1) = v_token (w_v w) /\ v_proto1 (w_v w1) = v_proto1 (w_v w) /\ v_proto2 (w_v w1) = v_proto2 (w_v w).

  Lemma x_command w (Q : option stateful_cmd -> world -> Prop) :
    (forall s w1, unmoved w w1 -> Q s w1) -> ends get_command w Q.
  Proof.
    intro H. unfold get_command. apply e_bind. unfold clear_timer. apply e_bind, e_now. apply y_modify.
    intros w1 V1 P1 _ _. apply e_gets, H. unfold unmoved. rewrite V1. auto.
  Qed.
  Lemma x_item id k c w (Q : N * cred -> world -> Prop) :
    filter (fun x => bytes_eqb (cr_id (snd x)) id) (p_creds (w_p w)) = [(k, c)] ->
    (forall w1, p_creds (w_p w1) = p_creds (w_p w) -> w_v w1 = w_v w -> Q (k, c) w1) -> ends (find_credential_item e id) w Q.
  Proof.
    intros F H. unfold find_credential_item. apply e_bind. unfold iter_credentials, wrap_key, master_keys.
    apply e_bind, e_bind, x_internal, e_bind, (x_load e NF). intros w1 (P1 & V1 & _).
    assert (G : forall m w2, p_creds (w_p w2) = p_creds (w_p w) -> w_v w2 = w_v w ->
      ends (E := status) (ret (mk_encryption m)) w2 (fun _ w' => ends (load e p_creds) w' (fun l w3 =>
        ends match filter (fun x => bytes_eqb (cr_id (snd x)) id) l with
             | [] => fail NO_CREDENTIALS
             | [x] => ret x
             | _ => fail VENDOR_INTERNAL_ERROR
             end w3 Q))).
    { intros m w2 C2 V2. apply e_ret, (x_load e NF). intros w3 (P3 & V3 & _). rewrite C2, F. apply e_ret, H; congruence. }
    destruct (p_master (w_p w)) as [m | ].
    - apply e_ret. apply G; congruence.
    - apply e_bind, x_draw. intros i w2 (P2 & V2 & _). apply e_bind. unfold ends at 1, store. rewrite NF.
      eexists _, _. split; [reflexivity | ]. apply e_ret. apply G; cbn; congruence.
  Qed.

  Lemma x_delete p ch d x body k c w :
    cm_sub_ p = CmDelete -> cm_data_ p = Some d -> cd_cred d = Some x -> cbor_write (cm_data_to_cbor d) = Some body ->
    filter (fun x0 => bytes_eqb (cr_id (snd x0)) (de_id x)) (p_creds (w_p w)) = [(k, c)] ->
    forall mac, cm_auth p = Some mac -> token_allows e w PERM_CM (6%N :: body) mac (cm_proto p) (cr_rp c) ->
    ends (process_cred_mgmt e p ch) w (fun r _ => r = RCredMgmt None).
  Proof.
    intros Sb D X Wr F mac Au (pp & Pp & _ & Mac & T1 & _ & T3 & T4).
    unfold process_cred_mgmt. apply e_bind, x_command. intros s w1 (P1 & K1 & A1 & B1). rewrite Sb.
    apply e_bind. unfold st_clear, mod_st. apply y_modify. intros w2 V2 P2 _ _.
    assert (K2 : v_token (w_v w2) = v_token (w_v w)) by (rewrite V2; exact K1).
    assert (A2 : proto_of pp (w_v w2) = proto_of pp (w_v w)) by (rewrite V2; destruct pp; [exact A1 | exact B1]).
    apply e_bind. unfold cm_authorise. rewrite Sb, Au, Pp. apply e_bind. eapply e_lift; [reflexivity | ].
    apply e_bind. unfold cm_message. rewrite D, Sb. apply e_bind. unfold write_cbor. rewrite Wr. apply e_ret. apply e_ret.
    apply e_bind. unfold verify_auth. apply e_bind, e_gets. rewrite K2. apply e_bind, e_guard; [exact T1 | ].
    apply e_bind, e_gets. rewrite A2, Mac. cbn [cm_code]. rewrite (authentic e K). cbn [mac_status]. apply e_ret.
    unfold has_permission. apply e_bind, e_gets. rewrite K2. apply e_guard; [apply Bool.negb_true_iff; now apply N.eqb_neq | ].
    apply e_bind. apply e_bind. eapply e_lift; [reflexivity | ].
    unfold cm_delete. apply e_bind. rewrite X. eapply e_lift; [reflexivity | ].
    apply e_bind. unfold check_rp_id_permissions. apply e_bind, e_gets. rewrite K2.
    assert (F2 : filter (fun x0 => bytes_eqb (cr_id (snd x0)) (de_id x)) (p_creds (w_p w2)) = [(k, c)]) by now rewrite P2, P1.
    assert (REST : forall w3, p_creds (w_p w3) = p_creds (w_p w2) ->
      ends (do* delete_credential e (de_id x) in ret (None : option cm_resp)) w3 (fun a w' => ends (E := status) (ret (RCredMgmt a)) w' (fun r _ => r = RCredMgmt None))).
    { intros w3 C3. apply e_bind. unfold delete_credential. apply e_bind, (x_item _ k c); [now rewrite C3 | ].
      intros w4 _ _. apply e_store; [exact NF | ]. intros w5 _ _ _. now apply e_ret, e_ret. }
    destruct (t_rp (v_token (w_v w))) as [rp | ] eqn:Er.
    - apply e_bind, (x_item _ k c); [exact F2 | ]. intros w3 C3 V3. unfold has_no_or_rp_id. apply e_bind, e_gets.
      rewrite V3, K2, Er. apply e_guard; [ | now apply REST]. destruct T4 as [T4 | T4]; [discriminate | ]. injection T4 as ->.
      unfold rp_matches. rewrite Er. apply bytes_eqb_refl.
    - apply e_ret. now apply REST.
  Qed.
End Delete.
