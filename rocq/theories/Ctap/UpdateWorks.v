(** The change of the names of a stored credential succeeds: total correctness of the credential management
    subcommand updateUserInformation. *)
From Verif Require Import Base Facts Hid.Model U2f.Model Cbor.Model Ctap.Crypto Ctap.Types Ctap.Machine
  Ctap.Commands Ctap.Parse Ctap.System Ctap.Logic Ctap.History Ctap.Track Ctap.Pin Ctap.PinChange
  Ctap.Success Ctap.Auth Ctap.Creds Ctap.Enumerate Ctap.Seal Ctap.Stored Ctap.Sealed Ctap.Owner Ctap.Works Ctap.Resident Ctap.ResetPossible Ctap.DeleteWorks.
From Coq Require Import Lia List.
Import ListNotations.
Open Scope list_scope.

Section Update.
  Variable e : env.
  Notation pr := (e_prims e).
  Hypothesis NF : nofault e.
  Hypothesis K : prims_ok pr.
  Hypothesis R : rnd_ok e.
  Hypothesis C : cfg_ok (e_cfg e).

  Lemma x_update p ch d x u body k c w :
    cm_sub_ p = CmUpdate -> cm_data_ p = Some d -> cd_cred d = Some x -> cd_user d = Some u -> cbor_write (cm_data_to_cbor d) = Some body ->
    filter (fun x0 => bytes_eqb (cr_id (snd x0)) (de_id x)) (p_creds (w_p w)) = [(k, c)] ->
    cred_ok (c_width (e_cfg e)) (c_ed25519 (e_cfg e)) (with_user u c) ->
    forall mac, cm_auth p = Some mac -> token_allows e w PERM_CM (7%N :: body) mac (cm_proto p) (cr_rp c) ->
    ends (process_cred_mgmt e p ch) w (fun r _ => r = RCredMgmt None).
  Proof.
    intros Sb D X U Wr F Ok mac Au (pp & Pp & _ & Mac & T1 & _ & T3 & T4).
    unfold process_cred_mgmt. apply e_bind, (x_command). intros s w1 (P1 & K1 & A1 & B1). rewrite Sb.
    apply e_bind. unfold st_clear, mod_st. apply y_modify. intros w2 V2 P2 _ _.
    assert (K2 : v_token (w_v w2) = v_token (w_v w)) by (rewrite V2; exact K1).
    assert (A2 : proto_of pp (w_v w2) = proto_of pp (w_v w)) by (rewrite V2; destruct pp; [exact A1 | exact B1]).
    apply e_bind. unfold cm_authorise. rewrite Sb, Au, Pp. apply e_bind. eapply e_lift; [reflexivity | ].
    apply e_bind. unfold cm_message. rewrite D, Sb. apply e_bind. unfold write_cbor. rewrite Wr. apply e_ret. apply e_ret.
    apply e_bind. unfold verify_auth. apply e_bind, e_gets. rewrite K2. apply e_bind, e_guard; [exact T1 | ].
    apply e_bind, e_gets. rewrite A2, Mac. cbn [cm_code]. rewrite (authentic e K). cbn [mac_status]. apply e_ret.
    unfold has_permission. apply e_bind, e_gets. rewrite K2. apply e_guard; [apply Bool.negb_true_iff; now apply N.eqb_neq | ].
    apply e_bind. apply e_bind. eapply e_lift; [reflexivity | ].
    unfold cm_update. apply e_bind. rewrite X. eapply e_lift; [reflexivity | ].
    apply e_bind. rewrite U. eapply e_lift; [reflexivity | ].
    apply e_bind. unfold check_rp_id_permissions. apply e_bind, e_gets. rewrite K2.
    assert (F2 : filter (fun x0 => bytes_eqb (cr_id (snd x0)) (de_id x)) (p_creds (w_p w2)) = [(k, c)]) by now rewrite P2, P1.
    assert (REST : forall w3, p_creds (w_p w3) = p_creds (w_p w2) ->
      ends (do* update_credential e (de_id x) u in ret (None : option cm_resp)) w3 (fun a w' => ends (E := status) (ret (RCredMgmt a)) w' (fun r _ => r = RCredMgmt None))).
    { intros w3 C3. apply e_bind. unfold update_credential. apply e_bind, (x_item e NF _ k c); [now rewrite C3 | ].
      intros w4 _ _. cbn [fst snd]. cbv zeta. apply e_bind. unfold wrap_key. apply e_bind, (x_master e NF). intros m w5 _ _ _ _ _. apply e_ret.
      apply e_bind, x_draw. intros i w6 _. apply e_bind.
      destruct (cred_roundtrip pr (c_ed25519 (e_cfg e)) (c_width (e_cfg e)) K (width_ok e C) (mk_encryption m) (e_rnd e i 16) (with_user u c)) as (b & E & _);
        try apply R; [exact Ok | ].
      eapply e_lift; [exact E | ]. apply e_store; [exact NF | ]. intros w7 _ _ _. now apply e_ret, e_ret. }
    destruct (t_rp (v_token (w_v w))) as [rp | ] eqn:Er.
    - apply e_bind, (x_item e NF _ k c); [exact F2 | ]. intros w3 C3 V3. unfold has_no_or_rp_id. apply e_bind, e_gets.
      rewrite V3, K2, Er. apply e_guard; [ | now apply REST]. destruct T4 as [T4 | T4]; [discriminate | ]. injection T4 as ->.
      unfold rp_matches. rewrite Er. apply bytes_eqb_refl.
    - apply e_ret. now apply REST.
  Qed.
End Update.
