(** Registrations and logins with credentials that the device stores succeed: total correctness of
    makeCredential with the option rk and of getAssertion without an allow list. *)
From Verif Require Import Base Facts Hid.Model U2f.Model Cbor.Model Ctap.Crypto Ctap.Types Ctap.Machine
  Ctap.Commands Ctap.Parse Ctap.System Ctap.Logic Ctap.History Ctap.Track Ctap.Pin Ctap.PinChange
  Ctap.Success Ctap.Auth Ctap.Creds Ctap.Enumerate Ctap.Keys Ctap.Protect Ctap.Seal Ctap.Stored Ctap.Sealed Ctap.Owner Ctap.Works.
From Coq Require Import Lia List.
Import ListNotations.
Open Scope list_scope.

(** ** The scan and the choice of a key *)
Lemma scan_total e rp u l : forall used old,
  Forall (fun x => key_in_range e (fst x) = true) l -> NoDup (map fst l) ->
  (forall x, In x l -> ~ In (fst x) used) -> NoDup (map account l) ->
  (old <> None -> forall x, In x l -> is_account rp u x = false) ->
  exists s, fold_left (store_scan_step e rp u) l (Ok (used, old)) = Ok s.
Proof.
  induction l as [ | x l IH]; intros used old F N D A O; [eexists; reflexivity | ].
  inversion_clear F as [ | ? ? F1 F2]. cbn [map] in N, A. inversion_clear N as [ | ? ? N1 N2]. inversion_clear A as [ | ? ? A1 A2].
  cbn [fold_left]. unfold store_scan_step at 2. cbn [rbind]. rewrite F1. cbn [negb orb].
  assert (Z : existsb (N.eqb (fst x)) used = false).
  { destruct (existsb _ used) eqn:X; [ | reflexivity]. apply existsb_exists in X as (k & Hk & X). apply N.eqb_eq in X. subst k.
    exfalso. exact (D x (or_introl eq_refl) Hk). }
  rewrite Z. change (bytes_eqb (cr_rp (snd x)) rp && bytes_eqb (cr_user (snd x)) u) with (is_account rp u x).
  assert (D' : forall y, In y l -> ~ In (fst y) (fst x :: used)).
  { intros y Hy [E | E]; [ | exact (D y (or_intror Hy) E)]. apply N1. rewrite E. now apply in_map. }
  destruct (is_account rp u x) eqn:Ea.
  - destruct old as [k | ]; [rewrite (O ltac:(discriminate) x (or_introl eq_refl)) in Ea; discriminate | ].
    apply IH; auto. intros _ y Hy. destruct (is_account rp u y) eqn:Ey; [ | reflexivity].
    apply is_account_iff in Ea, Ey. exfalso. apply A1. rewrite Ea, <- Ey. now apply in_map.
  - apply IH; auto. intros H y Hy. apply (O H). now right.
Qed.
Lemma free_exists e used : (length used < c_max_rk (e_cfg e))%nat -> exists k, free_key e used = Some k.
Proof.
  intro L. unfold free_key. destruct (find _ _) as [k | ] eqn:F; [eauto | ]. exfalso.
  assert (I : incl (map key_of (seq 0 (c_max_rk (e_cfg e)))) used).
  { intros k Hk. pose proof (find_none _ _ F k Hk) as X. cbv beta in X. apply Bool.negb_false_iff in X.
    apply existsb_exists in X as (k' & Hk' & X). apply N.eqb_eq in X. now subst. }
  apply NoDup_incl_length in I; [rewrite map_length, seq_length in I; lia | ].
  apply FinFun.Injective_map_NoDup; [ | apply seq_NoDup]. intros i j E. unfold key_of in E. lia.
Qed.

(** There is a place for the account: its credential is replaced, or one more fits. *)
Definition room (e : env) (rp user : bytes) (l : list (N * cred)) : Prop :=
  (length l < c_max_rk (e_cfg e))%nat \/ exists x, In x l /\ cr_rp (snd x) = rp /\ cr_user (snd x) = user.

Section Resident.
  Variable e : env.
  Notation pr := (e_prims e).
  Hypothesis NF : nofault e.
  Hypothesis K : prims_ok pr.
  Hypothesis R : rnd_ok e.
  Hypothesis C : cfg_ok (e_cfg e).
  Hypothesis Valid : forall i, ecdsa_valid pr (e_rnd e i 32) = true.

  Lemma x_iter w (Q : list (N * cred) -> world -> Prop) :
    (forall w1, p_creds (w_p w1) = p_creds (w_p w) -> batch w1 = batch w -> w_up w1 = w_up w -> Q (p_creds (w_p w)) w1) ->
    ends (iter_credentials e) w Q.
  Proof.
    intro H. unfold iter_credentials. apply e_bind. unfold wrap_key. apply e_bind, (x_master e NF). intros m w1 _ _ C1 B1 U1.
    apply e_ret. apply (x_load e NF). intros w2 (P2 & _ & U2). rewrite C1. apply H; unfold batch in *; congruence.
  Qed.

  Lemma x_store_credential r w (Q : unit -> world -> Prop) :
    creds_ok e (p_creds (w_p w)) -> room e (cr_rp r) (cr_user r) (p_creds (w_p w)) ->
    cred_ok (c_width (e_cfg e)) (c_ed25519 (e_cfg e)) r ->
    (forall w1, batch w1 = batch w -> Q tt w1) -> ends (store_credential e r) w Q.
  Proof.
    intros Ck Ro Ok H. unfold store_credential. apply e_bind, x_iter. intros w1 C1 B1 _. apply e_bind.
    destruct (scan_total e (cr_rp r) (cr_user r) (p_creds (w_p w)) [] None (co_range _ _ Ck) (co_keys _ _ Ck)
      ltac:(intros; intros []) (co_accounts _ _ Ck) ltac:(congruence)) as ([used old] & S).
    eapply e_lift; [exact S | ].
    destruct (scan_spec e (cr_rp r) (cr_user r) (p_creds (w_p w)) [] None ltac:(auto)) as [_ SP].
    destruct (SP _ _ S) as (U & S1 & S2). rewrite app_nil_r in U.
    assert (O : old = None -> (length used < c_max_rk (e_cfg e))%nat).
    { intro E. rewrite U, rev_length, map_length. destruct Ro as [Ro | (x & Hx & X1 & X2)]; [exact Ro | ].
      destruct (S1 x Hx) as [_ X]; [apply is_account_iff; unfold account; congruence | congruence]. }
    apply e_bind, e_guard.
    { destruct old; [reflexivity | ]. specialize (O eq_refl). cbn [andb]. apply Bool.negb_true_iff, Nat.leb_gt. exact O. }
    apply e_bind.
    assert (G : exists k, ends (E := status) match old with
              | Some k => ret k
              | None => match free_key e used with Some k => ret k | None => fail VENDOR_INTERNAL_ERROR end
              end w1 (fun k' w' => k' = k /\ w' = w1)).
    { destruct old as [k | ]; [exists k; now apply e_ret | ]. destruct (free_exists e used (O eq_refl)) as (k & ->). exists k. now apply e_ret. }
    destruct G as (k & G). eapply x_weak; [exact G | ]. intros k' w1' [-> ->].
    apply e_bind. unfold wrap_key. apply e_bind, (x_master e NF). intros m w2 _ _ _ B2 _. apply e_ret.
    apply e_bind, x_draw. intros i w3 (P3 & _). apply e_bind.
    destruct (cred_roundtrip pr (c_ed25519 (e_cfg e)) (c_width (e_cfg e)) K (width_ok e C) (mk_encryption m) (e_rnd e i 16) r) as (b & E & _);
      try apply R; [exact Ok | ].
    eapply e_lift; [exact E | ]. apply e_store; [exact NF | ]. intros w4 P4 _ _. apply H.
    unfold batch in *. rewrite P4. cbn. congruence.
  Qed.

  Lemma x_register_stored p w :
    find (supported e) (mc_algs p) <> None -> mc_ep p = None -> mc_exclude p = None -> mc_rk p = true ->
    (mc_auth p = None -> p_pin (w_p w) = None) ->
    creds_ok e (p_creds (w_p w)) -> room e (rp_id (mc_rp p)) (us_id (mc_user p)) (p_creds (w_p w)) ->
    (forall l r, cred_for e p l r -> stored_ok e r) ->
    (c_batch (e_cfg e) = true -> exists ak cert, batch w = Some (ak, cert) /\ ecdsa_valid pr ak = true) ->
    may_act e w PERM_MC (mc_cdh p) (mc_auth p) (mc_proto p) (rp_id (mc_rp p)) (mc_uv p) ->
    fst (e_up e (w_up w)) = UpConfirmed ->
    ends (process_make_credential e p) w (fun _ _ => True).
  Proof.
    intros Al Ep Ex Rk Pn Ck Ro So Ba Ma Up. unfold process_make_credential. cbv zeta.
    apply e_bind, x_precheck; [exact (may_precheck e K _ _ _ _ _ _ _ Ma) | ].
    assert (exists q a, find (supported e) (mc_algs p) = Some q /\ cp_alg q = Some a) as (q & a & F & A).
    { destruct (find _ _) as [q | ] eqn:F; [ | congruence]. apply find_some in F as [_ F]. unfold supported in F.
      destruct (cp_alg q) as [a | ] eqn:A; [eauto | ]. rewrite Bool.andb_false_r in F. discriminate. }
    apply e_bind. unfold preferred_alg. rewrite F, A. apply e_ret.
    apply e_bind. unfold enterprise_requested. rewrite Ep. apply e_ret.
    apply e_bind.
    assert (UV : ends (mc_user_verification e p) w (fun _ w1 => w_p w1 = w_p w /\ w_up w1 = w_up w)).
    { unfold mc_user_verification. unfold may_act in Ma. destruct (mc_auth p).
      - apply (x_check_uv e NF K); auto.
      - destruct Ma as (M1 & M2 & M3). apply e_bind, e_guard; [now rewrite M1 | ].
        apply e_bind, (x_always e NF); [exact M2 | ]. intros w1 (P1 & _ & U1). rewrite M3. apply e_bind, e_guard; [reflexivity | ].
        rewrite Rk. apply e_bind. unfold pin_hash. apply (x_load e NF). intros w2 (P2 & _ & U2). rewrite P1, (Pn eq_refl).
        apply e_guard; [reflexivity | ]. split; congruence. }
    eapply x_weak; [exact UV | ]. intros [] w1 [P1 U1]. cbv beta in P1, U1.
    apply e_bind. unfold mc_exclusion. rewrite Ex. apply e_ret.
    apply e_bind, x_presence; [now rewrite U1 | ]. intros w2 P2.
    apply e_bind. unfold clear_token_flags, mod_token. apply e_modify. intros w3 P3 _ _.
    apply e_bind.
    assert (MP : ends (if mx_minpin (mc_ext_ p) then
                      let* l := min_pin_length_rp_ids e in ret (mem_bytes (rp_id (mc_rp p)) l)
                    else ret false) w3 (fun _ w' => w_p w' = w_p w3)).
    { destruct (mx_minpin _); [ | now apply e_ret]. apply e_bind. unfold min_pin_length_rp_ids. apply (x_load e NF).
      intros w4 (P4 & _). now apply e_ret. }
    eapply x_weak; [exact MP | ]. intros minpin w4 P4. cbv beta in P4.
    apply e_bind. rewrite Rk.
    assert (LB : ends (E := status) (match mx_lbkey (mc_ext_ p) with Some true => let* b := draw e 32 in ret (Some b) | _ => ret None end) w4
      (fun o w' => w_p w' = w_p w4 /\ lbkey_for e p o)).
    { destruct (mx_lbkey (mc_ext_ p)) as [[ | ] | ] eqn:El;
        try (apply e_ret; split; [reflexivity | unfold lbkey_for; rewrite El; discriminate]).
      apply e_bind, x_draw. intros i w5 (P5 & _). apply e_ret. split; [exact P5 | ]. unfold lbkey_for. eauto. }
    eapply x_weak; [exact LB | ]. intros lbkey w4' [P4' Lb].
    apply e_bind. unfold new_key. apply e_bind, x_draw. intros i w5 (P5 & _). apply e_ret.
    assert (KV : key_valid e (mkPriv a (e_rnd e i 32)) = true).
    { unfold key_valid. cbn. destruct a; [apply Valid | reflexivity]. }
    assert (P : w_p w5 = w_p w) by congruence.
    apply e_bind. unfold mc_create. rewrite Rk. apply e_bind, x_draw. intros j w5a (P5a & _).
    apply e_bind. unfold new_creation_order. apply e_bind, x_iter. intros w5b C5b B5b _. apply e_ret.
    set (r := mkCred _ _ _ _ _ _ _ _ _ _ _).
    assert (CF : cred_for e p (p_creds (w_p w5a)) r).
    { split; first [reflexivity | exact Lb | idtac]; [now exists j | exists i, q; auto]. }
    destruct (So _ _ CF) as [Cr Li]. change (length (e_rnd e j 32) = 32%nat) in Li.
    apply e_bind, x_store_credential; [rewrite C5b, P5a, P; exact Ck | rewrite C5b, P5a, P; exact Ro | exact Cr | ].
    intros w6 B6. apply e_ret.
    apply e_bind. eapply x_weak; [apply (t_bind _ _ (t_load e NF _)); intro; apply t_ret | ]. intros ad w7 B7. cbv beta in B7.
    apply e_bind, e_guard; [now rewrite Li | ].
    apply e_bind. unfold get_pub_key. rewrite KV. apply e_ret.
    apply e_bind. eapply x_weak; [apply t_write, cose_written | ]. intros pub w8 B8. cbv beta in B8.
    apply e_bind.
    match goal with |- ends ?m w8 _ => assert (EX : tot m) end.
    { destruct (_ || _)%bool; [ | apply t_ret]. apply t_bind.
      - destruct minpin; [apply t_bind; [apply (t_load e NF) | intro; apply t_ret] | apply t_ret].
      - intro ml. apply t_write, options_written. repeat constructor; cbn [fst snd]; auto; intros v Hv.
        + destruct (mx_blob _); [ | discriminate]. injection Hv as <-. reflexivity.
        + destruct (mx_protect _); [ | discriminate]. destruct (effective_policy _ _) as [[] | ]; [ | | | discriminate]; injection Hv as <-; reflexivity.
        + destruct (mx_hmac _); [ | discriminate]. injection Hv as <-. reflexivity.
        + destruct ml; [ | discriminate]. injection Hv as <-. reflexivity. }
    eapply x_weak; [apply EX | ]. intros ext w9 B9. cbv beta in B9.
    apply e_bind. unfold mc_attest. destruct (c_batch (e_cfg e)).
    - destruct (Ba eq_refl) as (ak & cert & Bw & Va).
      assert (B : batch w9 = Some (ak, cert)) by (unfold batch in *; congruence).
      apply e_bind.
      assert (G : ends (get_attestation e Batch) w9 (fun r _ => r = Some (ak, cert))).
      { unfold get_attestation, ends, map_status, load. rewrite NF. eexists _, _. split; [reflexivity | exact B]. }
      eapply x_weak; [exact G | ]. cbv beta. intros r0 w10 ->. rewrite Va. now apply e_ret, e_ret.
    - apply e_bind. unfold sign_and_encode. rewrite KV. now apply e_ret, e_ret, e_ret.
  Qed.

  (** ** Login *)
  Lemma x_get k r w (Q : cred -> world -> Prop) :
    key_in_range e k = true -> lookup k (p_creds (w_p w)) = Some r ->
    (forall w1, w_up w1 = w_up w -> Q r w1) -> ends (get_credential e k) w Q.
  Proof.
    intros Kr L H. unfold get_credential. rewrite Kr. cbn [negb]. apply e_bind, (x_load e NF). intros w1 (_ & _ & U1). rewrite L.
    apply e_bind. unfold wrap_key. apply e_bind, (x_master e NF). intros m w2 _ _ _ _ U2. apply e_ret, e_ret, H. congruence.
  Qed.

  Lemma x_login_stored p ch w :
    creds_ok e (p_creds (w_p w)) -> Forall (fun x => key_valid e (cr_key (snd x)) = true) (p_creds (w_p w)) ->
    ga_allow p = None -> ranked (ga_rp p) (is_some (ga_auth p)) (p_creds (w_p w)) <> [] -> gx_hmac (ga_ext_ p) = None ->
    may_act e w PERM_GA (ga_cdh p) (ga_auth p) (ga_proto p) (ga_rp p) (ga_uv p) ->
    (ga_up p = true -> fst (e_up e (w_up w)) = UpConfirmed) ->
    ends (process_get_assertion e p ch) w (fun _ _ => True).
  Proof.
    intros Ck Kv A Ne Hm Ma Up. unfold process_get_assertion. cbv zeta. rewrite Hm. cbn [orb andb negb].
    apply e_bind, x_precheck; [exact (may_precheck e K _ _ _ _ _ _ _ Ma) | ].
    apply e_bind, e_guard; [reflexivity | ]. apply e_bind.
    assert (UV : ends (ga_user_verification e p) w (fun _ w1 => w_p w1 = w_p w /\ w_up w1 = w_up w)).
    { unfold ga_user_verification. unfold may_act in Ma. destruct (ga_auth p).
      - apply (x_check_uv e NF K); auto.
      - destruct Ma as (M1 & M2 & M3). apply e_bind, e_guard; [now rewrite M1 | ].
        destruct (ga_up p); [ | apply e_ret; auto].
        apply e_bind, (x_always e NF); [exact M2 | ]. intros w1 (P1 & _ & U1). rewrite M3. apply e_guard; auto. }
    eapply x_weak; [exact UV | ]. intros [] w1 [P1 U1]. cbv beta in P1, U1.
    apply e_bind. unfold ga_select. rewrite A. apply e_bind, x_iter. intros w2 C2 _ U2.
    change (match ga_auth p with Some _ => true | None => false end) with (is_some (ga_auth p)).
    rewrite candidates_ranked, P1.
    destruct (ranked (ga_rp p) (is_some (ga_auth p)) (p_creds (w_p w))) as [ | [k r] rest] eqn:Er; [congruence | ].
    assert (In (k, r) (p_creds (w_p w))) as Hin.
    { apply (in_ranked (ga_rp p) (is_some (ga_auth p))). rewrite Er. now left. }
    cbn [map fst]. apply e_bind, (x_get k r).
    { exact (proj1 (Forall_forall _ _) (co_range _ _ Ck) _ Hin). }
    { rewrite C2, P1. now apply (lookup_in e). }
    intros w3 U3. apply e_ret. cbv iota beta.
    apply e_bind. eapply x_weak with (Q1 := fun _ _ => True).
    { destruct (ga_up p) eqn:Ep; [ | now apply e_ret]. apply e_bind, x_presence; [rewrite U3, U2, U1; now apply Up | ].
      intros w4 _. now apply e_modify. }
    intros [] w4 _. apply e_bind. eapply x_weak with (Q1 := fun _ _ => True).
    { unfold increment_counter. destruct (c_counter _); [ | now apply e_ret].
      eapply x_weak; [ | intros; exact Logic.I]. apply (t_bind _ _ (t_draw e 4)). intro b. unfold incr_global_signature_counter.
      apply (t_bind _ _ (t_load e NF _)). intro. apply (t_store e NF). reflexivity. }
    intros [] w5 _.
    apply e_bind. eapply x_weak; [apply (t_bind _ _ (t_load e NF _)); intro; apply t_ret | ]. intros ad w6 _.
    apply e_bind. eapply x_weak with (Q1 := fun _ _ => True).
    { destruct (rev (map fst rest)); [now apply e_ret | ]. unfold ends. eexists _, _. split; [reflexivity | exact Logic.I]. }
    intros number w6' _. apply e_bind. unfold assertion_response. cbn [ai_ext ai_uv ai_auth_data ai_cdh]. rewrite Hm. cbn [orb].
    apply e_bind.
    match goal with |- ends ?m w6' _ => assert (EX : tot m) end.
    { destruct (gx_blob _); [ | apply t_ret]. apply t_bind; [apply t_ret | ]. intro o.
      apply t_write, options_written. repeat constructor; cbn [fst snd]; intros v Hv.
      - injection Hv as <-. reflexivity.
      - destruct o; [ | discriminate]. injection Hv as <-. reflexivity. }
    eapply x_weak; [apply EX | ]. intros ext w7 _.
    apply e_bind. unfold sign_and_encode. rewrite (proj1 (Forall_forall _ _) Kv _ Hin : key_valid e (cr_key r) = true).
    apply e_ret, e_ret, e_ret. exact Logic.I.
  Qed.

  (** The private keys of the stored credentials were drawn. *)
  Lemma keys_valid h : Forall (fun x => key_valid e (cr_key (snd x)) = true) (p_creds (w_p (run e h))).
  Proof.
    induction h as [ | [o k] h IH] using rev_ind; [constructor | ].
    rewrite Forall_forall in *. pose proof (creds_change e h o k) as S.
    set (l := p_creds (w_p (run e h))) in *. set (l' := p_creds (w_p (run e (h ++ [(o, k)])))) in *.
    destruct S as [-> | [(n & _ & ->) | (b & cid & x & -> & P & S)]].
    - exact IH.
    - intros x Hx. apply IH. rewrite <- (firstn_skipn n l). apply in_app_iff in Hx. apply in_app_iff. tauto.
    - destruct x; cbn [cred_step] in S; try contradiction.
      + destruct S as (_ & r & CF & j & ->). intros x Hx. apply in_app_iff in Hx as [Hx | [<- | []]].
        * apply filter_In in Hx as [Hx _]. auto.
        * destruct (cf_key _ _ _ _ CF) as (n & q & _ & _ & E). cbn [snd]. unfold key_valid. rewrite E.
          destruct (pk_alg (cr_key r)); [apply Valid | reflexivity].
      + subst. unfold l' in *. intros x Hx. rewrite S in Hx. destruct Hx.
      + destruct (cm_sub_ p); try contradiction.
        * destruct S as (id & _ & _ & ->). intros x Hx. apply filter_In in Hx as [Hx _]. auto.
        * destruct S as (id & d & u & _ & D & U & j & r & F & ->). intros x Hx.
          apply in_app_iff in Hx as [Hx | [<- | []]]; [apply filter_In in Hx as [Hx _]; auto | ].
          assert (Hin : In (j, r) l).
          { assert (I0 : In (j, r) (filter (fun x => bytes_eqb (cr_id (snd x)) id) l)) by (rewrite F; now left).
            now apply filter_In in I0. }
          exact (IH _ Hin).
  Qed.
End Resident.
