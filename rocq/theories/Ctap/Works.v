(** Registrations and logins succeed: total correctness of makeCredential for credentials that are
    sealed into their IDs, and of getAssertion with them, when the storage works. *)
From Verif Require Import Base Facts Hid.Model U2f.Model Cbor.Model Ctap.Crypto Ctap.Types Ctap.Machine
  Ctap.Commands Ctap.Parse Ctap.System Ctap.Logic Ctap.History Ctap.Track Ctap.Pin Ctap.PinChange
  Ctap.Success Ctap.Auth Ctap.Creds Ctap.Enumerate Ctap.Keys Ctap.Protect Ctap.Seal Ctap.Stored Ctap.Sealed Ctap.Owner.
From Coq Require Import Lia List.
Import ListNotations.
Open Scope list_scope.

(** ** Flat maps are always encoded *)
Definition flat (v : value) : bool :=
  match v with VArray _ | VMap _ | VTag _ _ => false | _ => true end.
Lemma sort_all (P : value * value -> Prop) l : Forall P l -> Forall P (map_sort l).
Proof.
  induction 1 as [ | x l Hx _ IH]; [constructor | ]. cbn [map_sort fold_right]. fold (map_sort l).
  induction IH as [ | y r Hy Hr IH2]; cbn [map_insert].
  - constructor; [exact Hx | constructor].
  - destruct (value_cmp (fst x) (fst y)); repeat constructor; auto.
Qed.
Lemma flat_item v : flat v = true -> exists b, encode_cbor v (Some 3%Z) = Ok b.
Proof. destruct v; intro H; try discriminate H; eexists; reflexivity. Qed.
Lemma flat_written l : Forall (fun x => flat (fst x) = true /\ flat (snd x) = true) l -> exists b, cbor_write (VMap l) = Some b.
Proof.
  intro H. unfold cbor_write, write_nested, MAX_CBOR_NESTING_DEPTH. cbn [encode_cbor].
  change (depth_neg (Some 4%Z)) with false. change (depth_dec (Some 4%Z)) with (Some 3%Z). cbv iota.
  match goal with |- context [rbind (?g l) _] => assert (G : exists b, g l = Ok b) end.
  { induction H as [ | [k v] r [Hk Hv] _ (b & IH)]; [eauto | ]. cbn [fst snd] in *.
    destruct (flat_item k Hk) as (kb & Ek). destruct (flat_item v Hv) as (vb & Ev).
    rewrite Ek, Ev. cbn [rbind]. rewrite IH. cbn [rbind]. eauto. }
  destruct G as (b & ->). cbn [rbind]. eauto.
Qed.
Lemma vint_flat z : flat (vint z) = true.
Proof. unfold vint. now destruct (z <? 0)%Z. Qed.
Lemma cose_written k : exists b, cbor_write (cose_to_cbor k) = Some b.
Proof. unfold cose_to_cbor. apply flat_written, sort_all. repeat constructor; cbn [fst snd]; auto using vint_flat. Qed.
Lemma options_written l :
  Forall (fun x : value * option value => flat (fst x) = true /\ forall v, snd x = Some v -> flat v = true) l ->
  exists b, cbor_write (map_options l) = Some b.
Proof.
  intro H. unfold map_options. apply flat_written, sort_all.
  induction H as [ | [k [v | ]] r [Hk Hv] _ IH]; cbn [present fst snd] in *; [constructor | | exact IH].
  constructor; [ | exact IH]. cbn [fst snd]. auto.
Qed.

(** What the wait for storage and randomness leaves. *)
Definition same (w w1 : world) : Prop := w_p w1 = w_p w /\ w_v w1 = w_v w /\ w_up w1 = w_up w.

(** The batch attestation, which none of the steps of a registration changes. *)
Definition batch (w : world) := p_batch (w_p w).
Definition tot {A} (m : M status A) : Prop := forall w, ends m w (fun _ w' => batch w' = batch w).

Section Works.
  Variable e : env.
  Notation pr := (e_prims e).
  Hypothesis NF : nofault e.
  Hypothesis K : prims_ok pr.
  Hypothesis R : rnd_ok e.
  Hypothesis C : cfg_ok (e_cfg e).
  Hypothesis Valid : forall i, ecdsa_valid pr (e_rnd e i 32) = true.

  Lemma x_load {A} (f : pers -> A) w (Q : A -> world -> Prop) :
    (forall w1, same w w1 -> Q (f (w_p w)) w1) -> ends (load e f) w Q.
  Proof. intro H. unfold ends, load. rewrite NF. eexists _, _. split; [reflexivity | ]. apply H. repeat split. Qed.
  Lemma x_draw {E} n w (Q : bytes -> world -> Prop) :
    (forall i w1, same w w1 -> Q (e_rnd e i n) w1) -> ends (E := E) (draw e n) w Q.
  Proof. intro H. unfold ends, draw. eexists _, _. split; [reflexivity | ]. apply H. repeat split. Qed.
  Lemma x_internal {A} (m : M status A) w Q : ends m w Q -> ends (internal m) w Q.
  Proof. intros (a & w1 & H & q). exists a, w1. unfold internal, map_status. rewrite H. auto. Qed.
  Lemma x_weak {E A} (m : M E A) w (Q1 Q2 : A -> world -> Prop) :
    ends m w Q1 -> (forall a w', Q1 a w' -> Q2 a w') -> ends m w Q2.
  Proof. intros (a & w1 & H & q) G. exists a, w1. auto. Qed.

  Lemma t_bind {A B} (m : M status A) (k : A -> M status B) : tot m -> (forall a, tot (k a)) -> tot (bind m k).
  Proof. intros H G w. apply e_bind. eapply x_weak; [apply H | ]. intros a w' H1. cbv beta in H1. eapply x_weak; [apply G | ].
    cbv beta. intros b w2 H2. congruence. Qed.
  Lemma t_ret {A} (a : A) : tot (ret a).
  Proof. intro w. now apply e_ret. Qed.
  Lemma t_load {A} (f : pers -> A) : tot (load e f).
  Proof. intro w. apply x_load. intros w1 (P1 & _). unfold batch. now rewrite P1. Qed.
  Lemma t_store f : (forall p, p_batch (f p) = p_batch p) -> tot (store e f).
  Proof. intros H w. apply e_store; [exact NF | ]. intros w1 P1 _ _. unfold batch. now rewrite P1. Qed.
  Lemma t_draw n : tot (draw e n).
  Proof. intro w. apply x_draw. intros i w1 (P1 & _). unfold batch. now rewrite P1. Qed.
  Lemma t_modify f : tot (modify f).
  Proof. intro w. apply e_modify. intros w1 P1 _ _. unfold batch. now rewrite P1. Qed.
  Lemma t_write v : (exists b, cbor_write v = Some b) -> tot (write_cbor v).
  Proof. intros (b & H) w. unfold write_cbor. rewrite H. now apply e_ret. Qed.

  Lemma x_master w (Q : bytes -> world -> Prop) :
    (forall m w1, p_master (w_p w1) = Some m -> (forall m0, p_master (w_p w) = Some m0 -> m = m0) ->
       p_creds (w_p w1) = p_creds (w_p w) -> batch w1 = batch w -> w_up w1 = w_up w -> Q m w1) ->
    ends (master_keys e) w Q.
  Proof.
    intro H. unfold master_keys. apply x_internal, e_bind, x_load. intros w1 (P1 & V1 & U1).
    destruct (p_master (w_p w)) as [x | ] eqn:M.
    - apply e_ret, H; unfold batch; rewrite ?P1; auto. intros m0 E. congruence.
    - apply e_bind, x_draw. intros i w2 (P2 & V2 & U2). apply e_bind. unfold ends, store. rewrite NF.
      eexists _, _. split; [reflexivity | ]. apply e_ret, H; unfold batch; cbn; rewrite ?P2, ?P1, ?U2; auto. discriminate.
  Qed.

  (** ** The permission to act *)
  Definition elapsed_not (w : world) : Prop := is_elapsed (w_now w) (t_timer (v_token (w_v w))) = false.
  Definition token_allows (w : world) (perm : N) (cdh auth : bytes) (proto : option pin_proto) (rp : bytes) : Prop :=
    exists pp, proto = Some pp /\ p_pin (w_p w) <> None /\
      auth = authenticate pr pp (pp_token (proto_of pp (w_v w))) cdh /\
      (let t := v_token (w_v w) in t_use t = true /\ t_uv t = true /\ N.land perm (t_perms t) <> 0%N /\
        (t_rp t = None \/ t_rp t = Some rp)).

  Lemma authentic pp key cdh : verify_token pr pp key cdh (authenticate pr pp key cdh) = MacOk.
  Proof.
    pose proof (ok_hmac_len _ K key cdh) as LH.
    destruct pp; cbn [verify_token authenticate]; unfold verify_v1, verify_v2; rewrite ?firstn_length, LH; cbn; now rewrite bytes_eqb_refl.
  Qed.
  Lemma authentic_full pp key cdh : authenticate pr pp key cdh <> [].
  Proof.
    pose proof (ok_hmac_len _ K key cdh) as LH. intro H. apply (f_equal (@length N)) in H.
    destruct pp; cbn [authenticate] in H; rewrite ?firstn_length, LH in H; discriminate H.
  Qed.

  Lemma x_precheck auth proto w (Q : unit -> world -> Prop) :
    (forall sg, auth = Some sg -> sg <> [] /\ proto <> None) -> Q tt w -> ends (precheck e auth proto) w Q.
  Proof.
    intros H q. unfold precheck. destruct auth as [[ | x l] | ]; [ | | now apply e_ret].
    - destruct (H _ eq_refl) as [N _]. congruence.
    - apply e_guard; [ | exact q]. destruct (H _ eq_refl) as [_ N]. destruct proto; congruence.
  Qed.

  Lemma x_check_uv perm cdh auth proto rp w (Q : unit -> world -> Prop) :
    token_allows w perm cdh auth proto rp ->
    (forall w1, w_p w1 = w_p w -> w_up w1 = w_up w -> Q tt w1) -> ends (check_uv e perm cdh auth proto rp) w Q.
  Proof.
    intros (pp & -> & P & -> & T1 & T2 & T3 & T4) H. unfold check_uv. apply e_bind, x_load. intros w1 (P1 & V1 & U1).
    apply e_bind, e_guard. { destruct (p_pin (w_p w)); [reflexivity | congruence]. }
    apply e_bind. eapply e_lift; [reflexivity | ].
    apply e_bind. unfold verify_auth. apply e_bind, e_gets. rewrite V1. apply e_bind, e_guard; [exact T1 | ].
    apply e_bind, e_gets. rewrite V1, authentic. cbn [mac_status]. apply e_ret.
    apply e_bind. unfold has_permission. apply e_bind, e_gets. rewrite V1. apply e_guard.
    { apply Bool.negb_true_iff. now apply N.eqb_neq. }
    apply e_bind. unfold check_user_verified. apply e_bind, e_gets. rewrite V1. apply e_guard; [now rewrite T1, T2 | ].
    unfold ensure_rp_id. apply e_bind, e_gets. rewrite V1. destruct T4 as [-> | T4].
    - eexists _, _. split; [reflexivity | ]. apply H; cbn; congruence.
    - rewrite T4. apply e_guard; [ | apply H; congruence]. unfold rp_matches. rewrite T4. apply bytes_eqb_refl.
  Qed.

  Lemma x_presence w (Q : unit -> world -> Prop) :
    fst (e_up e (w_up w)) = UpConfirmed -> (forall w1, w_p w1 = w_p w -> Q tt w1) -> ends (check_user_presence e) w Q.
  Proof.
    intros U H. unfold ends, check_user_presence. destruct (e_up e (w_up w)) as [r d]. cbn [fst] in U. subst r.
    cbn [up_status]. eexists _, _. split; [reflexivity | ]. now apply H.
  Qed.

  Lemma x_always w (Q : bool -> world -> Prop) :
    c_enforce_uv (e_cfg e) = false -> (forall w1, same w w1 -> Q (p_uv (w_p w)) w1) -> ends (has_always_uv e) w Q.
  Proof. intros E H. unfold has_always_uv. rewrite E. now apply x_load. Qed.

  (** What a request may rely on: a token, or that none is demanded. *)
  Definition may_act (w : world) (perm : N) (cdh : bytes) (auth : option bytes) (proto : option pin_proto)
    (rp : bytes) (asks_uv : bool) : Prop :=
    match auth with
    | Some a => token_allows w perm cdh a proto rp
    | None => asks_uv = false /\ c_enforce_uv (e_cfg e) = false /\ p_uv (w_p w) = false
    end.
  Lemma may_precheck w perm cdh auth proto rp b : may_act w perm cdh auth proto rp b ->
    forall sg, auth = Some sg -> sg <> [] /\ proto <> None.
  Proof. intros H sg ->. destruct H as (pp & -> & _ & -> & _). split; [apply authentic_full | discriminate]. Qed.

  (** ** Registration *)
  Lemma x_wrap s w (Q : bytes -> world -> Prop) :
    source_ok (c_ed25519 (e_cfg e)) (c_width (e_cfg e)) s -> opt_ok (fun b : bytes => (length b <= 64)%nat) (so_blob s) ->
    (forall id w1, length id = 241%nat -> batch w1 = batch w -> Q id w1) -> ends (wrap_credential e s) w Q.
  Proof.
    intros Hs Hb H. assert (G : ends (wrap_credential e s) w (fun _ w' => batch w' = batch w)).
    { unfold wrap_credential. apply e_bind, x_master. intros m w1 _ _ _ B1 _. apply e_bind, x_draw. intros i1 w2 (P2 & _).
      apply e_bind, x_master. intros m2 w3 _ _ _ B3 _. apply e_bind, x_draw. intros i2 w4 (P4 & _).
      destruct (wrap_total pr (c_ed25519 (e_cfg e)) (c_width (e_cfg e)) K (width_ok e C) m (e_rnd e i1 16) (e_rnd e i2 16) s) as (id & ->);
        auto; try apply R. apply e_ret. unfold batch in *. congruence. }
    destruct G as (id & w1 & E & G). exists id, w1. split; [exact E | ]. apply H; [ | exact G].
    destruct (wrap_stands e C K R s w id w1 Hs E) as (? & _ & L & _). exact L.
  Qed.

  Lemma x_register p w :
    find (supported e) (mc_algs p) <> None -> mc_ep p = None -> mc_exclude p = None -> mc_rk p = false ->
    (c_batch (e_cfg e) = true -> exists ak cert, batch w = Some (ak, cert) /\ ecdsa_valid pr ak = true) -> opt_ok (blob_ok (c_width (e_cfg e))) (mx_blob (mc_ext_ p)) ->
    may_act w PERM_MC (mc_cdh p) (mc_auth p) (mc_proto p) (rp_id (mc_rp p)) (mc_uv p) ->
    fst (e_up e (w_up w)) = UpConfirmed ->
    ends (process_make_credential e p) w (fun _ _ => True).
  Proof.
    intros Al Ep Ex Rk Ba Bl Ma Up. unfold process_make_credential. cbv zeta.
    apply e_bind, x_precheck; [exact (may_precheck _ _ _ _ _ _ _ Ma) | ].
    assert (exists q a, find (supported e) (mc_algs p) = Some q /\ cp_alg q = Some a) as (q & a & F & A).
    { destruct (find _ _) as [q | ] eqn:F; [ | congruence]. apply find_some in F as [_ F]. unfold supported in F.
      destruct (cp_alg q) as [a | ] eqn:A; [eauto | ]. rewrite Bool.andb_false_r in F. discriminate. }
    apply e_bind. unfold preferred_alg. rewrite F, A. apply e_ret.
    apply e_bind. unfold enterprise_requested. rewrite Ep. apply e_ret.
    apply e_bind.
    assert (UV : ends (mc_user_verification e p) w (fun _ w1 => w_p w1 = w_p w /\ w_up w1 = w_up w)).
    { unfold mc_user_verification. unfold may_act in Ma. destruct (mc_auth p).
      - apply x_check_uv; auto.
      - destruct Ma as (M1 & M2 & M3). apply e_bind, e_guard; [now rewrite M1 | ].
        apply e_bind, x_always; [exact M2 | ]. intros w1 (P1 & _ & U1). rewrite M3. apply e_bind, e_guard; [reflexivity | ].
        rewrite Rk. apply e_ret. auto. }
    eapply x_weak; [exact UV | ]. intros [] w1 [P1 U1]. cbv beta in P1, U1.
    apply e_bind. unfold mc_exclusion. rewrite Ex. apply e_ret.
    apply e_bind, x_presence; [now rewrite U1 | ]. intros w2 P2.
    apply e_bind. unfold clear_token_flags, mod_token. apply e_modify. intros w3 P3 _ _.
    apply e_bind.
    assert (MP : tot (if mx_minpin (mc_ext_ p) then
                      let* l := min_pin_length_rp_ids e in ret (mem_bytes (rp_id (mc_rp p)) l)
                    else ret false)).
    { destruct (mx_minpin _); [ | apply t_ret]. apply t_bind; [apply t_load | intro; apply t_ret]. }
    eapply x_weak; [apply MP | ]. intros minpin w4 B4. cbv beta in B4.
    apply e_bind. rewrite Rk. apply e_ret.
    apply e_bind. unfold new_key. apply e_bind, x_draw. intros i w5 (P5 & _). apply e_ret.
    assert (KV : key_valid e (mkPriv a (e_rnd e i 32)) = true).
    { unfold key_valid. cbn. destruct a; [apply Valid | reflexivity]. }
    apply e_bind. unfold mc_create. rewrite Rk. apply x_internal, x_wrap.
    { split.
      - apply (key_for_ok e R p). exists i, q. cbn. auto.
      - split; [apply (ok_sha_len _ K) | apply (ok_sha_bytes _ K)].
      - intros b0 Hx. cbn in Hx. destruct (mx_blob _) as [y | ] eqn:E; [ | discriminate].
        destruct (_ <=? _)%nat; [ | discriminate]. injection Hx as <-. now apply Bl. }
    { intros b0 Hx. cbn in Hx. destruct (mx_blob _) as [y | ] eqn:E; [ | discriminate].
      destruct (_ <=? _)%nat eqn:L; [ | discriminate]. injection Hx as <-. apply Nat.leb_le in L.
      pose proof (ok_cred_blob _ C). lia. }
    intros id w6 L B6.
    apply e_bind. eapply x_weak; [apply (t_bind _ _ (t_load _)); intro; apply t_ret | ]. intros ad w7 B7. cbv beta in B7.
    apply e_bind, e_guard; [now rewrite L | ].
    apply e_bind. unfold get_pub_key. rewrite KV. apply e_ret.
    apply e_bind. eapply x_weak; [apply t_write, cose_written | ]. intros pub w8 B8. cbv beta in B8.
    apply e_bind.
    match goal with |- ends ?m w8 _ => assert (EX : tot m) end.
    { destruct (_ || _)%bool; [ | apply t_ret]. apply t_bind.
      - destruct minpin; [apply t_bind; [apply t_load | intro; apply t_ret] | apply t_ret].
      - intro ml. apply t_write, options_written. repeat constructor; cbn [fst snd]; auto; intros v Hv.
        + destruct (mx_blob _); [ | discriminate]. injection Hv as <-. reflexivity.
        + destruct (mx_protect _); [ | discriminate]. destruct (effective_policy _ _) as [[] | ]; [ | | | discriminate]; injection Hv as <-; reflexivity.
        + destruct (mx_hmac _); [ | discriminate]. injection Hv as <-. reflexivity.
        + destruct ml; [ | discriminate]. injection Hv as <-. reflexivity. }
    eapply x_weak; [apply EX | ]. intros ext w9 B9. cbv beta in B9.
    apply e_bind. unfold mc_attest. destruct (c_batch (e_cfg e)).
    - destruct (Ba eq_refl) as (ak & cert & Bw & Va).
      assert (B : batch w9 = Some (ak, cert)) by (unfold batch in *; congruence).
      apply e_bind.
      assert (G : ends (get_attestation e Batch) w9 (fun r _ => r = Some (ak, cert))).
      { unfold get_attestation, ends, map_status, load. rewrite NF. eexists _, _. split; [reflexivity | exact B]. }
      eapply x_weak; [exact G | ]. cbv beta. intros r w10 ->. rewrite Va. now apply e_ret, e_ret.
    - apply e_bind. unfold sign_and_encode. rewrite KV. now apply e_ret, e_ret, e_ret.
  Qed.

  (** ** Login *)
  Lemma x_find rp id w (Q : option cred -> world -> Prop) :
    ids_short (w_p w) -> length id = 241%nat ->
    (forall w1, (forall m0, p_master (w_p w) = Some m0 -> p_master (w_p w1) = Some m0) -> w_up w1 = w_up w -> Q None w1) ->
    ends (find_credential e rp id) w Q.
  Proof.
    intros I L H.
    assert (G : ends (iter_credentials e) w (fun l w1 => l = p_creds (w_p w) /\
      (forall m0, p_master (w_p w) = Some m0 -> p_master (w_p w1) = Some m0) /\ w_up w1 = w_up w)).
    { unfold iter_credentials. apply e_bind. unfold wrap_key. apply e_bind, x_master. intros m w1 M1 M2 C1 _ U1. apply e_ret.
      apply x_load. intros w2 (P2 & _ & U2). split; [exact C1 | ]. split; [ | congruence].
      intros m0 E. rewrite P2, M1. f_equal. now apply M2. }
    destruct G as (l & w1 & E & -> & M & U). exists None, w1. split; [ | now apply H].
    unfold find_credential, find_credential_item, bind. rewrite E.
    assert (Z : filter (fun x => bytes_eqb (cr_id (snd x)) id) (p_creds (w_p w)) = []).
    { clear -I L. unfold ids_short in I. induction I as [ | x r Hx _ IH]; [reflexivity | ]. cbn [filter].
      destruct (bytes_eqb (cr_id (snd x)) id) eqn:B; [ | exact IH]. apply bytes_eqb_eq in B. rewrite B, L in Hx. discriminate. }
    rewrite Z. reflexivity.
  Qed.

  Lemma x_unwrap id s w (Q : option source -> world -> Prop) :
    stands_for e (w_p w) id s -> (forall w1, w_up w1 = w_up w -> Q (Some s) w1) ->
    ends (unwrap_credential e id (so_rp_hash s)) w Q.
  Proof.
    intros (m & M & L & U) H. unfold unwrap_credential. rewrite L.
    change (241 <? CBOR_CREDENTIAL_ID_SIZE)%nat with false. cbv iota.
    apply e_bind, e_guard; [reflexivity | ]. apply e_bind, x_master. intros m' w1 _ Hm _ _ U1.
    rewrite (Hm m M), U, bytes_eqb_refl. now apply e_ret, H.
  Qed.

  Lemma x_login id s p ch d w :
    stands_for e (w_p w) id s -> ids_short (w_p w) -> key_valid e (so_key s) = true ->
    ga_allow p = Some [d] -> de_id d = id -> sha256 pr (ga_rp p) = so_rp_hash s ->
    listed (is_some (ga_auth p)) (so_policy s) = true -> gx_hmac (ga_ext_ p) = None ->
    may_act w PERM_GA (ga_cdh p) (ga_auth p) (ga_proto p) (ga_rp p) (ga_uv p) ->
    (ga_up p = true -> fst (e_up e (w_up w)) = UpConfirmed) ->
    ends (process_get_assertion e p ch) w (fun _ _ => True).
  Proof.
    intros S I KV A D Hh Li Hm Ma Up. unfold process_get_assertion. cbv zeta. rewrite Hm. cbn [orb andb negb].
    apply e_bind, x_precheck; [exact (may_precheck _ _ _ _ _ _ _ Ma) | ].
    apply e_bind, e_guard; [reflexivity | ]. apply e_bind.
    assert (UV : ends (ga_user_verification e p) w (fun _ w1 => w_p w1 = w_p w /\ w_up w1 = w_up w)).
    { unfold ga_user_verification. unfold may_act in Ma. destruct (ga_auth p).
      - apply x_check_uv; auto.
      - destruct Ma as (M1 & M2 & M3). apply e_bind, e_guard; [now rewrite M1 | ].
        destruct (ga_up p); [ | apply e_ret; auto].
        apply e_bind, x_always; [exact M2 | ]. intros w1 (P1 & _ & U1). rewrite M3. apply e_guard; auto. }
    eapply x_weak; [exact UV | ]. intros [] w1 [P1 U1]. cbv beta in P1, U1.
    apply e_bind. unfold ga_select. rewrite A. apply e_bind. cbn [first_listed]. apply e_bind.
    unfold listed_credential. apply e_bind, x_find; [now rewrite P1 | rewrite D; destruct S as (? & _ & SL & _); exact SL | ]. intros w2 M2 U2.
    apply e_bind. rewrite D, Hh. apply (x_unwrap id s).
    { destruct S as (m & M & X). exists m. split; [ | exact X]. apply M2. now rewrite P1. }
    intros w3 U3. change (match ga_auth p with Some _ => true | None => false end) with (is_some (ga_auth p)). rewrite Li.
    apply e_ret. apply e_ret. apply e_ret. cbv iota beta.
    apply e_bind. eapply x_weak with (Q1 := fun _ _ => True).
    { destruct (ga_up p) eqn:Ep; [ | now apply e_ret]. apply e_bind, x_presence; [rewrite U3, U2, U1; now apply Up | ].
      intros w4 _. now apply e_modify. }
    intros [] w4 _. apply e_bind. eapply x_weak with (Q1 := fun _ _ => True).
    { unfold increment_counter. destruct (c_counter _); [ | now apply e_ret].
      eapply x_weak; [ | intros; exact Logic.I]. apply (t_bind _ _ (t_draw 4)). intro b. unfold incr_global_signature_counter.
      apply (t_bind _ _ (t_load _)). intro. apply t_store. reflexivity. }
    intros [] w5 _.
    apply e_bind. eapply x_weak; [apply (t_bind _ _ (t_load _)); intro; apply t_ret | ]. intros ad w6 _.
    apply e_bind, e_ret. apply e_bind. unfold assertion_response. cbn [ai_ext ai_uv ai_auth_data ai_cdh]. rewrite Hm. cbn [orb].
    apply e_bind.
    match goal with |- ends ?m w6 _ => assert (EX : tot m) end.
    { destruct (gx_blob _); [ | apply t_ret]. apply t_bind; [apply t_ret | ]. intro o.
      apply t_write, options_written. repeat constructor; cbn [fst snd]; intros v Hv.
      - injection Hv as <-. reflexivity.
      - destruct o; [ | discriminate]. injection Hv as <-. reflexivity. }
    eapply x_weak; [apply EX | ]. intros ext w7 _.
    apply e_bind. unfold sign_and_encode. cbn [to_public_source cr_key]. rewrite KV. apply e_ret, e_ret, e_ret. exact Logic.I.
  Qed.

  (** ** Messages *)
  Lemma preamble_allows x cid w perm cdh auth proto rp b :
    may_act w perm cdh auth proto rp b -> (auth <> None -> elapsed_not w) ->
    exists w1, preamble x (MainHid cid) w = (Ok tt, w1) /\ w_p w1 = w_p w /\ w_up w1 = w_up w /\
      may_act w1 perm cdh auth proto rp b.
  Proof.
    intros Ma El.
    assert (G : exists w1, preamble x (MainHid cid) w = (Ok tt, w1) /\ w_p w1 = w_p w /\ w_up w1 = w_up w /\
      v_proto1 (w_v w1) = v_proto1 (w_v w) /\ v_proto2 (w_v w1) = v_proto2 (w_v w) /\
      (elapsed_not w -> v_token (w_v w1) = v_token (w_v w))).
    { assert (T : elapsed_not w -> (if (t_use (v_token (w_v w)) && is_elapsed (w_now w) (t_timer (v_token (w_v w))))%bool
        then token_init else v_token (w_v w)) = v_token (w_v w)).
      { intro N. unfold elapsed_not in N. rewrite N, Bool.andb_false_r. reflexivity. }
      unfold preamble.
      destruct (keeps x (sf_cmd (v_st (w_v (snd (get_command (snd (clear_other_channels (MainHid cid) (snd (update_timeouts w)))))))))) eqn:E.
      - eexists. split; [cbn; cbn in E; rewrite E; reflexivity | cbn; auto 10].
      - eexists. split; [cbn; cbn in E; rewrite E; reflexivity | cbn; auto 10]. }
    destruct G as (w1 & E & P & U & A1 & A2 & T). exists w1. split; [exact E | ]. split; [exact P | ]. split; [exact U | ].
    unfold may_act in *. destruct auth as [a | ]; [ | now rewrite P]. specialize (T (El ltac:(discriminate))).
    destruct Ma as (pp & X1 & X2 & X3 & X4). exists pp. rewrite P, T. split; [exact X1 | ]. split; [exact X2 | ]. split; [ | exact X4].
    destruct pp; cbn [proto_of] in *; congruence.
  Qed.
End Works.
