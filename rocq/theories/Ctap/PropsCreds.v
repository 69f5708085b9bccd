(** Property theorems C28 about resident credentials.  The specification is in Ctap/Creds.v:
    [others], [without], [cred_for], [registered], [deleted], [updated] and [cred_step]. *)
From Verif Require Import Base Facts Hid.Model U2f.Model Cbor.Model Ctap.Crypto Ctap.Types Ctap.Machine
  Ctap.Commands Ctap.Parse Ctap.System Ctap.Logic Ctap.History Ctap.Track Ctap.Pin Ctap.PinChange
  Ctap.MinPin Ctap.TokenSpec Ctap.Token Ctap.Success Ctap.Auth Ctap.Gate Ctap.Answers Ctap.TokenUse
  Ctap.Creds Ctap.Enum Ctap.Toy Ctap.ToyMore Ctap.PropsToken Ctap.PropsEnum.
From Coq Require Import String List Lia.
Import ListNotations.
Open Scope list_scope.

Notation creds w := (p_creds (w_p w)).

(** After any history, also after power loss at any point of any operation: there are at most the
    configured number of credentials, in different slots and for different accounts; and different
    creation orders, while fewer than 2^64 things have happened to the device. *)
Theorem C28_invariant : forall e h,
  (length (creds (run e h)) <= c_max_rk (e_cfg e))%nat /\
  NoDup (map fst (creds (run e h))) /\
  NoDup (map (fun x => (cr_rp (snd x), cr_user (snd x))) (creds (run e h))) /\
  ((Nlen h < 2 ^ 64)%N -> NoDup (map (fun x => cr_order (snd x)) (creds (run e h)))).
Proof.
  intros e h. pose proof (creds_now e h) as C. split; [apply (creds_bound e _ C) | ].
  destruct C as [C1 _ C3]. split; [exact C1 | ]. split; [exact C3 | ]. apply (orders e h).
Qed.
Print Assumptions C28_invariant.

(** Whatever happens to the device, complete or interrupted by power loss: the credentials stay, or
    the store moves entries around, or a CTAP2 command changes them in the one way that
    [cred_step] allows for it: a registration of a discoverable credential replaces the one of its
    account, a deletion or update concerns the one with the given ID, a reset removes all. *)
Theorem C28_change : forall e h o k,
  let l := creds (run e h) in let l' := creds (run e (h ++ [(o, k)])) in
  l' = l \/
  (exists n, o = OpCompact n /\ l' = skipn n l ++ firstn n l) \/
  (exists b cid x, o = OpMessage b (MainHid cid) /\ parse_command (e_cfg e) b = Ok x /\ cred_step e x l l').
Proof. intros e h o k. apply creds_change. Qed.
Print Assumptions C28_change.

Lemma success_creds e h b cid x r w' :
  parse_command (e_cfg e) b = Ok x ->
  run_op e (OpMessage b (MainHid cid)) (run e h) = (OutCtap (Ok r), w') ->
  cred_done e x (creds (run e h)) r (creds w').
Proof.
  intros Hx H. cbn [run_op] in H. unfold process_command, bind, lift in H. rewrite Hx in H.
  destruct (creds_message e x (MainHid cid) (run e h) (creds_now e h)) as [_ D].
  destruct (process_parsed_command e x (MainHid cid) (run e h)) as [y w1]. injection H as -> ->.
  apply (D r eq_refl). eauto.
Qed.

(** A successful registration of a discoverable credential stores it in place of the one of the same
    account, under the ID, public key and largeBlobKey that it reports; every other credential stays. *)
Theorem C28_register : forall e h b cid p r w',
  parse_command (e_cfg e) b = Ok (CMakeCredential p) -> mc_rk p = true ->
  run_op e (OpMessage b (MainHid cid)) (run e h) = (OutCtap (Ok r), w') ->
  exists c k mr pre pub post,
    cred_for e p (creds (run e h)) c /\
    creds w' = filter (fun x => negb (bytes_eqb (cr_rp (snd x)) (rp_id (mc_rp p)) &&
                                      bytes_eqb (cr_user (snd x)) (us_id (mc_user p))))
                      (creds (run e h)) ++ [(k, c)] /\
    r = RMakeCredential mr /\
    length pre = (length (sha256 (e_prims e) (rp_id (mc_rp p))) + 5)%nat /\
    cbor_write (cose_to_cbor (pub_of (e_prims e) (cr_key c))) = Some pub /\
    mr_auth_data mr = pre ++ c_aaguid (e_cfg e) ++ [0%N; Nlen (cr_id c)] ++ cr_id c ++ pub ++ post /\
    mr_lbkey mr = cr_lbkey c.
Proof.
  intros e h b cid p r w' Hx Hr H. pose proof (success_creds _ _ _ _ _ _ _ Hx H) as D.
  cbn [cred_done] in D. rewrite Hr in D. destruct D as (c & (D1 & k & D2) & mr & pre & pub & post & D3).
  exists c, k, mr, pre, pub, post. split; [exact D1 | ]. split; [exact D2 | exact D3].
Qed.
Print Assumptions C28_register.

(** A successful deletion removes the one credential with the ID; a successful update changes the
    names and icon of the user of that one, nothing else of it and of no other. *)
Theorem C28_delete : forall e h b cid p r w',
  parse_command (e_cfg e) b = Ok (CCredMgmt p) -> cm_sub_ p = CmDelete ->
  run_op e (OpMessage b (MainHid cid)) (run e h) = (OutCtap (Ok r), w') ->
  exists id k c, named_credential p = Some id /\
    filter (fun x => bytes_eqb (cr_id (snd x)) id) (creds (run e h)) = [(k, c)] /\
    creds w' = filter (fun x => negb (bytes_eqb (cr_id (snd x)) id)) (creds (run e h)).
Proof.
  intros e h b cid p r w' Hx Hs H. pose proof (success_creds _ _ _ _ _ _ _ Hx H) as D.
  unfold cred_done, cred_step in D. rewrite Hs in D. destruct D as (id & D1 & (k & c & D2) & D3). eauto 8.
Qed.
Print Assumptions C28_delete.
Theorem C28_update : forall e h b cid p r w',
  parse_command (e_cfg e) b = Ok (CCredMgmt p) -> cm_sub_ p = CmUpdate ->
  run_op e (OpMessage b (MainHid cid)) (run e h) = (OutCtap (Ok r), w') ->
  exists id d u k c, named_credential p = Some id /\ cm_data_ p = Some d /\ cd_user d = Some u /\
    filter (fun x => bytes_eqb (cr_id (snd x)) id) (creds (run e h)) = [(k, c)] /\
    creds w' = filter (fun x => negb (bytes_eqb (cr_id (snd x)) id)) (creds (run e h)) ++
      [(k, mkCred (cr_id c) (cr_key c) (cr_rp c) (cr_user c) (us_display u) (cr_policy c) (cr_order c)
                  (us_name u) (us_icon u) (cr_blob c) (cr_lbkey c))].
Proof.
  intros e h b cid p r w' Hx Hs H. pose proof (success_creds _ _ _ _ _ _ _ Hx H) as D.
  unfold cred_done, cred_step in D. rewrite Hs in D.
  destruct D as (id & d & u & D1 & D2 & D3 & k & c & D4 & D5). exists id, d, u, k, c. auto.
Qed.
Print Assumptions C28_update.

(** When the store is full, a registration for a new account fails and changes no credential,
    wherever it is interrupted. *)
Theorem C28_full : forall e h b cid p k,
  parse_command (e_cfg e) b = Ok (CMakeCredential p) -> mc_rk p = true ->
  length (creds (run e h)) = c_max_rk (e_cfg e) ->
  (forall x, In x (creds (run e h)) -> cr_rp (snd x) = rp_id (mc_rp p) -> cr_user (snd x) <> us_id (mc_user p)) ->
  (forall r, fst (run_op e (OpMessage b (MainHid cid)) (run e h)) <> OutCtap (Ok r)) /\
  creds (run e (h ++ [(OpMessage b (MainHid cid), k)])) = creds (run e h).
Proof.
  intros e h b cid p k Hx Hr Hl Hn.
  assert (O : others (rp_id (mc_rp p)) (us_id (mc_user p)) (creds (run e h)) = creds (run e h)).
  { unfold others. clear Hl. induction (creds (run e h)) as [ | x l IH]; [reflexivity | ]. cbn [filter].
    destruct (bytes_eqb (cr_rp (snd x)) (rp_id (mc_rp p)) && bytes_eqb (cr_user (snd x)) (us_id (mc_user p))) eqn:E.
    - apply Bool.andb_true_iff in E as [E1 E2]. apply bytes_eqb_eq in E1, E2. exfalso.
      apply (Hn x (or_introl eq_refl) E1 E2).
    - cbn. f_equal. apply IH. intros y Hy. apply Hn. now right. }
  assert (B : forall l', creds_ok e l' -> forall c j, l' <> creds (run e h) ++ [(j, c)]).
  { intros l' C c j ->. apply creds_bound in C. rewrite app_length in C. cbn in C. lia. }
  split.
  - intros r H. destruct (run_op e (OpMessage b (MainHid cid)) (run e h)) as [y w'] eqn:E. cbn in H. subst y.
    pose proof (success_creds _ _ _ _ _ _ _ Hx E) as D. cbn [cred_done] in D. rewrite Hr in D.
    destruct D as (c & (_ & j & D2) & _). rewrite O in D2.
    apply (B (creds w')) with (c := c) (j := j); [ | exact D2].
    pose proof (creds_now e (h ++ [(OpMessage b (MainHid cid), None)])) as C. rewrite run_app in C.
    unfold step in C. cbn [fst snd] in C. rewrite E in C. exact C.
  - pose proof (creds_now e (h ++ [(OpMessage b (MainHid cid), k)])) as C.
    destruct (creds_change e h (OpMessage b (MainHid cid)) k) as [S | [(n & S & _) | (b' & cid' & x & S & Hx' & S2)]];
      [exact S | discriminate S | ].
    injection S as <- <-. rewrite Hx in Hx'. injection Hx' as <-. destruct S2 as (_ & c & (_ & j & S2)).
    rewrite O in S2. exfalso. exact (B _ C c j S2).
Qed.
Print Assumptions C28_full.

(** The count and the number of free places that the device reports. *)
Theorem C28_count : forall e h b cid p r w',
  parse_command (e_cfg e) b = Ok (CCredMgmt p) -> cm_sub_ p = CmMetadata ->
  run_op e (OpMessage b (MainHid cid)) (run e h) = (OutCtap (Ok r), w') ->
  exists x, r = RCredMgmt (Some x) /\
    cmr_count x = Some (Nlen (creds (run e h))) /\
    cmr_remaining x = Some (N.of_nat (c_max_rk (e_cfg e)) - Nlen (creds (run e h)))%N.
Proof.
  intros e h b cid p r w' Hx Hs H. apply message_ok in H as (x & w1 & Hx' & Hp & H). rewrite Hx in Hx'.
  injection Hx' as <-. destruct (preamble_p _ _ _ _ Hp) as (P1 & _). cbn [process_fido_command] in H.
  unfold process_cred_mgmt in H.
  assert (F : forall (A : Type) (m : M status A) u y v, rel Pcr m -> m u = (y, v) -> creds v = creds u).
  { intros A m u y v R E. specialize (R u). rewrite E in R. apply fr_p in R. exact R. }
  apply bind_ok in H as (s & w2 & H2 & H). apply F in H2; [ | rel_walk].
  apply bind_ok in H as (? & w3 & H3 & H). rewrite Hs in H3. apply F in H3; [ | destruct s; rel_walk].
  apply bind_ok in H as (? & w3' & H3' & H). apply F in H3'; [ | rel_walk].
  rewrite Hs in H. apply bind_ok in H as (y & w4 & H4 & H). apply ret_ok in H as [-> ->].
  apply bind_ok in H4 as (? & w5 & H5 & H4).
  apply F in H5; [ | rel_walk].
  unfold cm_metadata in H4. apply bind_ok in H4 as (n & w6 & H6 & H4).
  apply load_ok in H6 as (-> & P6 & _).
  apply bind_ok in H4 as (m & w7 & H7 & H4). apply ret_ok in H4 as [-> ->].
  unfold remaining_credentials in H7. apply bind_ok in H7 as (n & w8 & H8 & H7).
  apply load_ok in H8 as (-> & P8 & _).
  destruct (_ <=? _)%N in H7; [ | discriminate]. apply ret_ok in H7 as [-> ->].
  eexists. split; [reflexivity | ]. cbn. rewrite P6, H5, H3', H3, H2, P1. auto.
Qed.
Print Assumptions C28_count.

(** A second registration for the same account replaces the first credential, one for another
    account does not. *)
Example C28_nonvacuous :
  map account (creds (run toy h_two)) = [(toy_rp, [1; 1]%N); (toy_rp, [2; 2]%N)] /\
  map fst (creds (run toy h_two)) = [1700; 1701]%N /\
  (let h := mc_of [1; 1]%N h_two in
   map account (creds (run toy h)) = [(toy_rp, [2; 2]%N); (toy_rp, [1; 1]%N)] /\
   map fst (creds (run toy h)) = [1701; 1700]%N /\
   map (fun x => cr_order (snd x)) (creds (run toy h)) = [2; 3]%N).
Proof. vm_compute. repeat split; reflexivity. Qed.
(** A device with room for one credential; the second registration fails. *)
Definition small : env :=
  mkEnv toy_prims (mkCfg 8 4 [] 4 false true 1 1024 1024 32 None None [] false true
    (repeat 7 16)%N None None true 64) toy_rnd (fun _ => (UpConfirmed, 1000%N)) (fun _ => None).
Example C28_full_nonvacuous :
  let h := [on (mc_msg toy_rp [1; 1]%N true None)] in
  let m := mc_msg toy_rp [2; 2]%N true None in
  length (creds (run small h)) = c_max_rk (e_cfg small) /\
  fst (run_op small (OpMessage m ch0) (run small h)) = OutCtap (Err KEY_STORE_FULL) /\
  creds (run small (h ++ [on m])) = creds (run small h) /\
  (* the same account is replaced *)
  is_ok (fst (run_op small (OpMessage (mc_msg toy_rp [1; 1]%N true None) ch0) (run small h))) = true.
Proof. vm_compute. repeat split; reflexivity. Qed.
Definition update_data (id user : bytes) (name : bytes) : value :=
  VMap [(VUnsigned 2, VMap [(text "id", VBytes id); (text "type", text "public-key")]);
        (VUnsigned 3, VMap [(text "id", VBytes user); (text "name", VText name)])].
Example C28_manage_nonvacuous :
  let h := h_two ++ [on (token_perms_msg toy_pin 4 None)] in
  let t := Some (client_token h) in
  let id := match creds (run toy h) with x :: _ => cr_id (snd x) | [] => [] end in
  let after m := creds (snd (run_op toy (OpMessage m ch0) (run toy h))) in
  map account (after (cm_msg 6 (Some (delete_data id)) t)) = [(toy_rp, [2; 2]%N)] /\
  map (fun x => (account x, cr_name (snd x))) (after (cm_msg 7 (Some (update_data id [1; 1]%N (str "Ann"))) t)) =
    [((toy_rp, [2; 2]%N), None); ((toy_rp, [1; 1]%N), Some (str "Ann"))] /\
  match answer h (cm_msg 1 None t) with
  | OutCtap (Ok (RCredMgmt (Some x))) => (cmr_count x, cmr_remaining x) = (Some 2, Some 6)%N
  | _ => False
  end.
Proof. vm_compute. repeat split; reflexivity. Qed.
