(** Property theorems C35: the protection policy of credentials. *)
From Verif Require Import Base Facts Hid.Model U2f.Model Cbor.Model Cbor.Spec Ctap.Crypto Ctap.Types Ctap.Machine
  Ctap.Commands Ctap.Parse Ctap.System Ctap.Logic Ctap.History Ctap.Track Ctap.Pin Ctap.PinChange
  Ctap.MinPin Ctap.TokenSpec Ctap.Token Ctap.Success Ctap.Auth Ctap.Gate Ctap.Answers Ctap.TokenUse
  Ctap.Creds Ctap.Enum Ctap.NoPanic Ctap.Enumerate Ctap.Reset Ctap.Keys Ctap.Protect Ctap.Seal Ctap.Stored Ctap.Sealed
  Ctap.Toy Ctap.ToyMore Ctap.PropsToken Ctap.PropsEnum Ctap.PropsCreds Ctap.PropsEnumerate Ctap.PropsSeal.
From Coq Require Import String List Lia.
Import ListNotations.
Open Scope list_scope.

(** May a credential with this policy be used: with user verification always; without, one with
    userVerificationRequired never, and one with userVerificationOptionalWithCredentialIDList if the
    request names it. *)
Definition may_use (uv named : bool) (p : option policy) : Prop :=
  uv = true \/
  match p with
  | Some UvRequired => False
  | Some UvOptionalWithList => named = true
  | _ => True
  end.

(** The key [k] and policy [p] are those of a credential for [rp] with this ID: one that the device
    stores, or one that the ID itself holds, sealed under the device's keys. *)
Definition holds (e : env) (stored : list (N * cred)) (after : world) (rp id : bytes) (k : priv) (p : option policy) : Prop :=
  (exists n c, In (n, c) stored /\ cr_rp c = rp /\ cr_id c = id /\ cr_key c = k /\ cr_policy c = p) \/
  (exists m s, p_master (w_p after) = Some m /\ so_key s = k /\ so_policy s = p /\
     unwrap_pure (e_prims e) (c_ed25519 (e_cfg e)) (c_width (e_cfg e)) m id (sha256 (e_prims e) rp) = Some (Some s)).

Lemma listed_may uv p : listed uv p = true -> may_use uv true p.
Proof. unfold listed, may_use. destruct uv; [auto | ]. cbn [orb]. destruct p as [[] | ]; try discriminate; auto. Qed.

(** Every assertion: the credential it uses allows it.  The UV flag of the answer tells whether the
    user was verified (C34). *)
Theorem C35_assertion : forall e h b cid p g w',
  prims_ok (e_prims e) ->
  parse_command (e_cfg e) b = Ok (CGetAssertion p) ->
  run_op e (OpMessage b (MainHid cid)) (run e h) = (OutCtap (Ok (RGetAssertion g)), w') ->
  exists k pol, holds e (creds (run e h)) w' (ga_rp p) (gr_id g) k pol /\
    gr_sig g = sign (e_prims e) k (gr_auth_data g ++ ga_cdh p) /\
    may_use (uv_bit (gr_auth_data g))
            (match ga_allow p with Some l => existsb (fun d => bytes_eqb (de_id d) (gr_id g)) l | None => false end) pol.
Proof.
  intros e h b cid p g w' K Hx H.
  assert (U : uv_bit (gr_auth_data g) = is_some (ga_auth p)).
  { destruct (ga_answer _ _ _ _ _ _ H) as (p' & w1 & Hx' & _ & D). rewrite Hx in Hx'. injection Hx' as <-.
    apply (ga_bits _ _ _ _ _ K D). }
  rewrite U. destruct (ga_allow p) as [l | ] eqn:Ha.
  - destruct (message_any e b cid _ _ _ _ Hx H) as (w1 & _ & P & F). cbn [process_fido_command] in F.
    destruct (ga_listed e p _ w1 g w' l Ha F) as (c & d & I & G1 & G2 & G3 & _ & G4 & Q).
    exists (cr_key c), (cr_policy c). split; [ | split; [exact G3 | ]].
    + destruct Q as [(k & Q1 & Q2 & Q3) | (s & (m & M & V) & ->)].
      * left. exists k, c. rewrite P in Q1. rewrite G1. auto.
      * right. exists m, s. rewrite G1. auto.
    + assert (E : existsb (fun d0 => bytes_eqb (de_id d0) (gr_id g)) l = true).
      { apply existsb_exists. exists d. split; [exact I | ]. apply bytes_eqb_eq. auto. }
      rewrite E. now apply listed_may.
  - destruct (C36_first e h b cid p _ w' Hx Ha H) as (k & c & rest & g' & E & Eg & G1 & G2 & _ & _).
    injection Eg as <-. assert (I : In (k, c) (ranked (ga_rp p) (is_some (ga_auth p)) (creds (run e h)))) by (rewrite E; now left).
    apply in_ranked in I as [I V]. unfold usable in V. cbn [snd] in V. apply Bool.andb_true_iff in V as [V1 V2].
    apply bytes_eqb_eq in V1. exists (cr_key c), (cr_policy c). split; [ | split; [exact G2 | ]].
    + left. exists k, c. auto.
    + unfold may_use. destruct (is_some (ga_auth p)); [now left | right]. cbn [orb] in V2.
      destruct (cr_policy c) as [[] | ]; try discriminate; exact Logic.I.
Qed.
Print Assumptions C35_assertion.

(** Without an allow list the answer tells how many credentials there are: it counts those that may
    be used only. *)
Theorem C35_number : forall e h b cid p g w' n,
  prims_ok (e_prims e) ->
  parse_command (e_cfg e) b = Ok (CGetAssertion p) -> ga_allow p = None ->
  run_op e (OpMessage b (MainHid cid)) (run e h) = (OutCtap (Ok (RGetAssertion g)), w') ->
  gr_number g = Some n -> uv_bit (gr_auth_data g) = false ->
  n = Nlen (filter (fun x => bytes_eqb (cr_rp (snd x)) (ga_rp p) &&
                             match cr_policy (snd x) with None | Some UvOptional => true | _ => false end)
                   (creds (run e h))).
Proof.
  intros e h b cid p g w' n K Hx Ha H Hn Hu.
  assert (U : uv_bit (gr_auth_data g) = is_some (ga_auth p)).
  { destruct (ga_answer _ _ _ _ _ _ H) as (p' & w1 & Hx' & _ & D). rewrite Hx in Hx'. injection Hx' as <-.
    apply (ga_bits _ _ _ _ _ K D). }
  destruct (C36_first e h b cid p _ w' Hx Ha H) as (k & c & rest & g' & E & Eg & _ & _ & _ & N).
  injection Eg as <-. rewrite <- U, Hu in N. rewrite Hn in N. destruct rest; [discriminate | ]. injection N as ->.
  unfold Nlen. f_equal. rewrite <- (Permutation.Permutation_length (proj1 (ranked_ok (ga_rp p) false (creds (run e h))))).
  reflexivity.
Qed.
Print Assumptions C35_number.

(** The assertions that follow with getNextAssertion. *)
Theorem C35_next : forall e h1 b cid p h2 b2 g,
  parse_command (e_cfg e) b = Ok (CGetAssertion p) -> ga_allow p = None ->
  Forall (fun z => snd z = None /\ harmless e KAssertion (MainHid cid) (fst z)) h2 ->
  parse_command (e_cfg e) b2 = Ok CGetNextAssertion ->
  fst (run_op e (OpMessage b2 (MainHid cid)) (run e (h1 ++ (OpMessage b (MainHid cid), None) :: h2))) =
    OutCtap (Ok (RGetNextAssertion g)) ->
  exists n c, In (n, c) (creds (run e h1)) /\ cr_rp c = ga_rp p /\ cr_id c = gr_id g /\
    gr_sig g = sign (e_prims e) (cr_key c) (gr_auth_data g ++ ga_cdh p) /\
    may_use (is_some (ga_auth p)) false (cr_policy c).
Proof.
  intros e h1 b cid p h2 b2 g Hx Ha Hq Hx2 Hy.
  pose proof (C36_next e h1 b cid p h2 b2 _ Hx Ha Hq Hx2 Hy) as D.
  destruct (nth_error _ _) as [[k c] | ] eqn:E; [ | discriminate].
  destruct (D _ eq_refl) as (g' & Eg & G1 & G2 & _). injection Eg as <-.
  apply nth_error_In, in_ranked in E as [I V]. unfold usable in V. cbn [snd] in V. apply Bool.andb_true_iff in V as [V1 V2].
  apply bytes_eqb_eq in V1. exists k, c. do 4 (split; [auto | ]).
  unfold may_use. destruct (is_some (ga_auth p)); [now left | right]. cbn [orb] in V2.
  destruct (cr_policy c) as [[] | ]; try discriminate; exact Logic.I.
Qed.
Print Assumptions C35_next.

(** A registration that is refused because of the exclude list reveals a credential that the list
    names and that may be used: if the request has no valid token, one without
    userVerificationRequired. *)
Theorem C35_excluded : forall e h b cid p w',
  parse_command (e_cfg e) b = Ok (CMakeCredential p) ->
  run_op e (OpMessage b (MainHid cid)) (run e h) = (OutCtap (Err CREDENTIAL_EXCLUDED), w') ->
  exists l id k pol uv, mc_exclude p = Some l /\ In id (map de_id l) /\
    holds e (creds (run e h)) w' (rp_id (mc_rp p)) id k pol /\ may_use uv true pol /\
    (uv = true -> exists sg pp, mc_auth p = Some sg /\ mc_proto p = Some pp /\
       authorised (e_prims e) (w_log (run e h)) (w_now (run e h)) pp (mc_cdh p) sg 1
                  (fun g => g = None \/ g = Some (rp_id (mc_rp p)))).
Proof.
  intros e h b cid p w' Hx H. destruct (message_any e b cid _ _ _ _ Hx H) as (w1 & Hp & P & F).
  cbn [process_fido_command] in F.
  destruct (mc_excluded e p w1 w' F) as (A & l & d & c & H1 & H2 & H3 & H4 & Q).
  exists l, (de_id d), (cr_key c), (cr_policy c), (is_some (mc_auth p)). split; [exact H1 | ].
  split; [now apply in_map | ]. split; [ | split; [now apply listed_may | ]].
  - destruct Q as [(k & Q1 & Q2 & Q3) | (s & (m & M & V) & ->)].
    + left. exists k, c. rewrite P in Q1. auto.
    + right. exists m, s. auto.
  - intro E. destruct (mc_auth p) as [sg | ] eqn:E'; [ | discriminate]. destruct (A sg eq_refl) as (pp & A1 & A2).
    exists sg, pp. split; [reflexivity | ]. split; [exact A1 | ].
    eapply uv_authorised; [apply reachable_tok | exact Hp | exact A2].
Qed.
Print Assumptions C35_excluded.

(** CTAP1 has no user verification: an authentication that succeeds, or that tells that a key handle
    is valid by asking for presence, is for a key handle whose policy allows it. *)
Theorem C35_u2f : forall e h b c a kh fl y w',
  u2f_parse b = Ok (U2fAuthenticate c a kh fl) ->
  run_op e (OpU2f b) (run e h) = (OutU2f y, w') ->
  (exists r, y = Ok r) \/ (fl = CheckOnly /\ y = Err SW_COND_USE_NOT_SATISFIED) ->
  exists m s, p_master (w_p w') = Some m /\
    unwrap_pure (e_prims e) (c_ed25519 (e_cfg e)) (c_width (e_cfg e)) m kh a = Some (Some s) /\
    may_use false true (so_policy s).
Proof.
  intros e h b c a kh fl y w' Hx H Hy. cbn [run_op] in H.
  destruct (u2f_process e b (run e h)) as [y0 w0] eqn:E. injection H as -> ->.
  assert (G : exists w1, u2f_authenticate e c a kh fl w1 = (y, w')).
  { unfold u2f_process in E. destruct Hy as [(r & ->) | (-> & ->)].
    - apply bind_ok in E as (? & ? & _ & E). apply bind_ok in E as (? & ? & _ & E).
      apply bind_ok in E as (? & ? & E1 & E). apply lift_ok in E1 as [E1 ->]. rewrite Hx in E1. injection E1 as <-.
      apply bind_ok in E as (? & ? & _ & E). eauto.
    - apply bind_err in E as [E | (al & ? & _ & E)].
      { unfold to_sw, map_status in E. destruct (has_always_uv e (run e h)) as [[ | []] ?]; discriminate. }
      apply bind_err in E as [E | (? & ? & _ & E)]; [unfold guard in E; destruct (negb al); discriminate | ].
      apply bind_err in E as [E | (? & ? & E1 & E)]; [unfold lift in E; rewrite Hx in E; discriminate | ].
      apply lift_ok in E1 as [E1 ->]. rewrite Hx in E1. injection E1 as <-.
      apply bind_err in E as [E | (? & ? & _ & E)]; [discriminate | ]. eauto. }
  destruct G as (w1 & G). unfold u2f_authenticate in G.
  assert (S : exists o w2, to_sw SW_WRONG_DATA (unwrap_credential e kh a) w1 = (Ok o, w2) /\
    match (match o with Some s => if listed false (so_policy s) then Some s else None | None => None end) with
    | None => False | Some s => fr Pmaster w2 w' end).
  { destruct (to_sw SW_WRONG_DATA (unwrap_credential e kh a) w1) as [[o | er] w2] eqn:Q.
    2: { unfold bind in G. rewrite Q in G. injection G as <- _. destruct Hy as [(r & Hy) | (_ & Hy)]; [discriminate | ].
         injection Hy as ->. unfold to_sw, map_status in Q. destruct (unwrap_credential e kh a w1) as [[ | []] ?]; discriminate. }
    exists o, w2. split; [reflexivity | ]. unfold bind at 1 in G. rewrite Q in G.
    destruct (match o with Some _ => _ | None => None end) as [s | ].
    - match type of G with ?m w2 = _ => assert (R : rel Pmaster m) by rel_walk end.
      specialize (R w2). now rewrite G in R.
    - injection G as <- _. destruct Hy as [(r & Hy) | (_ & Hy)]; discriminate. }
  destruct S as (o & w2 & Q & S). destruct o as [s | ]; [ | contradiction].
  destruct (listed false (so_policy s)) eqn:L; [ | contradiction].
  apply map_status_ok, unwrap_credential_ok in Q as (m & M & V). exists m, s.
  split; [exact (fr_p _ _ _ S m M) | ]. split; [exact V | now apply listed_may].
Qed.
Print Assumptions C35_u2f.

(** The policy of a new credential is the stronger of the one requested and the one that the device
    is configured with.  Policies in the order of the protection that they give. *)
Definition level (p : option policy) : nat :=
  match p with Some UvRequired => 3 | Some UvOptionalWithList => 2 | _ => 1 end.
Theorem C35_created : forall e h b cid p mr w',
  cfg_ok (e_cfg e) -> prims_ok (e_prims e) -> rnd_ok e -> bytes_ok b = true ->
  parse_command (e_cfg e) b = Ok (CMakeCredential p) ->
  run_op e (OpMessage b (MainHid cid)) (run e h) = (OutCtap (Ok (RMakeCredential mr)), w') ->
  exists id pub k pol, registration_reports e mr id pub /\
    cbor_write (cose_to_cbor (pub_of (e_prims e) k)) = Some pub /\
    holds e (creds w') w' (rp_id (mc_rp p)) id k pol /\
    level pol = Nat.max (level (mx_protect (mc_ext_ p))) (level (c_protect (e_cfg e))).
Proof.
  intros e h b cid p mr w' C K R Ob Hx H.
  assert (LV : level (effective_policy e (mx_protect (mc_ext_ p))) = Nat.max (level (mx_protect (mc_ext_ p))) (level (c_protect (e_cfg e)))).
  { unfold effective_policy. destruct (mx_protect (mc_ext_ p)) as [[] | ], (c_protect (e_cfg e)) as [[] | ]; reflexivity. }
  destruct (mc_rk p) eqn:Hr.
  - destruct (C28_register e h b cid p _ w' Hx Hr H) as (c & k & mr' & pre & pub & post & F & Hc & E & L & Pb & A & _).
    injection E as <-. exists (cr_id c), pub, (cr_key c), (cr_policy c).
    split; [exists pre, post; split; [rewrite L, (ok_sha_len _ K); reflexivity | exact A] | ]. split; [exact Pb | ].
    split; [ | now rewrite (cf_policy _ _ _ _ F)]. left. exists k, c. rewrite Hc. split; [apply in_app_iff; right; now left | ].
    split; [apply (cf_rp _ _ _ _ F) | auto].
  - destruct (message_any e b cid _ _ _ _ Hx H) as (w0 & _ & _ & F). cbn [process_fido_command] in F.
    destruct (parse_command_body _ _ _ C Ob Hx) as (v & Ov & Pv).
    destruct (parse_mc_ok _ _ _ _ Ov Pv) as (_ & _ & Hb).
    destruct (mc_sealed e C K R p w0 _ w' Hr Hb F) as (mr' & id & s & pre & pub & post & E & S & _ & S1 & S2 & _ & L & Pb & A).
    injection E as <-. exists id, pub, (so_key s), (so_policy s).
    split; [exists pre, post; split; [rewrite L, (ok_sha_len _ K); reflexivity | exact A] | ]. split; [exact Pb | ].
    split; [ | now rewrite S2]. right. destruct S as (m & M & _ & U). exists m, s. split; [exact M | ]. do 2 (split; [reflexivity | ]).
    rewrite U, S1. assert (B : bytes_eqb (sha256 (e_prims e) (rp_id (mc_rp p))) (sha256 (e_prims e) (rp_id (mc_rp p))) = true) by now apply bytes_eqb_eq.
    now rewrite B.
Qed.
Print Assumptions C35_created.

(** Registrations at every level and requests for them with and without verification. *)
Definition mc_level_msg (lv : N) (rk : bool) (token : option bytes) : bytes :=
  message 1 ([(1%N, VBytes cdh0); (2%N, VMap [(text "id", VText toy_rp)]); (3%N, VMap [(text "id", VBytes [lv])]);
              (4%N, VArray [VMap [(text "alg", VNegative (-7)); (text "type", text "public-key")]]);
              (6%N, VMap [(text "credProtect", VUnsigned lv)]);
              (7%N, VMap [(text "rk", VSimple (if rk then STrue else SFalse))])] ++ with_auth 8 9 token cdh0).
Definition made_id (h : history) (m : bytes) : bytes := new_id (answer h m).
Definition again (h : history) : history := h ++ [on (token_perms_msg toy_pin 3 (Some toy_rp))].
Definition mc_at (lv : N) (h : history) : bytes := mc_level_msg lv true (Some (client_token (again h))).
Definition h_l3 : history := again [on (set_pin_msg toy_pin)] ++ [on (mc_at 3 [on (set_pin_msg toy_pin)])].
Definition h_l2 : history := again h_l3 ++ [on (mc_at 2 h_l3)].
Definition id3 : bytes := made_id (again [on (set_pin_msg toy_pin)]) (mc_at 3 [on (set_pin_msg toy_pin)]).
Definition id2 : bytes := made_id (again h_l3) (mc_at 2 h_l3).
Example C35_nonvacuous :
  map (fun x => cr_policy (snd x)) (creds (run toy h_l2)) = [Some UvRequired; Some UvOptionalWithList] /\
  map (fun x => cr_id (snd x)) (creds (run toy h_l2)) = [id3; id2] /\
  answer h_l2 (ga_msg toy_rp true None) = OutCtap (Err NO_CREDENTIALS) /\
  answer h_l2 (ga_list_msg toy_rp [id3] None) = OutCtap (Err NO_CREDENTIALS) /\
  is_ok (answer h_l2 (ga_list_msg toy_rp [id3; id2] None)) = true /\
  is_ok (answer (again h_l2) (ga_list_msg toy_rp [id3] (Some (client_token (again h_l2))))) = true /\
  match answer (again h_l2) (ga_msg toy_rp true (Some (client_token (again h_l2)))) with
  | OutCtap (Ok (RGetAssertion g)) => gr_number g = Some 2%N
  | _ => False
  end.
Proof. vm_compute. repeat split; reflexivity. Qed.
(** The exclude list and CTAP1. *)
Definition mc_exclude_msg (ids : list bytes) : bytes :=
  message 1 ([(1%N, VBytes cdh0); (2%N, VMap [(text "id", VText toy_rp)]); (3%N, VMap [(text "id", VBytes [9%N])]);
              (4%N, VArray [VMap [(text "alg", VNegative (-7)); (text "type", text "public-key")]]);
              (5%N, VArray (map (fun id => VMap [(text "id", VBytes id); (text "type", text "public-key")]) ids))]).
Definition kh3 : bytes := made_id [] (mc_level_msg 3 false None).
Definition h_kh3 : history := [on (mc_level_msg 3 false None)].
Definition check_msg (kh : bytes) : bytes := u2f_auth_msg 7 kh.
Example C35_excluded_nonvacuous :
  answer h_l2 (mc_exclude_msg [id2]) = OutCtap (Err CREDENTIAL_EXCLUDED) /\
  is_ok (answer h_l2 (mc_exclude_msg [id3])) = true /\
  u2f_answer h_kh3 (check_msg kh3) = OutU2f (Err SW_WRONG_DATA) /\
  u2f_answer h_kh (check_msg toy_kh) = OutU2f (Err SW_COND_USE_NOT_SATISFIED).
Proof. vm_compute. repeat split; reflexivity. Qed.
