(** Property theorems C36 and C37: what the enumerations return. *)
From Verif Require Import Base Facts Hid.Model U2f.Model Cbor.Model Ctap.Crypto Ctap.Types Ctap.Machine
  Ctap.Commands Ctap.Parse Ctap.System Ctap.Logic Ctap.History Ctap.Track Ctap.Pin Ctap.PinChange
  Ctap.MinPin Ctap.TokenSpec Ctap.Token Ctap.Success Ctap.Auth Ctap.Gate Ctap.Answers Ctap.TokenUse
  Ctap.Creds Ctap.Enum Ctap.NoPanic Ctap.Enumerate Ctap.Toy Ctap.ToyMore Ctap.PropsToken Ctap.PropsEnum
  Ctap.PropsCreds.
From Coq Require Import String List Lia Permutation Sorting.Sorted.
Import ListNotations.
Open Scope list_scope.

(** ** The state after a start and what follows it *)
Lemma run_split e h1 y h2 : run e (h1 ++ y :: h2) = fold_left (step e) h2 (step e (run e h1) y).
Proof. unfold run. rewrite fold_left_app. reflexivity. Qed.

Lemma msg_run e b ch w x : parse_command (e_cfg e) b = Ok x ->
  run_op e (OpMessage b ch) w = (OutCtap (fst (process_parsed_command e x ch w)), snd (process_parsed_command e x ch w)).
Proof.
  intro H. cbn [run_op]. unfold process_command, bind, lift. rewrite H.
  destruct (process_parsed_command e x ch w). reflexivity.
Qed.

Section Uses.
  Variables (e : env) (h1 : history) (b : bytes) (x : command) (k : kind) (cid : bytes).
  Notation ch := (MainHid cid).
  Notation l := (creds (run e h1)).
  Hypothesis Hx : parse_command (e_cfg e) b = Ok x.
  Hypothesis Hb : begins k x.

  Lemma start_answer r w' : run_op e (OpMessage b ch) (run e h1) = (OutCtap (Ok r), w') ->
    first_answer e x l (Ok r) w'.
  Proof.
    rewrite (msg_run _ _ _ _ _ Hx). intro H.
    pose proof (begin_message e l (creds_now e h1) k x cid Hb (run e h1) eq_refl) as [B _].
    destruct (process_parsed_command e x ch (run e h1)) as [y w1]. injection H as -> ->. exact B.
  Qed.
  Variables (h2 : history) (b2 : bytes) (x2 : command).
  Hypothesis Hq : quiet e k cid h2.
  Hypothesis Hx2 : parse_command (e_cfg e) b2 = Ok x2.
  Hypothesis Hk2 : continues k x2.
  Notation now_ := (run e (h1 ++ (OpMessage b ch, None) :: h2)).
  Lemma next_answer : exists y, fst (run_op e (OpMessage b2 ch) now_) = OutCtap y /\
    (continued e x l (S (commands e h2)) y \/ y = Err NOT_ALLOWED).
  Proof.
    rewrite run_split, (msg_run _ _ _ _ _ Hx2).
    unfold step at 2. cbn [fst snd]. rewrite (msg_run _ _ _ _ _ Hx). cbn [fst snd].
    pose proof (begin_message e l (creds_now e h1) k x cid Hb (run e h1) eq_refl) as (_ & C1 & B).
    destruct (process_parsed_command e x ch (run e h1)) as [y1 w1]. cbn [fst snd] in *.
    destruct B as [B | (t & Ht & A)].
    - pose proof (dead_history e k cid w1 h2 Hq B) as D.
      destruct (dead_step e k cid (OpMessage b2 ch) (fold_left (step e) h2 w1)) as (_ & _ & _ & D2).
      + cbn [harmless]. rewrite Hx2. auto.
      + exact D.
      + cbn [inc] in D2. rewrite Hx2 in D2. specialize (D2 eq_refl).
        rewrite (msg_run _ _ _ _ _ Hx2) in D2.
        destruct (process_parsed_command e x2 ch (fold_left (step e) h2 w1)) as [y w2]. cbn [fst] in *.
        exists y. split; [reflexivity | ]. right. now injection D2.
    - destruct (live_history e l (creds_now e h1) k x cid Hb w1 h2 t Hq A) as [_ [A2 | (P2 & S2 & _)]].
      + destruct (next_step e l (creds_now e h1) x k ch _ x2 cid t _ Hb eq_refl Hk2 A2) as [H1 H2].
        destruct (process_parsed_command e x2 ch (fold_left (step e) h2 w1)) as [y w2]. cbn [fst snd] in *.
        exists y. split; [reflexivity | ]. destruct (t <=? w_now (fold_left (step e) h2 w1))%N eqn:Et.
        * right. apply H1. lia.
        * left. apply H2. lia.
      + destruct (dead_step e k cid (OpMessage b2 ch) (fold_left (step e) h2 w1)) as (_ & _ & _ & D2).
        * cbn [harmless]. rewrite Hx2. auto.
        * exact S2.
        * cbn [inc] in D2. rewrite Hx2 in D2. specialize (D2 eq_refl).
          rewrite (msg_run _ _ _ _ _ Hx2) in D2.
          destruct (process_parsed_command e x2 ch (fold_left (step e) h2 w1)) as [y w2]. cbn [fst] in *.
          exists y. split; [reflexivity | ]. right. now injection D2.
  Qed.
  (** In time, after a start that left something to enumerate. *)
  Lemma next_in_time r w' : run_op e (OpMessage b ch) (run e h1) = (OutCtap (Ok r), w') -> st w' <> stateful_clear ->
    (w_now now_ < w_now (run e h1) + 30000)%N ->
    exists y, fst (run_op e (OpMessage b2 ch) now_) = OutCtap y /\ continued e x l (S (commands e h2)) y.
  Proof.
    rewrite run_split, (msg_run _ _ _ _ _ Hx2), (msg_run _ _ _ _ _ Hx).
    unfold step at 2 4. cbn [fst snd]. rewrite (msg_run _ _ _ _ _ Hx). cbn [fst snd].
    pose proof (begin_message e l (creds_now e h1) k x cid Hb (run e h1) eq_refl) as (_ & C1 & B).
    destruct (process_parsed_command e x ch (run e h1)) as [y1 w1]. cbn [fst snd] in *.
    intros H Hs Ht. injection H as -> ->. destruct B as [B | (t & Ht' & A)]; [contradiction | ].
    destruct (live_history e l (creds_now e h1) k x cid Hb w' h2 t Hq A) as [_ [A2 | (P2 & S2 & N2)]].
    - destruct (next_step e l (creds_now e h1) x k ch _ x2 cid t _ Hb eq_refl Hk2 A2) as [H1 H2].
      destruct (process_parsed_command e x2 ch (fold_left (step e) h2 w')) as [y w2]. cbn [fst snd] in *.
      exists y. split; [reflexivity | ]. apply H2. lia.
    - lia.
  Qed.
End Uses.

(** ** C36 *)

(** What is enumerated: [ranked rp uv l], the discoverable credentials of the RP that may be used
    without a list, newest first.  The creation numbers of a device are pairwise different, and a
    new credential has a greater one than all others. *)
Theorem C36_ranked : forall e h rp uv,
  let l := creds (run e h) in let L := ranked rp uv l in
  (forall x, In x L <-> In x l /\ cr_rp (snd x) = rp /\
     (uv = true \/ match cr_policy (snd x) with None | Some UvOptional => True | _ => False end)) /\
  NoDup L /\
  ((Nlen h < 2 ^ 64)%N ->
   forall i j x y, nth_error L i = Some x -> nth_error L j = Some y -> (i < j)%nat ->
     (cr_order (snd y) < cr_order (snd x))%N).
Proof.
  intros e h rp uv l L. pose proof (creds_now e h) as C. destruct (ranked_ok rp uv l) as [P S].
  split; [ | split].
  - intro x. unfold L. rewrite in_ranked. unfold usable.
    rewrite Bool.andb_true_iff, Bool.orb_true_iff, bytes_eqb_eq.
    destruct (cr_policy (snd x)) as [[] | ]; intuition; discriminate.
  - apply (Permutation_NoDup P). apply NoDup_filter. destruct C as [C _ _]. eapply NoDup_map_inv, C.
  - intro Hh. destruct (orders e h) as [_ O]. specialize (O Hh). fold l in O.
    assert (ND : NoDup (map (fun z => cr_order (snd z)) L)).
    { eapply Permutation_NoDup; [apply Permutation_map, P | ]. revert O. clear. unfold order_of.
      induction l as [ | z l IH]; cbn; intro O; [constructor | ]. inversion_clear O as [ | ? ? O1 O2].
      destruct (usable rp uv z); cbn; [constructor | ]; auto. intro Hin. apply O1.
      apply in_map_iff in Hin as (z' & E & Hz). apply filter_In in Hz as [Hz _]. apply in_map_iff. eauto. }
    fold L in S. intros i j x y Hi Hj Hij.
    assert (LE : (cr_order (snd y) <= cr_order (snd x))%N).
    { clear - S Hi Hj Hij. revert i j Hi Hj Hij. induction S as [ | z m S IH F]; intros i j Hi Hj Hij.
      - destruct i; discriminate.
      - destruct j as [ | j]; [lia | ]. cbn in Hj. destruct i as [ | i]; cbn in Hi.
        + injection Hi as <-. rewrite Forall_forall in F. exact (F y (nth_error_In _ _ Hj)).
        + apply (IH i j); auto. lia. }
    assert (NE : cr_order (snd y) <> cr_order (snd x)).
    { intro E. rewrite NoDup_nth_error in ND. assert (i = j); [ | lia]. apply ND.
      - rewrite map_length. apply nth_error_Some. congruence.
      - rewrite !nth_error_map, Hi, Hj. cbn. now rewrite E. }
    lia.
Qed.
Print Assumptions C36_ranked.
Theorem C36_newest : forall e h b cid p r w',
  parse_command (e_cfg e) b = Ok (CMakeCredential p) -> mc_rk p = true -> (Nlen h + 1 < 2 ^ 64)%N ->
  run_op e (OpMessage b (MainHid cid)) (run e h) = (OutCtap (Ok r), w') ->
  exists k c old, creds w' = old ++ [(k, c)] /\ cr_rp c = rp_id (mc_rp p) /\ cr_user c = us_id (mc_user p) /\
    forall x, In x old -> (cr_order (snd x) < cr_order c)%N.
Proof.
  intros e h b cid p r w' Hx Hr Hh H. destruct (C28_register e h b cid p r w' Hx Hr H) as (c & k & _ & _ & _ & _ & F & E & _).
  eexists k, c, _. split; [exact E | ]. split; [apply F | ]. split; [apply F | ]. intros x Hi. apply filter_In in Hi as [Hi _].
  apply max_order_ge in Hi. unfold order_of in Hi. rewrite (cf_order _ _ _ _ F).
  destruct (orders e h) as [O _]. rewrite N.mod_small by lia. lia.
Qed.
Print Assumptions C36_newest.

(** The first answer is about the newest; it has the total if there is more than one. *)
Theorem C36_first : forall e h b cid p r w',
  parse_command (e_cfg e) b = Ok (CGetAssertion p) -> ga_allow p = None ->
  run_op e (OpMessage b (MainHid cid)) (run e h) = (OutCtap (Ok r), w') ->
  let L := ranked (ga_rp p) (is_some (ga_auth p)) (creds (run e h)) in
  exists k c rest g, L = (k, c) :: rest /\ r = RGetAssertion g /\
    gr_id g = cr_id c /\ gr_sig g = sign (e_prims e) (cr_key c) (gr_auth_data g ++ ga_cdh p) /\
    gr_user g = response_user c (is_some (ga_auth p)) /\
    gr_number g = match rest with [] => None | _ => Some (Nlen L) end.
Proof.
  intros e h b cid p r w' Hx Ha H L.
  destruct (start_answer e h b _ KAssertion cid Hx Ha r w' H r eq_refl) as (k & c & rest & i & g & H1 & H2 & H3 & H4 & H5 & _).
  exists k, c, rest, g. destruct H3 as (I1 & I2 & _), H4 as (A1 & _ & A2 & A3). rewrite I1 in A2. rewrite I2 in A3. auto 10.
Qed.
Print Assumptions C36_first.

(** The answer to the getNextAssertion that is the [m+1]-th command on the channel of a
    getAssertion, whatever else that is no CTAP2 command happened: about the credential of rank
    [m+1], or NOT_ALLOWED when there is none. *)
Theorem C36_next : forall e h1 b cid p h2 b2 y,
  parse_command (e_cfg e) b = Ok (CGetAssertion p) -> ga_allow p = None ->
  Forall (fun z => snd z = None /\ harmless e KAssertion (MainHid cid) (fst z)) h2 ->
  parse_command (e_cfg e) b2 = Ok CGetNextAssertion ->
  fst (run_op e (OpMessage b2 (MainHid cid)) (run e (h1 ++ (OpMessage b (MainHid cid), None) :: h2))) = OutCtap y ->
  match nth_error (ranked (ga_rp p) (is_some (ga_auth p)) (creds (run e h1))) (S (commands e h2)) with
  | Some (_, c) => forall r, y = Ok r -> exists g, r = RGetNextAssertion g /\
      gr_id g = cr_id c /\ gr_sig g = sign (e_prims e) (cr_key c) (gr_auth_data g ++ ga_cdh p) /\
      gr_user g = response_user c (is_some (ga_auth p)) /\ gr_number g = None
  | None => y = Err NOT_ALLOWED
  end.
Proof.
  intros e h1 b cid p h2 b2 y Hx Ha Hq Hx2 Hy.
  destruct (next_answer e h1 b _ KAssertion cid Hx Ha h2 b2 _ Hq Hx2 I) as (y' & Hy' & D).
  rewrite Hy in Hy'. injection Hy' as <-. cbn [continued] in D.
  destruct (nth_error _ _) as [[k c] | ]; [ | destruct D; assumption].
  intros r ->. destruct D as [[D _] | D]; [ | discriminate].
  destruct (D r eq_refl) as (i & g & -> & (I1 & I2 & _) & (A1 & _ & A2 & A3) & N). exists g.
  rewrite I1 in A2. rewrite I2 in A3. auto.
Qed.
Print Assumptions C36_next.

(** It does succeed while there is one: within 30 seconds, when the store works and no extension
    output is asked for. *)
Theorem C36_complete : forall e h1 b cid p r w' h2 b2 k c,
  parse_command (e_cfg e) b = Ok (CGetAssertion p) -> ga_allow p = None ->
  run_op e (OpMessage b (MainHid cid)) (run e h1) = (OutCtap (Ok r), w') ->
  Forall (fun z => snd z = None /\ harmless e KAssertion (MainHid cid) (fst z)) h2 ->
  parse_command (e_cfg e) b2 = Ok CGetNextAssertion ->
  let w := run e (h1 ++ (OpMessage b (MainHid cid), None) :: h2) in
  (w_now w < w_now (run e h1) + 30000)%N -> (forall i, e_fault e i = None) ->
  gx_hmac (ga_ext_ p) = None -> gx_blob (ga_ext_ p) = false ->
  nth_error (ranked (ga_rp p) (is_some (ga_auth p)) (creds (run e h1))) (S (commands e h2)) = Some (k, c) ->
  key_valid e (cr_key c) = true ->
  exists r2, fst (run_op e (OpMessage b2 (MainHid cid)) w) = OutCtap (Ok r2).
Proof.
  intros e h1 b cid p r w' h2 b2 k c Hx Ha H Hq Hx2 w Ht F X1 X2 Hn V.
  destruct (start_answer e h1 b _ KAssertion cid Hx Ha r w' H r eq_refl) as (q & c1 & rest & i & g & H1 & _ & _ & _ & _ & H5).
  destruct (next_in_time e h1 b _ KAssertion cid Hx Ha h2 b2 _ Hq Hx2 I r w' H) as (y & Hy & D).
  { intro E. apply H5 in E. subst rest. rewrite H1 in Hn. destruct (commands e h2); discriminate. }
  { exact Ht. }
  cbn [continued] in D. rewrite Hn in D. destruct D as [_ D]. destruct (D F X1 X2 V) as (r2 & ->). eauto.
Qed.
Print Assumptions C36_complete.

(** Another command on the channel, any command on another channel, or the passing of 30 seconds
    ends the enumeration: C51_continuation.  Here is what the enumeration of two credentials
    returns, and that it stops. *)
Definition ids (h : history) : list bytes := map (fun x => cr_id (snd x)) (creds (run toy h)).
Definition id_of (o : outcome) : option bytes :=
  match o with
  | OutCtap (Ok (RGetAssertion g)) | OutCtap (Ok (RGetNextAssertion g)) => Some (gr_id g)
  | _ => None
  end.
Example C36_nonvacuous :
  match ids h_two with
  | [a; b] => id_of (answer h_two ask_msg) = Some b /\ id_of (answer h_asked next_msg) = Some a /\
              answer (h_asked ++ [on next_msg]) next_msg = OutCtap (Err NOT_ALLOWED) /\ a <> b
  | _ => False
  end /\
  match parse_command toy_cfg ask_msg with
  | Ok (CGetAssertion p) => ga_allow p = None /\ gx_hmac (ga_ext_ p) = None /\ gx_blob (ga_ext_ p) = false /\
      map fst (ranked (ga_rp p) (is_some (ga_auth p)) (creds (run toy h_two))) = [1701; 1700]%N /\
      forallb (fun x => key_valid toy (cr_key (snd x))) (creds (run toy h_two)) = true
  | _ => False
  end.
Proof. vm_compute. repeat split; try reflexivity. discriminate. Qed.

(** ** C37 *)

Lemma sorted_nodup m : StronglySorted before m -> NoDup m.
Proof.
  intro S. induction S as [ | a m S IH F]; constructor; auto.
  intro Hi. rewrite Forall_forall in F. specialize (F a Hi). unfold before in F. now rewrite lexcmp_refl in F.
Qed.
(** What is enumerated: the RPs, in byte order, each once and exactly those that have a credential;
    the credentials of an RP, each once. *)
Theorem C37_sets : forall e h hash,
  let l := creds (run e h) in
  (NoDup (rp_set l) /\ StronglySorted (fun a b => lexcmp a b = Lt) (rp_set l) /\
   forall rp, In rp (rp_set l) <-> exists x, In x l /\ cr_rp (snd x) = rp) /\
  (NoDup (rp_creds (e_prims e) hash l) /\
   forall x, In x (rp_creds (e_prims e) hash l) <-> In x l /\ sha256 (e_prims e) (cr_rp (snd x)) = hash).
Proof.
  intros e h hash l. destruct (rp_set_ok l) as [S H]. split.
  - split; [now apply sorted_nodup | split; [exact S | exact H]].
  - split.
    + apply NoDup_rev, NoDup_filter. destruct (creds_now e h) as [C _ _]. eapply NoDup_map_inv, C.
    + intro x. unfold rp_creds, of_rp. rewrite <- in_rev, filter_In, bytes_eqb_eq. reflexivity.
Qed.
Print Assumptions C37_sets.

(** enumerateRPsBegin reports the first RP and the total. *)
Theorem C37_rps_first : forall e h b cid p r w',
  parse_command (e_cfg e) b = Ok (CCredMgmt p) -> cm_sub_ p = CmRpsBegin ->
  run_op e (OpMessage b (MainHid cid)) (run e h) = (OutCtap (Ok r), w') ->
  exists rp rest x, rp_set (creds (run e h)) = rp :: rest /\ r = RCredMgmt (Some x) /\
    cmr_rp x = Some rp /\ cmr_hash x = Some (sha256 (e_prims e) rp) /\
    cmr_total_rps x = Some (Nlen (rp_set (creds (run e h)))).
Proof.
  intros e h b cid p r w' Hx Hs H.
  pose proof (start_answer e h b _ KRps cid Hx Hs r w' H r eq_refl) as G. cbn in G. rewrite Hs in G.
  destruct G as (rp & rest & H1 & -> & _). exists rp, rest. eexists. split; [exact H1 | ]. cbn. auto.
Qed.
Print Assumptions C37_rps_first.
(** The enumerateRPsGetNextRP that is the [m+1]-th command after it reports the RP of rank [m+1];
    when there is none, it fails. *)
Theorem C37_rps_next : forall e h1 b cid p h2 b2 p2 y,
  parse_command (e_cfg e) b = Ok (CCredMgmt p) -> cm_sub_ p = CmRpsBegin ->
  Forall (fun z => snd z = None /\ harmless e KRps (MainHid cid) (fst z)) h2 ->
  parse_command (e_cfg e) b2 = Ok (CCredMgmt p2) -> cm_sub_ p2 = CmRpsNext ->
  fst (run_op e (OpMessage b2 (MainHid cid)) (run e (h1 ++ (OpMessage b (MainHid cid), None) :: h2))) = OutCtap y ->
  match nth_error (rp_set (creds (run e h1))) (S (commands e h2)) with
  | Some rp => forall r, y = Ok r -> exists x, r = RCredMgmt (Some x) /\
      cmr_rp x = Some rp /\ cmr_hash x = Some (sha256 (e_prims e) rp) /\ cmr_total_rps x = None
  | None => forall r, y <> Ok r
  end.
Proof.
  intros e h1 b cid p h2 b2 p2 y Hx Hs Hq Hx2 Hs2 Hy.
  destruct (next_answer e h1 b _ KRps cid Hx Hs h2 b2 _ Hq Hx2 Hs2) as (y' & Hy' & D).
  rewrite Hy in Hy'. injection Hy' as <-. cbn [continued] in D. rewrite Hs in D.
  destruct (nth_error _ _) as [rp | ].
  - intros r ->. destruct D as [[D _] | D]; [ | discriminate]. rewrite (D r eq_refl). eexists. split; [reflexivity | ]. cbn. auto.
  - destruct D as [D | ->]; [exact D | discriminate].
Qed.
Print Assumptions C37_rps_next.
Theorem C37_rps_complete : forall e h1 b cid p r w' h2 b2 p2 rp,
  parse_command (e_cfg e) b = Ok (CCredMgmt p) -> cm_sub_ p = CmRpsBegin ->
  run_op e (OpMessage b (MainHid cid)) (run e h1) = (OutCtap (Ok r), w') ->
  Forall (fun z => snd z = None /\ harmless e KRps (MainHid cid) (fst z)) h2 ->
  parse_command (e_cfg e) b2 = Ok (CCredMgmt p2) -> cm_sub_ p2 = CmRpsNext ->
  let w := run e (h1 ++ (OpMessage b (MainHid cid), None) :: h2) in
  (w_now w < w_now (run e h1) + 30000)%N -> (forall i, e_fault e i = None) ->
  nth_error (rp_set (creds (run e h1))) (S (commands e h2)) = Some rp ->
  exists r2, fst (run_op e (OpMessage b2 (MainHid cid)) w) = OutCtap (Ok r2).
Proof.
  intros e h1 b cid p r w' h2 b2 p2 rp Hx Hs H Hq Hx2 Hs2 w Ht F Hn.
  pose proof (start_answer e h1 b _ KRps cid Hx Hs r w' H r eq_refl) as G. cbn in G. rewrite Hs in G.
  destruct G as (rp1 & rest & H1 & _ & H5).
  destruct (next_in_time e h1 b _ KRps cid Hx Hs h2 b2 _ Hq Hx2 Hs2 r w' H) as (y & Hy & D).
  { intro E. apply H5 in E. subst rest. rewrite H1 in Hn. destruct (commands e h2); discriminate. }
  { exact Ht. }
  cbn [continued] in D. rewrite Hs, Hn in D. destruct D as [_ D]. destruct (D F) as (r2 & ->). eauto.
Qed.
Print Assumptions C37_rps_complete.

(** enumerateCredentialsBegin reports a first credential of the RP and the total. *)
Theorem C37_creds_first : forall e h b cid p r w',
  parse_command (e_cfg e) b = Ok (CCredMgmt p) -> cm_sub_ p = CmCredsBegin ->
  run_op e (OpMessage b (MainHid cid)) (run e h) = (OutCtap (Ok r), w') ->
  exists d hash k c rest x, cm_data_ p = Some d /\ cd_hash d = Some hash /\
    rp_creds (e_prims e) hash (creds (run e h)) = (k, c) :: rest /\ r = RCredMgmt (Some x) /\
    cmr_id x = Some (cr_id c) /\ cmr_key x = Some (pub_of (e_prims e) (cr_key c)) /\
    cmr_user x = Some (mkUser (cr_user c) (cr_name c) (cr_display c) (cr_icon c)) /\
    cmr_protect x = cr_policy c /\ cmr_lbkey x = cr_lbkey c /\
    cmr_total x = Some (Nlen (rp_creds (e_prims e) hash (creds (run e h)))).
Proof.
  intros e h b cid p r w' Hx Hs H.
  pose proof (start_answer e h b _ KCreds cid Hx Hs r w' H r eq_refl) as G. cbn in G. rewrite Hs in G.
  destruct G as (d & hash & k & c & rest & x & H1 & H2 & H3 & H4 & H5 & _). exists d, hash, k, c, rest, x.
  unfold describes in H5. subst x. do 3 (split; [assumption | ]). repeat split; auto.
Qed.
Print Assumptions C37_creds_first.
Theorem C37_creds_next : forall e h1 b cid p d hash h2 b2 p2 y,
  parse_command (e_cfg e) b = Ok (CCredMgmt p) -> cm_sub_ p = CmCredsBegin ->
  cm_data_ p = Some d -> cd_hash d = Some hash ->
  Forall (fun z => snd z = None /\ harmless e KCreds (MainHid cid) (fst z)) h2 ->
  parse_command (e_cfg e) b2 = Ok (CCredMgmt p2) -> cm_sub_ p2 = CmCredsNext ->
  fst (run_op e (OpMessage b2 (MainHid cid)) (run e (h1 ++ (OpMessage b (MainHid cid), None) :: h2))) = OutCtap y ->
  match nth_error (rp_creds (e_prims e) hash (creds (run e h1))) (S (commands e h2)) with
  | Some (_, c) => forall r, y = Ok r -> exists x, r = RCredMgmt (Some x) /\
      cmr_id x = Some (cr_id c) /\ cmr_key x = Some (pub_of (e_prims e) (cr_key c)) /\
      cmr_user x = Some (mkUser (cr_user c) (cr_name c) (cr_display c) (cr_icon c)) /\
      cmr_protect x = cr_policy c /\ cmr_lbkey x = cr_lbkey c /\ cmr_total x = None
  | None => y = Err NOT_ALLOWED
  end.
Proof.
  intros e h1 b cid p d hash h2 b2 p2 y Hx Hs Hd Hh Hq Hx2 Hs2 Hy.
  destruct (next_answer e h1 b _ KCreds cid Hx Hs h2 b2 _ Hq Hx2 Hs2) as (y' & Hy' & D).
  rewrite Hy in Hy'. injection Hy' as <-. cbn [continued] in D. rewrite Hs in D.
  assert (D' : match nth_error (rp_creds (e_prims e) hash (creds (run e h1))) (S (commands e h2)) with
     | Some (_, c) => forall r, y = Ok r -> exists z, r = RCredMgmt (Some z) /\ describes (e_prims e) c None z
     | None => y = Err NOT_ALLOWED end).
  { destruct D as [D | ->]; [specialize (D d hash Hd Hh) | ]; destruct (nth_error _ _) as [[k c] | ]; auto; [apply D | discriminate]. }
  destruct (nth_error _ _) as [[k c] | ]; [ | exact D'].
  intros r Hr. destruct (D' r Hr) as (x & -> & X). exists x. unfold describes in X. subst x. repeat split; auto.
Qed.
Print Assumptions C37_creds_next.
Theorem C37_creds_complete : forall e h1 b cid p d hash r w' h2 b2 p2 k c,
  parse_command (e_cfg e) b = Ok (CCredMgmt p) -> cm_sub_ p = CmCredsBegin ->
  cm_data_ p = Some d -> cd_hash d = Some hash ->
  run_op e (OpMessage b (MainHid cid)) (run e h1) = (OutCtap (Ok r), w') ->
  Forall (fun z => snd z = None /\ harmless e KCreds (MainHid cid) (fst z)) h2 ->
  parse_command (e_cfg e) b2 = Ok (CCredMgmt p2) -> cm_sub_ p2 = CmCredsNext ->
  let w := run e (h1 ++ (OpMessage b (MainHid cid), None) :: h2) in
  (w_now w < w_now (run e h1) + 30000)%N -> (forall i, e_fault e i = None) ->
  nth_error (rp_creds (e_prims e) hash (creds (run e h1))) (S (commands e h2)) = Some (k, c) ->
  key_valid e (cr_key c) = true ->
  exists r2, fst (run_op e (OpMessage b2 (MainHid cid)) w) = OutCtap (Ok r2).
Proof.
  intros e h1 b cid p d hash r w' h2 b2 p2 k c Hx Hs Hd Hh H Hq Hx2 Hs2 w Ht F Hn V.
  pose proof (start_answer e h1 b _ KCreds cid Hx Hs r w' H r eq_refl) as G. cbn in G. rewrite Hs in G.
  destruct G as (d1 & h3 & k1 & c1 & rest & x & E1 & E2 & H1 & _ & _ & H5).
  rewrite Hd in E1. injection E1 as <-. rewrite Hh in E2. injection E2 as <-.
  destruct (next_in_time e h1 b _ KCreds cid Hx Hs h2 b2 _ Hq Hx2 Hs2 r w' H) as (y & Hy & D).
  { intro E. apply H5 in E. subst rest. rewrite H1 in Hn. destruct (commands e h2); discriminate. }
  { exact Ht. }
  cbn [continued] in D. rewrite Hs in D. specialize (D d hash Hd Hh). rewrite Hn in D.
  destruct D as [_ D]. destruct (D F V) as (r2 & ->). eauto.
Qed.
Print Assumptions C37_creds_complete.

(** Three credentials of two RPs. *)
Definition other_rp : bytes := str "another.example".
Definition h_three : history := h_two ++ [on (token_perms_msg toy_pin 3 (Some other_rp))] ++
  [on (mc_msg other_rp [7]%N true (Some (client_token (h_two ++ [on (token_perms_msg toy_pin 3 (Some other_rp))]))))] ++
  [on (token_perms_msg toy_pin 4 None)].
Definition cm_tok : option bytes := Some (client_token h_three).
Definition rps_msg : bytes := cm_msg 2 None cm_tok.
Definition creds_msg : bytes := cm_msg 4 (Some (VMap [(VUnsigned 1, VBytes (sha256 toy_prims toy_rp))])) cm_tok.
Definition cm_answer (o : outcome) : option cm_resp :=
  match o with OutCtap (Ok (RCredMgmt x)) => x | _ => None end.
Example C37_nonvacuous :
  rp_set (creds (run toy h_three)) = [other_rp; toy_rp] /\
  option_map (fun x => (cmr_rp x, cmr_total_rps x)) (cm_answer (answer h_three rps_msg)) =
    Some (Some other_rp, Some 2%N) /\
  (let h := h_three ++ [on rps_msg] in
   option_map (fun x => (cmr_rp x, cmr_total_rps x)) (cm_answer (answer h (cm_msg 3 None None))) = Some (Some toy_rp, None) /\
   answer (h ++ [on (cm_msg 3 None None)]) (cm_msg 3 None None) = OutCtap (Err NOT_ALLOWED)) /\
  match ids h_three with
  | [a; b; _] =>
      option_map (fun x => (cmr_id x, cmr_total x)) (cm_answer (answer h_three creds_msg)) = Some (Some b, Some 2%N) /\
      (let h := h_three ++ [on creds_msg] in
       option_map (fun x => (cmr_id x, cmr_total x)) (cm_answer (answer h (cm_msg 5 None None))) = Some (Some a, None) /\
       answer (h ++ [on (cm_msg 5 None None)]) (cm_msg 5 None None) = OutCtap (Err NOT_ALLOWED))
  | _ => False
  end.
Proof. vm_compute. repeat split; reflexivity. Qed.
