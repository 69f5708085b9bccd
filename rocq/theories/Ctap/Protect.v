(** Which credentials are used or revealed by lookups through lists: lemmas for C30 and C35. *)
From Verif Require Import Base Facts Hid.Model U2f.Model Cbor.Model Ctap.Crypto Ctap.Types Ctap.Machine
  Ctap.Commands Ctap.Parse Ctap.System Ctap.Logic Ctap.History Ctap.Track Ctap.Pin Ctap.PinChange
  Ctap.MinPin Ctap.TokenSpec Ctap.Token Ctap.Success Ctap.Auth Ctap.Gate Ctap.Answers Ctap.TokenUse
  Ctap.Creds Ctap.Enum Ctap.NoPanic Ctap.Enumerate Ctap.Reset Ctap.Keys.
From Coq Require Import List Lia.
Import ListNotations.
Open Scope list_scope.

Definition Pc : params := keep p_creds anyv anyE.

(** What an ID stands for: a resident credential of the RP, or the credential sealed in the ID. *)
Definition resident (p : pers) (rp id : bytes) (c : cred) : Prop :=
  exists k, In (k, c) (p_creds p) /\ cr_id c = id /\ cr_rp c = rp.
Definition sealed (e : env) (p : pers) (rp_hash id : bytes) (s : source) : Prop :=
  exists m, p_master p = Some m /\
    unwrap_pure (e_prims e) (c_ed25519 (e_cfg e)) (c_width (e_cfg e)) m id rp_hash = Some (Some s).

Lemma master_keys_ok e w m w' : master_keys e w = (Ok m, w') -> p_master (w_p w') = Some m.
Proof.
  unfold master_keys. intro H. apply map_status_ok in H. apply bind_ok in H as (o & w1 & H1 & H).
  apply load_ok in H1 as (-> & P1 & _). destruct (p_master (w_p w)) as [x | ] eqn:E.
  - apply ret_ok in H as [-> ->]. congruence.
  - apply bind_ok in H as (x & w2 & H2 & H). apply bind_ok in H as (u & w3 & H3 & H).
    apply ret_ok in H as [-> ->]. apply store_ok in H3 as (P3 & _). rewrite P3. reflexivity.
Qed.

Lemma unwrap_credential_ok e id h w s w' :
  unwrap_credential e id h w = (Ok (Some s), w') -> sealed e (w_p w') h id s.
Proof.
  unfold unwrap_credential. intro H. destruct (_ <? _)%nat; [apply ret_ok in H as [H _]; discriminate H | ].
  apply bind_ok in H as (u & w0 & _ & H).
  apply bind_ok in H as (m & w1 & H1 & H). apply master_keys_ok in H1.
  destruct (unwrap_pure _ _ _ _ _ _) as [o | ] eqn:E; [ | apply fail_ok in H; contradiction].
  apply ret_ok in H as [<- ->]. exists m. auto.
Qed.

Lemma lookup_filter id (l : list (N * cred)) x :
  filter (fun x => bytes_eqb (cr_id (snd x)) id) l = [x] -> In x l /\ cr_id (snd x) = id.
Proof.
  intro H. assert (I : In x (filter (fun x => bytes_eqb (cr_id (snd x)) id) l)) by (rewrite H; now left).
  apply filter_In in I as [I E]. split; [exact I | now apply bytes_eqb_eq].
Qed.

Lemma iter_ok e w l w' : iter_credentials e w = (Ok l, w') -> l = p_creds (w_p w).
Proof.
  unfold iter_credentials. intro H. apply bind_ok in H as (k & w1 & H1 & H). apply load_ok in H as (-> & _).
  assert (R : rel Pc (wrap_key e)) by rel_walk. specialize (R w). rewrite H1 in R. exact (fr_p _ _ _ R).
Qed.

Lemma find_credential_ok e rp id w r w' :
  find_credential e rp id w = (Ok (Some r), w') -> resident (w_p w) rp id r.
Proof.
  unfold find_credential. destruct (find_credential_item e id w) as [[[k x] | s] w1] eqn:E.
  2: { destruct s; discriminate. }
  intro H. destruct (bytes_eqb (cr_rp x) rp) eqn:B; [ | discriminate H].
  apply pair_equal_spec in H as [H _]. injection H as <-. apply bytes_eqb_eq in B.
  unfold find_credential_item in E. apply bind_ok in E as (l & w2 & E1 & E). apply iter_ok in E1. subst l.
  destruct (filter _ _) as [ | y [ | z t]] eqn:F; try (apply fail_ok in E; contradiction).
  apply ret_ok in E as [<- _]. apply lookup_filter in F as [F1 F2]. exists k. auto.
Qed.

Lemma listed_ok e rp h uv d w c w' :
  listed_credential e rp h uv d w = (Ok (Some c), w') ->
  cr_id c = de_id d /\ listed uv (cr_policy c) = true /\
  (resident (w_p w) rp (de_id d) c \/
   exists s, sealed e (w_p w') h (de_id d) s /\ c = to_public_source (de_id d) s).
Proof.
  unfold listed_credential. intro H. apply bind_ok in H as (r & w1 & H1 & H).
  destruct (match r with Some x => if listed uv (cr_policy x) then Some x else None | None => None end) as [x | ] eqn:E.
  - apply ret_ok in H as [H _]. injection H as <-. destruct r as [x' | ]; [ | discriminate E].
    destruct (listed uv (cr_policy x')) eqn:L; [ | discriminate E]. injection E as ->.
    apply find_credential_ok in H1. destruct H1 as (k & I & D & R). repeat split; auto. left. exists k. auto.
  - apply bind_ok in H as (s & w2 & H2 & H). destruct s as [s | ]; [ | apply ret_ok in H as [H _]; discriminate H].
    destruct (listed uv (so_policy s)) eqn:L; apply ret_ok in H as [H ->]; [ | discriminate H].
    assert (E' : c = to_public_source (de_id d) s) by congruence. subst c.
    apply unwrap_credential_ok in H2. repeat split; auto. right. eauto.
Qed.

Lemma listed_frames e rp h uv d : rel Pc (listed_credential e rp h uv d) /\ rel Pmaster (listed_credential e rp h uv d).
Proof. split; rel_walk. Qed.

Lemma sealed_frame e w w' h id s : fr Pmaster w w' -> sealed e (w_p w) h id s -> sealed e (w_p w') h id s.
Proof. intros F (m & M & U). exists m. split; [exact (fr_p _ _ _ F m M) | exact U]. Qed.

Lemma first_listed_ok e rp h uv l : forall w c w',
  first_listed e rp h uv l w = (Ok (Some c), w') ->
  exists d, In d l /\ cr_id c = de_id d /\ listed uv (cr_policy c) = true /\
    (resident (w_p w) rp (de_id d) c \/
     exists s, sealed e (w_p w') h (de_id d) s /\ c = to_public_source (de_id d) s).
Proof.
  induction l as [ | d l IH]; cbn [first_listed]; intros w c w' H; [apply ret_ok in H as [H _]; discriminate H | ].
  apply bind_ok in H as (o & w1 & H1 & H). destruct o as [x | ].
  - apply ret_ok in H as [H ->]. injection H as <-. exists d. split; [now left | ]. exact (listed_ok _ _ _ _ _ _ _ _ H1).
  - destruct (IH _ _ _ H) as (d' & I & Q1 & Q2 & Q3). exists d'. split; [now right | ]. split; [exact Q1 | ].
    split; [exact Q2 | ]. destruct Q3 as [(k & K1 & K2) | Q3]; [ | now right].
    left. exists k. split; [ | exact K2]. destruct (listed_frames e rp h uv d) as [R _]. specialize (R w). rewrite H1 in R.
    pose proof (fr_p _ _ _ R) as P. cbn in P. now rewrite <- P.
Qed.

(** ** Assertions with an allow list *)
Lemma message_any e b cid w x y w' :
  parse_command (e_cfg e) b = Ok x ->
  run_op e (OpMessage b (MainHid cid)) w = (OutCtap y, w') ->
  exists w1, preamble x (MainHid cid) w = (Ok tt, w1) /\ w_p w1 = w_p w /\
    process_fido_command e x (MainHid cid) w1 = (y, w').
Proof.
  intros Hx H. cbn [run_op] in H. unfold process_command in H. unfold bind at 1, lift at 1 in H. rewrite Hx in H.
  rewrite split_message in H. unfold bind in H. destruct (preamble_same x (MainHid cid) w) as (w1 & Q & Q').
  rewrite Q in H. exists w1. split; [exact Q | ].
  split; [apply Q' | ].
  destruct (process_fido_command e x (MainHid cid) w1) as [r0 w0]. injection H as -> ->. reflexivity.
Qed.

Lemma ga_listed e p ch w g w' l :
  ga_allow p = Some l ->
  process_get_assertion e p ch w = (Ok (RGetAssertion g), w') ->
  exists c d, In d l /\ gr_id g = de_id d /\ cr_id c = de_id d /\
    gr_sig g = sign (e_prims e) (cr_key c) (gr_auth_data g ++ ga_cdh p) /\
    gr_user g = response_user c (is_some (ga_auth p)) /\
    listed (is_some (ga_auth p)) (cr_policy c) = true /\
    (resident (w_p w) (ga_rp p) (de_id d) c \/
     exists s, sealed e (w_p w') (sha256 (e_prims e) (ga_rp p)) (de_id d) s /\ c = to_public_source (de_id d) s).
Proof.
  intros Ha H. unfold process_get_assertion in H. cbv zeta in H.
  apply bind_ok in H as (? & w1 & H1 & H). apply precheck_ok in H1 as [-> _].
  apply bind_ok in H as (? & w1 & H1 & H). apply guard_ok in H1 as [_ ->].
  apply bind_ok in H as (? & w3 & H3 & H).
  assert (F3 : fr Pc w w3).
  { assert (R : rel Pc (ga_user_verification e p)) by rel_walk. specialize (R w). now rewrite H3 in R. }
  apply bind_ok in H as (sel & w4 & H4 & H). unfold ga_select in H4. rewrite Ha in H4.
  apply bind_ok in H4 as (o & w5 & H4 & H5). apply ret_ok in H5 as [-> ->].
  destruct o as [c | ]; [ | apply fail_ok in H; contradiction].
  apply first_listed_ok in H4 as (d & I & Q1 & Q2 & Q3).
  match type of H with ?k w5 = _ => assert (R : rel Pmaster k) by rel_walk end.
  specialize (R w5). rewrite H in R. cbn [snd] in R.
  apply bind_ok in H as (? & w6 & _ & H). apply bind_ok in H as (? & w7 & _ & H).
  apply bind_ok in H as (ad & w8 & _ & H). apply bind_ok in H as (number & w9 & _ & H).
  apply bind_ok in H as (g' & w10 & H10 & H). apply ret_ok in H as [H ->]. injection H as <-.
  apply assertion_response_asserts in H10 as [(A1 & _ & A2 & A3) _]. cbn [ai_cdh ai_uv] in A2, A3.
  exists c, d. split; [exact I | ]. split; [congruence | ]. split; [exact Q1 | ]. split; [exact A2 | ].
  split; [exact A3 | ]. split; [exact Q2 | ].
  destruct Q3 as [(k & K1 & K2) | (s & S1 & S2)].
  - left. exists k. split; [ | exact K2]. pose proof (fr_p _ _ _ F3) as P. cbn in P. now rewrite <- P.
  - right. exists s. split; [ | exact S2]. eapply sealed_frame; eassumption.
Qed.

(** ** Errors that reveal something *)
Lemma bind_err {E A B} (m : M E A) (k : A -> M E B) w s w' :
  bind m k w = (Err s, w') -> m w = (Err s, w') \/ exists a w1, m w = (Ok a, w1) /\ k a w1 = (Err s, w').
Proof.
  unfold bind. destruct (m w) as [[a | x] w1]; intro H; [right; eauto | left].
  apply pair_equal_spec in H as [H ->]. congruence.
Qed.

(** Both statuses stem from one place of each command. *)
Definition telling (s : status) : Prop := s = NO_CREDENTIALS \/ s = CREDENTIAL_EXCLUDED.
Section Telling.
  Variable bad : status.
  Hypothesis T : telling bad.
  Ltac bad_cases := destruct T as [-> | ->].
  Lemma nt_load {A} e (f : pers -> A) : never bad (load e f).
  Proof. intro w. unfold load. bad_cases; destruct (e_fault e (w_op w)) as [[[] b] | ]; discriminate. Qed.
  Lemma nt_store e f : never bad (store e f).
  Proof. intro w. unfold store. bad_cases; destruct (e_fault e (w_op w)) as [[[] b] | ]; discriminate. Qed.
  Lemma nt_presence e : never bad (check_user_presence e).
  Proof. intro w. unfold check_user_presence. bad_cases; destruct (e_up e (w_up w)) as [[] d]; cbn; discriminate. Qed.
  Lemma nt_internal {A} (m : M status A) : never bad (internal m).
  Proof.
    intro w. unfold internal, map_status. destruct (m w) as [[a | s] w1]; [discriminate | ].
    bad_cases; destruct s; discriminate.
  Qed.
  Lemma nt_find e rp id : never bad (iter_credentials e) -> never bad (find_credential e rp id).
  Proof.
    intros H w. unfold find_credential. destruct (find_credential_item e id w) as [[[k r] | s] w1] eqn:E; [discriminate | ].
    unfold find_credential_item in E. apply bind_err in E as [E | (l & w2 & E1 & E)].
    - specialize (H w). rewrite E in H. cbn in H. destruct s; try discriminate; cbn; congruence.
    - destruct (filter _ _) as [ | y [ | z t]]; [ | discriminate E | ]; apply pair_equal_spec in E as [E ->]; injection E as <-; bad_cases; discriminate.
  Qed.
  Lemma nt_listed e rp h uv l :
    (forall d, never bad (listed_credential e rp h uv d)) -> never bad (first_listed e rp h uv l).
  Proof.
    intro H. induction l as [ | d l IH]; cbn [first_listed]; [apply never_ret | ].
    apply never_bind; [apply H | intros [x | ]; [apply never_ret | apply IH]].
  Qed.
  Lemma nt_scan e rp u l : never bad (lift (store_scan e rp u l)).
  Proof.
    unfold store_scan.
    assert (H : forall acc, acc <> Err bad -> fold_left (store_scan_step e rp u) l acc <> Err bad).
    { induction l as [ | x l' IH]; cbn [fold_left]; auto. intros acc Ha. apply IH.
      unfold store_scan_step. destruct acc as [[used old] | s]; cbn [rbind].
      - destruct (_ || _)%bool; [bad_cases; discriminate | ].
        destruct (_ && _)%bool; [ | discriminate]. destruct old; [bad_cases; discriminate | discriminate].
      - exact Ha. }
    intro w. cbn [lift fst]. apply H. discriminate.
  Qed.
  Lemma nt_serialize e k iv r : never bad (lift (serialize_credential (e_prims e) k iv r)).
  Proof.
    intro w. cbn [lift fst]. unfold serialize_credential.
    assert (N : cred_to_cbor (e_prims e) k iv r <> Err bad).
    { unfold cred_to_cbor. destruct (priv_to_cbor _ _ _ _) as [v | s] eqn:E; cbn [rbind]; [discriminate | ].
      unfold priv_to_cbor in E. destruct (cbc_encrypt _ _ _ _ _); [discriminate | ].
      injection E as <-. bad_cases; discriminate. }
    destruct (cred_to_cbor _ _ _ _) as [v | s]; cbn [rbind]; [ | intro E; apply N; congruence].
    destruct (cbor_write v); [discriminate | bad_cases; discriminate].
  Qed.
  Lemma nt_attestation e i : never bad (get_attestation e i).
  Proof.
    intro w. unfold get_attestation, map_status. destruct (load _ _ w) as [[a | s] w1]; [discriminate | ].
    bad_cases; destruct s; discriminate.
  Qed.
End Telling.
Ltac nt_step T :=
  lazymatch goal with
  | |- never _ (ret _) => apply never_ret
  | |- never _ (fail _) => intros ? ; discriminate
  | |- never _ (gets _) => intros ? ; discriminate
  | |- never _ now => intros ? ; discriminate
  | |- never _ (modify _) => intros ? ; discriminate
  | |- never _ (emit _) => intros ? ; discriminate
  | |- never _ (draw _ _) => intros ? ; discriminate
  | |- never _ (lift (store_scan _ _ _ _)) => apply (nt_scan _ T)
  | |- never _ (lift (serialize_credential _ _ _ _)) => apply (nt_serialize _ T)
  | |- never _ (get_attestation _ _) => apply (nt_attestation _ T)
  | |- never _ (lift (ok_or_missing ?x)) => destruct x; [intros ?; discriminate | intros ?; discriminate]
  | |- never _ (guard _ _) => apply never_guard; discriminate
  | |- never _ (bind _ _) => apply never_bind; [ | intros ?]
  | |- never _ (load _ _) => apply (nt_load _ T)
  | |- never _ (store _ _) => apply (nt_store _ T)
  | |- never _ (check_user_presence _) => apply (nt_presence _ T)
  | |- never _ (internal _) => apply (nt_internal _ T)
  | |- never _ (find_credential _ _ _) => apply (nt_find _ T)
  | |- never _ (first_listed _ _ _ _ _) => apply nt_listed; intros ?
  | |- never _ (match ?x with _ => _ end) => destruct x
  | |- never _ (let _ := _ in _) => cbv zeta
  | |- never _ ((fun _ => _) _) => cbv beta
  | |- never _ ?m => let h := head m in unfold h
  end.
Ltac nt_walk T := repeat (nt_step T).

Lemma mc_excluded e p w w' :
  process_make_credential e p w = (Err CREDENTIAL_EXCLUDED, w') ->
  (forall sg, mc_auth p = Some sg -> exists pp, mc_proto p = Some pp /\
     uv_checked e w PERM_MC (mc_cdh p) sg pp (rp_id (mc_rp p))) /\
  exists l d c, mc_exclude p = Some l /\ In d l /\ cr_id c = de_id d /\
    listed (is_some (mc_auth p)) (cr_policy c) = true /\
    (resident (w_p w) (rp_id (mc_rp p)) (de_id d) c \/
     exists s, sealed e (w_p w') (sha256 (e_prims e) (rp_id (mc_rp p))) (de_id d) s /\ c = to_public_source (de_id d) s).
Proof.
  pose proof (or_intror eq_refl : telling CREDENTIAL_EXCLUDED) as T.
  assert (U : forall A (m : M status A) w0 w1, never CREDENTIAL_EXCLUDED m -> m w0 = (Err CREDENTIAL_EXCLUDED, w1) -> False).
  { intros A m w0 w1 N E. specialize (N w0). rewrite E in N. now apply N. }
  intro H. unfold process_make_credential in H.
  apply bind_err in H as [H | (? & w1 & H1 & H)]; [exfalso; revert H; apply U; nt_walk T | ].
  apply precheck_ok in H1 as [-> _].
  apply bind_err in H as [H | (a & w1 & H1 & H)]; [exfalso; revert H; apply U; nt_walk T | ].
  apply reads_ok in H1; [ | reads_walk]. cbv zeta in H.
  apply bind_err in H as [H | (ep & w2 & H2 & H)]; [exfalso; revert H; apply U; nt_walk T | ].
  apply reads_ok in H2; [ | reads_walk].
  apply bind_err in H as [H | (? & w3 & H3 & H)]; [exfalso; revert H; apply U; nt_walk T | ].
  split.
  { intros sg E. destruct (mc_user_verification_ok _ _ _ _ _ H3) as [Uv _]. destruct (Uv sg E) as (pp & U1 & U2 & _).
    exists pp. split; [exact U1 | ]. pose proof (still_trans _ _ _ H1 H2) as (S1 & S2 & _). unfold uv_checked in *.
    now rewrite S1, S2 in U2. }
  assert (F3 : fr Pc w2 w3).
  { assert (R : rel Pc (mc_user_verification e p)) by rel_walk. specialize (R w2). now rewrite H3 in R. }
  apply bind_err in H as [H | (? & w4 & H4 & H)].
  2: { exfalso. revert H. apply U. nt_walk T. }
  unfold mc_exclusion in H. destruct (mc_exclude p) as [l | ]; [ | discriminate H]. cbv zeta in H.
  apply bind_err in H as [H | (o & w5 & H5 & H)]; [exfalso; revert H; apply U; nt_walk T | ].
  destruct o as [c | ]; [ | discriminate H].
  apply first_listed_ok in H5 as (d & I & Q1 & Q2 & Q3). exists l, d, c. split; [reflexivity | ].
  split; [exact I | ]. split; [exact Q1 | ]. split; [exact Q2 | ].
  match type of H with ?k w5 = _ => assert (R : rel Pmaster k) by rel_walk end.
  specialize (R w5). rewrite H in R. cbn [snd] in R.
  destruct Q3 as [(k & K1 & K2) | (s & S1 & S2)].
  - left. exists k. split; [ | exact K2]. pose proof (fr_p _ _ _ F3) as P. cbn in P.
    rewrite P in K1. destruct H1 as (E1 & _), H2 as (E2 & _). now rewrite E2, E1 in K1.
  - right. exists s. split; [ | exact S2]. eapply sealed_frame; eassumption.
Qed.
