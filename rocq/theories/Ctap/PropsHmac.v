(** Property theorems C54 and C55: the hmac-secret extension, and when names of users are returned. *)
From Verif Require Import Base Facts Hid.Model U2f.Model Cbor.Model Cbor.Spec Ctap.Crypto Ctap.Types Ctap.Machine
  Ctap.Commands Ctap.Parse Ctap.System Ctap.Logic Ctap.History Ctap.Track Ctap.Pin Ctap.PinChange
  Ctap.MinPin Ctap.TokenSpec Ctap.Token Ctap.Success Ctap.Auth Ctap.Gate Ctap.Answers Ctap.TokenUse
  Ctap.Creds Ctap.Enum Ctap.NoPanic Ctap.Enumerate Ctap.Reset Ctap.Keys Ctap.Protect Ctap.Seal Ctap.Stored
  Ctap.Hmac Ctap.Toy Ctap.ToyMore Ctap.PropsToken Ctap.PropsEnumerate Ctap.PropsSeal.
From Coq Require Import String List Lia.
Import ListNotations.
Open Scope list_scope.

(** ** C54: hmac-secret *)

(** A getAssertion with the extension that succeeds asked for user presence and returns the HMACs of
    the salts under the secret of the credential that signs; the salts are authenticated and one or
    two, and the secret with user verification is not the one without. *)
Theorem C54_output : forall e h b cid p hi g w',
  prims_ok (e_prims e) -> rnd_ok e ->
  parse_command (e_cfg e) b = Ok (CGetAssertion p) -> gx_hmac (ga_ext_ p) = Some hi ->
  run_op e (OpMessage b (MainHid cid)) (run e h) = (OutCtap (Ok (RGetAssertion g)), w') ->
  ga_up p = true /\
  exists m, p_master (w_p w') = Some m /\
    hmac_answer (e_prims e) m (w_v (run e h)) hi (is_some (ga_auth p)) (ga_cdh p) g.
Proof.
  intros e h b cid p hi g w' K R Hx Hh H. destruct (message_any e b cid _ _ _ _ Hx H) as (w1 & Q & _ & F).
  cbn [process_fido_command] in F.
  assert (FP : fr Pkeys (run e h) w1).
  { assert (X : rel Pkeys (preamble (CGetAssertion p) (MainHid cid))) by (unfold preamble; rel_walk).
    specialize (X (run e h)). now rewrite Q in X. }
  destruct (ga_inner e p _ w1 _ w' F) as (c & i & n & g' & w2 & E & G & FK & UP & A). injection E as <-.
  split; [apply UP; now rewrite Hh | ].
  pose proof (made_length e p i K G) as L. destruct G as ((I1 & I2 & I3) & _).
  destruct (response_hmac e c i n w2 g w' hi K R ltac:(rewrite I3; exact Hh) L A) as (m & M & X).
  exists m. split; [exact M | ]. rewrite I1, I2 in X. unfold hmac_answer, session in *.
  rewrite (keys_frame _ _ (hi_proto hi) (fr_trans _ _ _ _ FP FK)) in X. exact X.
Qed.
Print Assumptions C54_output.

(** The same for getNextAssertion, with the input of the getAssertion that it continues. *)
Theorem C54_next : forall e h b cid g w',
  prims_ok (e_prims e) -> rnd_ok e ->
  parse_command (e_cfg e) b = Ok CGetNextAssertion ->
  run_op e (OpMessage b (MainHid cid)) (run e h) = (OutCtap (Ok (RGetNextAssertion g)), w') ->
  exists h1 b1 cid1 p h2, h = h1 ++ (OpMessage b1 (MainHid cid1), None) :: h2 /\
    parse_command (e_cfg e) b1 = Ok (CGetAssertion p) /\
    forall hi, gx_hmac (ga_ext_ p) = Some hi ->
    exists m, p_master (w_p w') = Some m /\
      hmac_answer (e_prims e) m (w_v (run e h)) hi (is_some (ga_auth p)) (ga_cdh p) g.
Proof.
  intros e h b cid g w' K R Hx H. destruct (message_any e b cid _ _ _ _ Hx H) as (w1 & Q & _ & F).
  assert (FP : fr Pkeys (run e h) w1).
  { assert (X : rel Pkeys (preamble CGetNextAssertion (MainHid cid))) by (unfold preamble; rel_walk).
    specialize (X (run e h)). now rewrite Q in X. }
  destruct (next_inner e _ w1 _ w' F) as (c & i & ks & g' & w2 & E & S & FK & A). injection E as <-.
  pose proof (fr_v _ _ _ (in_preamble CGetNextAssertion (MainHid cid) (run e h))) as SI. rewrite Q in SI. cbn in SI.
  destruct (SI i ks S) as (ks' & S').
  destruct (input_history e h i ks' S') as (h1 & b1 & cid1 & p & h2 & -> & Hx1 & G).
  exists h1, b1, cid1, p, h2. split; [reflexivity | ]. split; [exact Hx1 | ]. intros hi Hh.
  pose proof (made_length e p i K G) as L. destruct G as ((I1 & I2 & I3) & _).
  destruct (response_hmac e c i None w2 g w' hi K R ltac:(rewrite I3; exact Hh) L A) as (m & M & X).
  exists m. split; [exact M | ]. rewrite I1, I2 in X. unfold hmac_answer, session in *.
  rewrite (keys_frame _ _ (hi_proto hi) (fr_trans _ _ _ _ FP FK)) in X. exact X.
Qed.
Print Assumptions C54_next.

(** Across any later history without reset, power losses and store failures included, the master
    secret is the same: the same credential, salts and verification give the same output, whatever
    the sessions and protocols. *)
Theorem C54_stable : forall e h1 b1 cid1 p1 hi1 g1 w1 h2 b2 cid2 p2 hi2 g2 w2,
  prims_ok (e_prims e) -> rnd_ok e ->
  parse_command (e_cfg e) b1 = Ok (CGetAssertion p1) -> gx_hmac (ga_ext_ p1) = Some hi1 ->
  run_op e (OpMessage b1 (MainHid cid1)) (run e h1) = (OutCtap (Ok (RGetAssertion g1)), w1) ->
  no_reset e h2 ->
  let h := h1 ++ (OpMessage b1 (MainHid cid1), None) :: h2 in
  parse_command (e_cfg e) b2 = Ok (CGetAssertion p2) -> gx_hmac (ga_ext_ p2) = Some hi2 ->
  run_op e (OpMessage b2 (MainHid cid2)) (run e h) = (OutCtap (Ok (RGetAssertion g2)), w2) ->
  exists m,
    hmac_answer (e_prims e) m (w_v (run e h1)) hi1 (is_some (ga_auth p1)) (ga_cdh p1) g1 /\
    hmac_answer (e_prims e) m (w_v (run e h)) hi2 (is_some (ga_auth p2)) (ga_cdh p2) g2.
Proof.
  intros e h1 b1 cid1 p1 hi1 g1 w1 h2 b2 cid2 p2 hi2 g2 w2 K R X1 A1 R1 N h X2 A2 R2.
  destruct (C54_output e h1 b1 cid1 p1 hi1 g1 w1 K R X1 A1 R1) as (_ & m & M1 & B1).
  destruct (C54_output e h b2 cid2 p2 hi2 g2 w2 K R X2 A2 R2) as (_ & m2 & M2 & B2).
  exists m. split; [exact B1 | ].
  assert (M : p_master (w_p (run e h)) = Some m).
  { unfold h. rewrite run_split. apply master_history; [ | exact N | ].
    - pose proof (run_wf e (h1 ++ [(OpMessage b1 (MainHid cid1), None)])) as W. rewrite run_app in W. exact W.
    - unfold step. cbn [fst snd]. rewrite R1. exact M1. }
  pose proof (master_op e (OpMessage b2 (MainHid cid2)) (run e h) ltac:(cbv beta iota; congruence)) as F.
  rewrite R2 in F. pose proof (fr_p _ _ _ F m M) as M'. cbn [snd] in M'. rewrite M' in M2. injection M2 as <-. exact B2.
Qed.
Print Assumptions C54_stable.

(** Two salts, with and without user verification, before and after a power loss; a wrong MAC and a
    salt of 48 bytes are refused. *)
Definition ga_hmac_msg (salt mac : bytes) (token : option bytes) : bytes :=
  message 2 ([(1%N, VText toy_rp); (2%N, VBytes cdh0);
              (4%N, VMap [(text "hmac-secret", VMap [(VUnsigned 1, cose_to_cbor toy_key);
                 (VUnsigned 2, VBytes salt); (VUnsigned 3, VBytes mac); (VUnsigned 4, VUnsigned 1)])])] ++
             with_auth 6 7 token cdh0).
Definition toy_salts : bytes := map N.of_nat (seq 1 64).
Definition toy_hmac_msg (token : option bytes) : bytes :=
  ga_hmac_msg (Toy.enc toy_salts) (Toy.mac (Toy.enc toy_salts)) token.
Definition output_of (o : outcome) : option bytes :=
  match o with
  | OutCtap (Ok (RGetAssertion g)) => shared_decrypt toy_prims toy_shared (skipn 52 (gr_auth_data g))
  | _ => None
  end.
(** Random draws whose bytes are all different. *)
Definition mixed : env := mkEnv toy_prims toy_cfg
  (fun i n => map (fun j => N.of_nat ((7 * i + 3 * j + 1) mod 256)) (seq 0 n))
  (fun _ => (UpConfirmed, 1000%N)) (fun _ => None).
Lemma mixed_rnd_ok : rnd_ok mixed.
Proof.
  intros i n. split; [cbn; now rewrite map_length, seq_length | ].
  cbn [mixed e_rnd]. unfold bytes_ok. rewrite forallb_forall. intros x Hx. apply in_map_iff in Hx as (j & <- & _).
  unfold byte_ok. pose proof (Nat.mod_upper_bound (7 * i + 3 * j + 1) 256 ltac:(lia)) as B.
  generalize dependent ((7 * i + 3 * j + 1) mod 256)%nat. intros k B. apply N.ltb_lt. lia.
Qed.
Definition answer_mixed (h : history) (m : bytes) : outcome := fst (run_op mixed (OpMessage m ch0) (run mixed h)).
Definition h_hmac : history := [on (mc_msg toy_rp [1; 1]%N true None)].
Definition h_hmac_pin : history := h_hmac ++ token_history 2 (Some toy_rp).
Example C54_nonvacuous :
  (exists p hi, parse_command toy_cfg (toy_hmac_msg None) = Ok (CGetAssertion p) /\
     gx_hmac (ga_ext_ p) = Some hi /\ hi_salt hi = Toy.enc toy_salts) /\
  (exists o, output_of (answer_mixed h_hmac (toy_hmac_msg None)) = Some o /\ length o = 64%nat /\
     output_of (answer_mixed (h_hmac ++ [(OpMessage (toy_hmac_msg None) ch0, Some 1%nat); (OpTick 5%N, None)])
       (toy_hmac_msg None)) = Some o /\
     exists o', output_of (answer_mixed h_hmac_pin (toy_hmac_msg (Some (pp_token (v_proto1 (w_v (run mixed h_hmac_pin))))))) = Some o' /\ o' <> o) /\
  answer_mixed h_hmac (ga_hmac_msg (Toy.enc toy_salts) (repeat 0%N 16) None) = OutCtap (Err PIN_AUTH_INVALID) /\
  (let s := Toy.enc (firstn 48 toy_salts) in
   answer_mixed h_hmac (ga_hmac_msg s (Toy.mac s) None) = OutCtap (Err INVALID_PARAMETER)).
Proof.
  split; [do 2 eexists; vm_compute; auto | ]. split.
  - eexists. split; [vm_compute; reflexivity | ]. split; [reflexivity | ]. split; [vm_compute; reflexivity | ].
    eexists. split; [vm_compute; reflexivity | discriminate].
  - split; vm_compute; reflexivity.
Qed.

(** ** C55: names of users *)

(** An assertion whose authenticator data does not say that the user was verified contains no name,
    display name or icon of the user. *)
Theorem C55_names : forall e h b ch r w' g u,
  prims_ok (e_prims e) ->
  run_op e (OpMessage b ch) (run e h) = (OutCtap (Ok r), w') ->
  r = RGetAssertion g \/ r = RGetNextAssertion g ->
  uv_bit (gr_auth_data g) = false -> gr_user g = Some u ->
  us_name u = None /\ us_display u = None /\ us_icon u = None.
Proof.
  intros e h b ch r w' g u K H Hr B U.
  destruct (main_answer e b ch _ r w' H ltac:(destruct Hr as [-> | ->]; discriminate)) as (x & cid & w1 & -> & Hx & Ha & Q & F).
  assert (N : forall c i n w p, made_for e p i -> assertion_response e c i n w = (Ok g, w') ->
    us_name u = None /\ us_display u = None /\ us_icon u = None).
  { intros c i n w p G A. apply assertion_response_asserts in A as ((_ & (ext & D) & _ & A) & _).
    rewrite D, (made_uv e p i ext K G) in B. rewrite B in A. rewrite U in A. unfold response_user in A.
    destruct (cr_user c); [discriminate | ]. injection A as ->. auto. }
  destruct Hr as [-> | ->]; destruct x; try destruct Ha.
  - cbn [process_fido_command] in F.
    destruct (ga_inner e p _ w1 _ w' F) as (c & i & n & g' & w2 & E & G & _ & _ & A). injection E as <-. eauto.
  - destruct (next_inner e _ w1 _ w' F) as (c & i & ks & g' & w2 & E & S & _ & A). injection E as <-.
    pose proof (fr_v _ _ _ (in_preamble CGetNextAssertion (MainHid cid) (run e h))) as SI. rewrite Q in SI. cbn in SI.
    destruct (SI i ks S) as (ks' & S'). destruct (input_history e h i ks' S') as (h1 & b1 & cid1 & p & h2 & _ & _ & G). eauto.
Qed.
Print Assumptions C55_names.

(** The bit of a getAssertion says whether it came with a valid PIN/UV auth parameter, and that of a
    getNextAssertion is the one of the getAssertion it continues. *)
Theorem C55_verified : forall e h b cid r w' g,
  prims_ok (e_prims e) ->
  run_op e (OpMessage b (MainHid cid)) (run e h) = (OutCtap (Ok r), w') ->
  (forall p, parse_command (e_cfg e) b = Ok (CGetAssertion p) -> r = RGetAssertion g ->
     uv_bit (gr_auth_data g) = is_some (ga_auth p)) /\
  (parse_command (e_cfg e) b = Ok CGetNextAssertion -> r = RGetNextAssertion g ->
     exists h1 b1 cid1 p h2, h = h1 ++ (OpMessage b1 (MainHid cid1), None) :: h2 /\
       parse_command (e_cfg e) b1 = Ok (CGetAssertion p) /\ uv_bit (gr_auth_data g) = is_some (ga_auth p)).
Proof.
  intros e h b cid r w' g K H. split.
  - intros p Hx ->. destruct (message_any e b cid _ _ _ _ Hx H) as (w1 & _ & _ & F). cbn [process_fido_command] in F.
    destruct (ga_inner e p _ w1 _ w' F) as (c & i & n & g' & w2 & E & G & _ & _ & A). injection E as <-.
    apply assertion_response_asserts in A as ((_ & (ext & D) & _ & _) & _).
    rewrite D, (made_uv e p i ext K G). destruct G as ((_ & I & _) & _). exact I.
  - intros Hx ->. destruct (message_any e b cid _ _ _ _ Hx H) as (w1 & Q & _ & F).
    destruct (next_inner e _ w1 _ w' F) as (c & i & ks & g' & w2 & E & S & _ & A). injection E as <-.
    pose proof (fr_v _ _ _ (in_preamble CGetNextAssertion (MainHid cid) (run e h))) as SI. rewrite Q in SI. cbn in SI.
    destruct (SI i ks S) as (ks' & S'). destruct (input_history e h i ks' S') as (h1 & b1 & cid1 & p & h2 & E & Hx1 & G).
    exists h1, b1, cid1, p, h2. split; [exact E | ]. split; [exact Hx1 | ].
    apply assertion_response_asserts in A as ((_ & (ext & D) & _ & _) & _).
    rewrite D, (made_uv e p i ext K G). destruct G as ((_ & I & _) & _). exact I.
Qed.
Print Assumptions C55_verified.

(** Two credentials with names: without verification the answers have none, with it they do. *)
Definition mc_named_msg (user name : bytes) (token : option bytes) : bytes :=
  message 1 ([(1%N, VBytes cdh0); (2%N, VMap [(text "id", VText toy_rp)]);
              (3%N, VMap [(text "id", VBytes user); (text "name", VText name)]);
              (4%N, VArray [VMap [(text "alg", VNegative (-7)); (text "type", text "public-key")]]);
              (7%N, VMap [(text "rk", VSimple STrue)])] ++ with_auth 8 9 token cdh0).
Definition user_of (o : outcome) : option (bool * option user) :=
  match o with
  | OutCtap (Ok (RGetAssertion g)) | OutCtap (Ok (RGetNextAssertion g)) => Some (uv_bit (gr_auth_data g), gr_user g)
  | _ => None
  end.
Definition h_named : history :=
  [on (mc_named_msg [1; 1]%N (str "Alice") None); on (mc_named_msg [2; 2]%N (str "Bob") None)].
Definition h_named_pin : history := h_named ++ token_history 2 (Some toy_rp).
Example C55_nonvacuous :
  let ask := ga_msg toy_rp true None in
  let ask_uv := ga_msg toy_rp true (Some (client_token h_named_pin)) in
  user_of (answer h_named ask) = Some (false, Some (mkUser [2; 2]%N None None None)) /\
  user_of (answer (h_named ++ [on ask]) [8%N]) = Some (false, Some (mkUser [1; 1]%N None None None)) /\
  user_of (answer h_named_pin ask_uv) = Some (true, Some (mkUser [2; 2]%N (Some (str "Bob")) None None)) /\
  user_of (answer (h_named_pin ++ [on ask_uv]) [8%N]) = Some (true, Some (mkUser [1; 1]%N (Some (str "Alice")) None None)).
Proof. vm_compute. auto. Qed.
