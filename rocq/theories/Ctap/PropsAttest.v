(** Property theorems C76 and C77: what the attestation of a new credential discloses, and the
    checks of a customization. *)
From Verif Require Import Base Facts Hid.Model U2f.Model Cbor.Model Ctap.Crypto Ctap.Types Ctap.Machine
  Ctap.Commands Ctap.Parse Ctap.System Ctap.Logic Ctap.History Ctap.Track Ctap.Pin Ctap.PinChange Ctap.TokenSpec
  Ctap.Token Ctap.Success Ctap.Auth Ctap.Gate Ctap.Answers Ctap.TokenUse Ctap.Creds Ctap.Toy Ctap.ToyMore
  Ctap.PropsToken Ctap.Attest.
From Coq Require Import String List Lia.
Import ListNotations.
Open Scope list_scope.

(** ** C76 *)

Lemma mem_bytes_in b l : mem_bytes b l = true <-> In b l.
Proof.
  unfold mem_bytes. rewrite existsb_exists. split.
  - intros (x & I & E). apply bytes_eqb_eq in E. now subst.
  - intro I. exists b. split; [exact I | now apply bytes_eqb_eq].
Qed.

(** After any history, the attestation statement of a new CTAP2 credential either carries no
    certificate and is a signature by the new key itself, whose public key is in the signed data; or
    carries the stored enterprise certificate, and is marked as such; or carries the stored batch
    certificate, on a device customized for batch attestation. *)
Theorem C76_certificate : forall e h b ch r w',
  let w := run e h in
  run_op e (OpMessage b ch) w = (OutCtap (Ok (RMakeCredential r)), w') ->
  exists p, parse_command (e_cfg e) b = Ok (CMakeCredential p) /\
  exists k pre id pub post,
    (exists n, pk_bytes k = e_rnd e n 32) /\
    cbor_write (cose_to_cbor (pub_of (e_prims e) k)) = Some pub /\
    mr_auth_data r = pre ++ c_aaguid (e_cfg e) ++ [0%N; Nlen id] ++ id ++ pub ++ post /\
    length pre = (length (sha256 (e_prims e) (rp_id (mc_rp p))) + 5)%nat /\
    match mr_x5c r with
    | None => mr_ep r = false /\ c_batch (e_cfg e) = false /\
        mr_sig r = sign (e_prims e) k (mr_auth_data r ++ mc_cdh p)
    | Some cert => exists ak,
        mr_sig r = sign (e_prims e) (mkPriv Es256 ak) (mr_auth_data r ++ mc_cdh p) /\
        (mr_ep r = true /\ p_ent (w_p w) = Some (ak, cert) \/
         mr_ep r = false /\ c_batch (e_cfg e) = true /\ p_batch (w_p w) = Some (ak, cert))
    end.
Proof.
  intros e h b ch r w' w H.
  destruct (attested e b ch w r w' H) as (p & Hx & _ & k & pre & id & pub & post & HK & ST & A1 & A2 & A3).
  exists p. split; [exact Hx | ]. exists k, pre, id, pub, post.
  split; [destruct HK as (n & q & _ & _ & E); eauto | ]. split; [exact A1 | ]. split; [exact A2 | ]. split; [exact A3 | ].
  exact ST.
Qed.
Print Assumptions C76_certificate.

(** Enterprise attestation is used exactly if the request asks for it, the device is customized for
    it, it has been switched on, and the RP is one of the device's list or the platform decides, in
    the mode that lets it. *)
Theorem C76_enterprise : forall e h b ch r w',
  let w := run e h in
  run_op e (OpMessage b ch) w = (OutCtap (Ok (RMakeCredential r)), w') ->
  exists p, parse_command (e_cfg e) b = Ok (CMakeCredential p) /\
  (mr_ep r = true <->
   exists n mode, mc_ep p = Some n /\ c_ep (e_cfg e) = Some mode /\ p_ep (w_p w) = true /\
     (mode = EpPlatform /\ n = 2%N \/ In (rp_id (mc_rp p)) (c_ep_rps (e_cfg e)))).
Proof.
  intros e h b ch r w' w H. destruct (attested e b ch w r w' H) as (p & Hx & E & _).
  exists p. split; [exact Hx | ]. rewrite E. unfold ent_due. split.
  - destruct (mc_ep p) as [n | ]; [ | discriminate]. destruct (c_ep (e_cfg e)) as [mode | ]; [ | discriminate].
    rewrite andb_true_iff, orb_true_iff, mem_bytes_in. intros [A [B | B]]; exists n, mode.
    + destruct mode; [discriminate | ]. apply N.eqb_eq in B. auto 6.
    + auto 6.
  - intros (n & mode & -> & -> & -> & [[-> ->] | B]); [reflexivity | ].
    apply mem_bytes_in in B. rewrite B, orb_true_r. reflexivity.
Qed.
Print Assumptions C76_enterprise.

(** Enterprise attestation is on only after an authenticatorConfig message switched it on, on a
    device customized for it with an enterprise certificate.  That message was authorised: no PIN
    was set and the device did not insist on user verification, or it carried the MAC of a token with
    the permission.  It has been on since, so no reset came after. *)
Theorem C76_enabled : forall e h, p_ep (w_p (run e h)) = true ->
  exists h1 b cid p k h2, h = h1 ++ (OpMessage b (MainHid cid), k) :: h2 /\
    parse_command (e_cfg e) b = Ok (CConfig p) /\ cf_sub_ p = CfEnterprise /\
    c_ep (e_cfg e) <> None /\ p_ent (w_p (run e h1)) <> None /\ p_ep (w_p (run e h1)) = false /\
    (forall a z, h2 = a ++ z -> p_ep (w_p (run e (h1 ++ (OpMessage b (MainHid cid), k) :: a))) = true) /\
    ((p_pin (w_p (run e h1)) = None /\ always_uv e (w_p (run e h1)) = false) \/
     exists sg pp msg, cf_auth p = Some sg /\ cf_proto p = Some pp /\
       match cf_data p with
       | None => msg = repeat 255%N 32 ++ [0x0D%N; 1%N]
       | Some d => exists c, cbor_write (minpin_to_cbor d) = Some c /\
                     msg = repeat 255%N 32 ++ [0x0D%N; 1%N] ++ c
       end /\
       authorised (e_prims e) (w_log (run e h1)) (w_now (run e h1)) pp msg sg 32 (fun _ => True)).
Proof.
  intros e h H. destruct (switched e h H) as (h1 & b & cid & p & k & h2 & -> & (_ & Hx & Sub) & A1 & A2 & A3 & A4).
  exists h1, b, cid, p, k, h2. do 7 (split; [assumption || reflexivity | ]).
  destruct (run_op e (OpMessage b (MainHid cid)) (run e h1)) as [out w'] eqn:E.
  destruct (C27_authorised e h1 b cid p out w' Hx E) as [(s & _ & P & L) | [[N [T | V]] | X]].
  - exfalso. specialize (A4 [] h2 eq_refl). rewrite run_app in A4.
    rewrite step_nothing in A4; [congruence | now rewrite E | now rewrite E].
  - congruence.
  - left. auto.
  - right. rewrite Sub in X. exact X.
Qed.
Print Assumptions C76_enabled.

(** A customization that passes the repository's own check never lets a device present the batch
    certificate in one CTAP2 registration and the enterprise certificate in another. *)
Theorem C76_one_kind : forall e h1 b1 ch1 r1 w1 h2 b2 ch2 r2 w2,
  is_valid (e_cfg e) = true ->
  run_op e (OpMessage b1 ch1) (run e h1) = (OutCtap (Ok (RMakeCredential r1)), w1) ->
  run_op e (OpMessage b2 ch2) (run e h2) = (OutCtap (Ok (RMakeCredential r2)), w2) ->
  mr_ep r1 = true -> mr_x5c r2 <> None -> mr_ep r2 = true.
Proof.
  intros e h1 b1 ch1 r1 w1 h2 b2 ch2 r2 w2 V H1 H2 E1 X2.
  destruct (C76_enterprise _ _ _ _ _ _ H1) as (p & _ & D). apply D in E1 as (n & mode & _ & Cep & _).
  destruct (C76_certificate _ _ _ _ _ _ H2) as (q & _ & k & pre & id & pub & post & _ & _ & _ & _ & S).
  destruct (mr_x5c r2) as [cert | ]; [ | congruence]. destruct S as (ak & _ & [[S _] | (_ & B & _)]); [exact S | ].
  destruct (valid_facts _ V) as (_ & _ & VB & _). rewrite (VB B) in Cep. discriminate.
Qed.
Print Assumptions C76_one_kind.

(** A U2F registration always presents the stored batch certificate, whatever the customization. *)
Theorem C76_u2f : forall e h b c a r w',
  u2f_parse b = Ok (U2fRegister c a) ->
  run_op e (OpU2f b) (run e h) = (OutU2f (Ok r), w') ->
  exists k kh ak cert, p_batch (w_p (run e h)) = Some (ak, cert) /\
    let pk := 4%N :: cx (pub_of (e_prims e) k) ++ cy (pub_of (e_prims e) k) in
    r = [5%N] ++ pk ++ [Nlen kh] ++ kh ++ cert ++
        sign (e_prims e) (mkPriv Es256 ak) ([0%N] ++ a ++ c ++ kh ++ pk).
Proof.
  intros e h b c a r w' Hx H.
  assert (G : exists w0, w_p w0 = w_p (run e h) /\ u2f_register e c a w0 = (Ok r, w')).
  { cbn [run_op] in H. destruct (u2f_process e b (run e h)) as [r0 w0] eqn:E. injection H as -> ->.
    unfold u2f_process in E. apply bind_ok in E as (al & w2 & E2 & E).
    apply map_status_ok in E2. apply reads_ok in E2; [ | reads_walk]. destruct E2 as (P2 & _).
    apply bind_ok in E as (? & w3 & E3 & E). apply guard_ok in E3 as [_ ->].
    apply bind_ok in E as (x' & w4 & E4 & E). unfold lift in E4. rewrite Hx in E4. injection E4 as <- <-.
    apply bind_ok in E as (ok & w5 & E5 & E). apply bind_ok in E as (? & w6 & E6 & E). apply guard_ok in E6 as [_ ->].
    exists w5. split; [ | exact E]. rewrite <- P2. unfold consume, bind, now, gets in E5. cbn in E5.
    repeat match type of E5 with context [match ?x with _ => _ end] => destruct x end; now injection E5 as <- <-. }
  destruct G as (w0 & P & G). destruct (u2f_attested e c a w0 r w' G) as (k & kh & ak & cert & B & _ & ->).
  exists k, kh, ak, cert. rewrite <- P. split; [exact B | reflexivity].
Qed.
Print Assumptions C76_u2f.

(** A device in the mode where the platform decides, one where the vendor decides, and one with batch
    attestation, with certificates. *)
Definition ent_cfg (m : ep_mode) : cfg := mkCfg 8 4 [] 4 false true 8 1024 1024 32 None (Some m) [str "corp.com"] false true
  (repeat 7%N 16) None None true 64.
Definition batch_cfg : cfg := mkCfg 8 4 [] 4 false true 8 1024 1024 32 None None [] true true
  (repeat 7%N 16) None None true 64.
Definition on_cfg (c : cfg) : env := mkEnv toy_prims c toy_rnd (fun _ => (UpConfirmed, 1000%N)) (fun _ => None).
Definition certified : history :=
  [(OpVendor ch0 (Some (repeat 7%N 32, [8; 8]%N)) (Some (repeat 9%N 32, [9; 9]%N)), None)].
Definition enable_msg : bytes := message 13 [(1%N, VUnsigned 1)].
Definition ep_msg (rp : bytes) (n : N) : bytes :=
  message 1 [(1%N, VBytes cdh0); (2%N, VMap [(text "id", VText rp)]); (3%N, VMap [(text "id", VBytes [1; 1]%N)]);
              (4%N, VArray [VMap [(text "alg", VNegative (-7)); (text "type", text "public-key")]]);
              (10%N, VUnsigned n)].
Definition shown (o : outcome) : option (bool * option bytes) :=
  match o with OutCtap (Ok (RMakeCredential r)) => Some (mr_ep r, mr_x5c r) | _ => None end.
Definition ask (c : cfg) (h : history) (m : bytes) := shown (fst (run_op (on_cfg c) (OpMessage m ch0) (run (on_cfg c) h))).
Example C76_nonvacuous :
  let enabled := certified ++ [on enable_msg] in
  forallb is_valid [ent_cfg EpPlatform; ent_cfg EpVendor; batch_cfg] = true /\
  p_ep (w_p (run (on_cfg (ent_cfg EpPlatform)) enabled)) = true /\
  ask (ent_cfg EpPlatform) enabled (ep_msg toy_rp 2) = Some (true, Some [9; 9]%N) /\
  ask (ent_cfg EpPlatform) enabled (ep_msg toy_rp 1) = Some (false, None) /\
  ask (ent_cfg EpPlatform) enabled (ep_msg (str "corp.com") 1) = Some (true, Some [9; 9]%N) /\
  ask (ent_cfg EpVendor) enabled (ep_msg toy_rp 2) = Some (false, None) /\
  ask (ent_cfg EpVendor) enabled (ep_msg (str "corp.com") 2) = Some (true, Some [9; 9]%N) /\
  ask (ent_cfg EpVendor) enabled (mc_msg (str "corp.com") [1; 1]%N false None) = Some (false, None) /\
  ask (ent_cfg EpPlatform) certified (ep_msg toy_rp 2) = None /\
  ask batch_cfg certified (mc_msg toy_rp [1; 1]%N false None) = Some (false, Some [8; 8]%N) /\
  ask toy_cfg certified (mc_msg toy_rp [1; 1]%N false None) = Some (false, None).
Proof. vm_compute. repeat split; reflexivity. Qed.

(** ** C77 *)

(** What the theorems about the device assume of its customization follows from the repository's own
    check, with the two conditions that are tested elsewhere: the number of resident keys fits the
    range of storage keys, and usize has 32 or 64 bits. *)
Theorem C77_assumed : forall c, is_valid c = true -> (c_max_rk c <= 300)%nat ->
  (c_width c = 32%N \/ c_width c = 64%N) -> cfg_ok c.
Proof.
  intros c V R W. destruct (valid_facts c V) as (A1 & A2 & _ & _ & _ & A3 & A4 & _ & A5 & _). split; assumption.
Qed.
Print Assumptions C77_assumed.

(** The check refuses nothing but what its comments say. *)
Theorem C77_exact : forall c, is_valid c = true <->
  (1024 <= c_max_msg c <= 7609)%N /\ (4 <= c_min_pin c <= 63)%N /\
  ~ (c_batch c = true /\ c_ep c <> None) /\
  (c_ep c = Some EpVendor -> c_ep_rps c <> []) /\ (c_ep c = None -> c_ep_rps c = []) /\
  (c_max_retries c <= 8)%N /\ (32 <= c_max_cred_blob c <= 64)%nat /\ c_max_list c <> Some 0%N /\
  (1024 <= c_max_blob c)%N /\ (c_max_rp_ids c = 0%nat -> c_min_pin_rps c <> []).
Proof.
  intro c. split.
  - intro V. destruct (valid_facts c V) as (A1 & A2 & A3 & A4 & A5 & A6 & A7 & A8 & A9 & A10).
    repeat (split; [assumption | ]). split; [ | split; [ | split; [ | split; [ | split; [ | split; [ | split]]]]]]; auto.
    + intros [B N]. apply N, A3, B.
    + intro E. specialize (A8 _ E). lia.
  - intros (A1 & A2 & A3 & A4 & A5 & A6 & A7 & A8 & A9 & A10). unfold is_valid.
    rewrite !andb_true_iff, !negb_true_iff, !orb_false_iff, !N.ltb_ge, !Nat.ltb_ge.
    repeat split; try apply A1; try apply A2; try apply A7; try assumption.
    + destruct (c_batch c), (c_ep c); try reflexivity. exfalso. apply A3. split; [reflexivity | discriminate].
    + destruct (c_ep c) as [[ | ] | ]; try reflexivity. destruct (c_ep_rps c); [ | reflexivity]. now destruct (A4 eq_refl).
    + destruct (c_ep c); [reflexivity | ]. now rewrite (A5 eq_refl).
    + destruct (c_max_list c) as [n | ]; [ | reflexivity]. apply N.ltb_ge. destruct n; [now destruct A8 | lia].
    + destruct (c_max_rp_ids c); [ | reflexivity]. destruct (c_min_pin_rps c); [now destruct (A10 eq_refl) | reflexivity].
Qed.
Print Assumptions C77_exact.

(** Finding: the check accepts a device with no PIN attempt at all.  There the PIN just set is
    refused as blocked. *)
Definition no_tries : cfg := mkCfg 0 4 [] 4 false true 8 1024 1024 32 None None [] false true
  (repeat 7%N 16) None None true 64.
Theorem C77_pin_usable_refuted :
  exists e h, is_valid (e_cfg e) = true /\ cfg_ok (e_cfg e) /\ prims_ok (e_prims e) /\ nofault e /\
    p_pin (w_p (run e [])) = None /\
    h = [on (set_pin_msg toy_pin)] /\
    fst (run_op e (OpMessage (set_pin_msg toy_pin) ch0) (run e [])) = OutCtap (Ok (RClientPin None)) /\
    fst (run_op e (OpMessage (get_token_msg toy_pin) ch0) (run e h)) = OutCtap (Err PIN_BLOCKED).
Proof.
  exists (on_cfg no_tries), [on (set_pin_msg toy_pin)]. split; [vm_compute; reflexivity | ].
  split; [split; cbn; lia | ]. split; [exact toy_prims_ok | ]. split; [intro; reflexivity | ].
  vm_compute. repeat split; reflexivity.
Qed.
Print Assumptions C77_pin_usable_refuted.
Example C77_nonvacuous :
  is_valid toy_cfg = true /\ is_valid (ent_cfg EpVendor) = true /\ is_valid batch_cfg = true /\
  is_valid (mkCfg 8 4 [] 4 false true 8 1024 1024 32 None (Some EpPlatform) [] true true (repeat 7%N 16) None None true 64) = false /\
  is_valid (mkCfg 8 4 [] 4 false true 8 1024 1024 32 None (Some EpVendor) [] false true (repeat 7%N 16) None None true 64) = false.
Proof. vm_compute. repeat split; reflexivity. Qed.
